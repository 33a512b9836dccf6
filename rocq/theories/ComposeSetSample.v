(** A set storage that is not among those of the crate: a vector without
    duplicates, newest element first.  It stands for storages written by hand by
    users of the trait of src/set/storage.rs:22-62. *)
Require Import List Arith NArith ZArith Bool Lia.
Import ListNotations.
From Verif Require Import Std Traits Hashbrown SetStorages DeriveAny Api Spec SetHistory
  ComposeSpec SetCore ComposeProofs ComposeSample ComposeSets.

Definition vec_has (l : list nat) (k : nat) : bool := existsb (Nat.eqb k) l.

Definition vec_set_storage : SetStorage nat := {|
  ss_St := list nat;
  ss_Iter := hash_it nat;
  ss_IntoIter := hash_it nat;
  ss_empty := fun _ => [];
  ss_len := @length nat;
  ss_is_empty := fun l => length l =? 0;
  ss_insert := fun l k => if vec_has l k then (false, l) else (true, k :: l);
  ss_contains := vec_has;
  ss_remove := fun l k => (vec_has l k, filter (fun x => negb (Nat.eqb k x)) l);
  ss_retain := fun X f x l => retain_elems f x l;
  ss_clear := fun _ => [];
  ss_iter := fun l => l;
  ss_into_iter := fun l => rev l;
  ss_clone := fun l => l;
  ss_eq := fun a b => forallb (vec_has b) a && forallb (vec_has a) b;
  ss_hash := None;
  ss_partial_cmp := None;
  ss_cmp := None;
  ss_raw := None
|}.

Lemma vec_has_in l k : vec_has l k = true <-> In k l.
Proof.
  unfold vec_has. rewrite existsb_exists. split.
  - intros (x & H & E). apply Nat.eqb_eq in E as ->. exact H.
  - intros H. exists k. split; [exact H|apply Nat.eqb_refl].
Qed.

Lemma bool_iff (a b : bool) : (a = true <-> b = true) -> a = b.
Proof. destruct a, b; intros [H1 H2]; auto; try (discriminate (H1 eq_refl)); discriminate (H2 eq_refl). Qed.

Lemma retain_nodup {X T} (f : set_retain_fn X T) l : forall x x' l' o,
  retain_elems f x l = (x', l', o) -> NoDup l -> NoDup l'.
Proof.
  induction l as [|k l IH]; intros x x' l' o; simpl.
  - intros [= <- <- <-] H. exact H.
  - intros E H. inversion H as [|? ? Hn Hd]; subst. destruct (f x k) as [x1 []].
    + destruct (retain_elems f x1 l) as [[x2 r2] o2] eqn:R. injection E as <- <- <-.
      constructor; [|exact (IH _ _ _ _ R Hd)].
      intros C. apply Hn. exact (retain_elems_incl _ _ _ _ _ _ R _ C).
    + exact (IH _ _ _ _ E Hd).
    + injection E as <- <- <-. exact H.
    + exact (IH _ _ _ _ E Hd).
Qed.

Lemma vec_acts : acts_as_set true vec_set_storage.
Proof.
  apply (sfacts_acts true vec_set_storage (@NoDup nat)).
  - intros w. split; [constructor|reflexivity].
  - intros l N.
    assert (El : elements (vec_has l) l).
    { split; [exact N|]. intros k. symmetry. apply vec_has_in. }
    constructor; simpl.
    + intros k. destruct (vec_has l k) eqn:E.
      * split; [exact N|]. split; [split; [exact E|reflexivity]|reflexivity].
      * split; [constructor; [|exact N]; rewrite <- vec_has_in, E; discriminate|].
        split; [|reflexivity]. split; [apply vec_has_in; left; reflexivity|].
        intros k' Hk. apply bool_iff. rewrite !vec_has_in. simpl. split; [intros [<-|H]; [congruence|exact H]|auto].
    + intros k. split; [apply NoDup_filter; exact N|]. split; [|reflexivity].
      split.
      * apply not_true_is_false. rewrite vec_has_in, filter_In, Nat.eqb_refl. intros [_ C]. discriminate C.
      * intros k' Hk. apply bool_iff. rewrite !vec_has_in, filter_In. split; [tauto|]. intros H. split; [exact H|].
        apply negb_true_iff. apply Nat.eqb_neq. congruence.
    + exists l. auto.
    + intros _. rewrite Nat.eqb_eq. split.
      * intros E k. destruct l; [reflexivity|discriminate E].
      * intros H. destruct l as [|k l]; [reflexivity|]. specialize (H k).
        assert (C : vec_has (k :: l) k = true) by (apply vec_has_in; left; reflexivity). congruence.
    + split; [constructor|reflexivity].
    + exists l. split; [exact El|apply list_gives].
    + intros X f x. destruct (retain_elems f x l) as [[x' l'] o] eqn:R.
      exists l, x', l', l', o. split; [reflexivity|]. pose proof (retain_nodup _ _ _ _ _ _ R N) as N'.
      split; [exact N'|]. split; [exact El|]. split; [exact R|].
      destruct o.
      * split; [exact N'|]. intros k. symmetry. apply vec_has_in.
      * split; intros k; rewrite ?vec_has_in; [|auto]. exact (retain_elems_incl _ _ _ _ _ _ R k).
    + exists (rev l). split; [|apply list_gives]. split; [apply NoDup_rev; exact N|].
      intros k. rewrite <- in_rev. symmetry. apply vec_has_in.
Qed.
