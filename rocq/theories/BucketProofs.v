(** Proofs about clients of the option buckets. *)
Require Import List Arith Lia.
Import ListNotations.
From Verif Require Import Std Traits OptionBucket BucketSpec MapCore MapLaws.

Lemma nth_put {A} (l : list A) : forall i a x, nth_error l i = Some x ->
  nth_error (put l i a) i = Some a.
Proof. induction l; intros [|i] b x; simpl; intros H; try discriminate; eauto. Qed.

Lemma nth_put_other {A} (l : list A) : forall i j a, i <> j ->
  nth_error (put l i a) j = nth_error l j.
Proof. induction l; intros [|i] [|j] b H; simpl; auto; try lia. Qed.

Lemma map_put {A B} (f : A -> B) (l : list A) : forall i a,
  map f (put l i a) = put (map f l) i (f a).
Proof. induction l; intros [|i] b; simpl; auto. rewrite IHl. reflexivity. Qed.

Lemma put_same {A} (l : list A) : forall i a, nth_error l i = Some a -> put l i a = l.
Proof.
  induction l; intros [|i] b H; simpl in *; auto; try congruence. rewrite IHl; auto.
Qed.

Lemma put_put {A} (l : list A) : forall i a b, put (put l i a) i b = put l i b.
Proof. induction l; intros [|i] x y; simpl; auto. rewrite IHl. reflexivity. Qed.

(** The buckets held fit the options. *)
Definition fits {T} (i : nat) (e : option T * status) : option option_bucket :=
  match snd e with
  | Free => None
  | HasSome => Some (OBSome (MkSomeBucket [i]))
  | HasNone => Some (OBNone (MkNoneBucket [i]))
  end.

Definition honest {T} (e : option T * status) : Prop :=
  match e with
  | (None, HasSome) | (Some _, HasNone) => False
  | _ => True
  end.

Fixpoint imap {A B} (f : nat -> A -> B) (n : nat) (l : list A) : list B :=
  match l with
  | [] => []
  | a :: r => f n a :: imap f (S n) r
  end.

Lemma nth_imap {A B} (f : nat -> A -> B) (l : list A) : forall n i,
  nth_error (imap f n l) i = option_map (f (n + i)) (nth_error l i).
Proof.
  induction l as [|a l IH]; intros n [|i]; simpl; auto.
  - rewrite Nat.add_0_r. reflexivity.
  - rewrite IH. replace (S n + i) with (n + S i) by lia. reflexivity.
Qed.

Lemma imap_put {A B} (f : nat -> A -> B) (l : list A) : forall n i a,
  imap f n (put l i a) = put (imap f n l) i (f (n + i) a).
Proof.
  induction l as [|b l IH]; intros n [|i] a; simpl; auto.
  - rewrite Nat.add_0_r. reflexivity.
  - rewrite IH. replace (S n + i) with (n + S i) by lia. reflexivity.
Qed.

Lemma Forall_put {A} (P : A -> Prop) l : forall i a, Forall P l -> P a -> Forall P (put l i a).
Proof.
  induction l as [|b l IH]; intros [|i] a H Ha; simpl; auto; inversion H; subst;
    constructor; auto.
Qed.

Section Client.
  Context {T : Type}.
  Local Notation vars := (list (option T * status)).
  Local Notation mem l := (map fst (l : vars)).
  Local Notation buckets l := (imap fits 0 (l : vars)).

  Lemma write_through_ok (l : list (option T)) i v f : nth_error l i = Some (Some v) ->
    write_through l [i] f = Ok (v, put l i (Some (f v))).
  Proof.
    intros H. unfold write_through, cell_load, cell_store. simpl. rewrite H. reflexivity.
  Qed.

  Lemma exec_ok (c : cmd T) (l : vars) : Forall honest l ->
    exec c (mem l) (buckets l) =
    match nth_error l (var_of c) with
    | Some (o, s) => let '(x, o', s') := effect c o s in
                     let l' := put l (var_of c) (o', s') in
                     Ok (x, mem l', buckets l')
    | None => Ok (ORejected, mem l, buckets l)
    end.
  Proof.
    intros Hl.
    assert (Hh : nth_error (buckets l) (var_of c) =
                 option_map (fits (var_of c)) (nth_error l (var_of c)))
      by (rewrite nth_imap; reflexivity).
    assert (Hm : nth_error (mem l) (var_of c) = option_map fst (nth_error l (var_of c)))
      by apply nth_error_map.
    destruct (nth_error l (var_of c)) as [[o s]|] eqn:E.
    2:{ destruct c; simpl in *; rewrite Hh; reflexivity. }
    assert (Ho : honest (o, s)) by (rewrite Forall_forall in Hl; apply Hl; eapply nth_error_In; eauto).
    simpl in Hh, Hm.
    assert (Hs : forall x, put (mem l) (var_of c) x = mem (put l (var_of c) (x, s)))
      by (intros; rewrite map_put; reflexivity).
    destruct c; destruct o as [w|]; destruct s; simpl in *; try contradiction;
      rewrite Hh; simpl; rewrite ?map_put, ?imap_put; simpl;
      unfold some_new, none_new, option_bucket_new, some_new_unchecked, none_new_unchecked,
        some_as_ref, some_as_mut, some_into_mut, some_replace, some_take, none_insert,
        some_as_mut, cell_read, cell_write; simpl;
      repeat (rewrite Hm; simpl);
      rewrite ?(write_through_ok _ _ _ _ Hm); simpl;
      repeat (rewrite Hm; simpl);
      rewrite ?(put_same _ _ _ Hm); cbn [fits snd] in Hh |- *;
      rewrite ?(put_same _ _ _ Hh); try reflexivity.
    all: rewrite (nth_put _ _ _ _ Hm); simpl.
    all: rewrite (write_through_ok _ _ _ _ (nth_put _ _ _ _ Hm)); simpl.
    all: rewrite put_put; reflexivity.
  Qed.

  Lemma effect_honest (c : cmd T) o s x o' s' : honest (o, s) ->
    effect c o s = (x, o', s') -> honest (o', s').
  Proof. destruct c, s, o; simpl; intros H [= <- <- <-]; auto;
    match goal with |- match ?x with _ => _ end => destruct x; exact I end.
  Qed.

  Lemma execs_ok (cs : list (cmd T)) : forall l : vars, Forall honest l ->
    execs cs (mem l) (buckets l) = Ok (plain_client cs l).
  Proof.
    induction cs as [|c cs IH]; intros l Hl; [reflexivity|]. simpl.
    rewrite (exec_ok c l Hl). destruct (nth_error l (var_of c)) as [[o s]|] eqn:E.
    - destruct (effect c o s) as [[x o'] s'] eqn:Ee. simpl.
      rewrite IH.
      + simpl. destruct (plain_client cs _) as [xs l']. reflexivity.
      + apply Forall_put; auto. eapply effect_honest; eauto.
        rewrite Forall_forall in Hl. apply Hl. eapply nth_error_In; eauto.
    - simpl. rewrite IH by assumption. simpl. destruct (plain_client cs l). reflexivity.
  Qed.

  Lemma client_ok (cs : list (cmd T)) (l : list (option T)) :
    run_client cs l = Ok (plain_client cs (map (fun o => (o, Free)) l)).
  Proof.
    unfold run_client.
    rewrite <- (execs_ok cs (map (fun o => (o, Free)) l)).
    - f_equal.
      + rewrite map_map, map_id. reflexivity.
      + generalize 0. induction l; intros n; simpl; auto. rewrite (IHl (S n)) at 1. reflexivity.
    - rewrite Forall_forall. intros e H. apply in_map_iff in H as (o & <- & _).
      destruct o; exact I.
  Qed.
End Client.
