(** Facts about the sets of lawful storages. *)
Require Import List Arith NArith ZArith Bool Lia Permutation Sorted.
Import ListNotations.
From Verif Require Import Std Traits Key Api Spec Reach SetHistory IterLaws IterFacts MapCore MapLaws
  SetCore SetLaws MapFacts.

Lemma elements_perm {T} (p : T -> bool) l l' : elements p l -> elements p l' -> Permutation l l'.
Proof.
  intros [N H] [N' H']. apply NoDup_Permutation; auto. intros x. rewrite H, H'. reflexivity.
Qed.

Lemma elements_ext {T} (p q : T -> bool) l : same_set p q -> elements p l -> elements q l.
Proof. intros E [N H]. split; auto. intros x. rewrite H, E. reflexivity. Qed.

Lemma bool_ext (a b : bool) : (a = true <-> b = true) -> a = b.
Proof. intros H. destruct a, b; intuition. Qed.

Section Facts.
  Context {T : Type} {sp : KeySpec T} {m : SetStorage T} (L : SetLaws sp m).
  Notation inv := (sc_inv (sl_core L)).
  Notation abs := (sc_abs (sl_core L)).
  Notation reach := (set_reachable m).

  Lemma s_contains_in st k : inv st -> (set_contains m st k = true <-> In k (abs st)).
  Proof. intros H. exact (sc_contains _ _ (sl_core L) st k H). Qed.

  Lemma s_elements st : inv st -> elements (set_contains m st) (abs st).
  Proof.
    intros H. split; [exact (sc_nodup _ _ (sl_core L) st H)|].
    intros x. rewrite s_contains_in by auto. reflexivity.
  Qed.

  Lemma s_iter st : inv st -> yields (ss_Iter m) (set_iter m st) (abs st).
  Proof.
    intros H. destruct (sl_iter _ _ L st H) as [Hok E]. rewrite <- E.
    exact (yields_rem _ (sl_Iter L) _ Hok).
  Qed.

  Lemma s_into_iter st : inv st -> yields (ss_IntoIter m) (set_into_iter m st) (abs st).
  Proof.
    intros H. destruct (sl_into_iter _ _ L st H) as [Hok E]. rewrite <- E.
    exact (yields_rem _ (sl_IntoIter L) _ Hok).
  Qed.

  Lemma s_insert st k : inv st ->
    inv (snd (set_insert m st k)) /\ adds (set_contains m st) k (set_contains m (snd (set_insert m st k))) /\
    fst (set_insert m st k) = (if inverted (ks_leaf sp k) then set_contains m st k
                               else negb (set_contains m st k)).
  Proof.
    intros H. destruct (sc_insert _ _ (sl_core L) st k H) as (st' & E & H' & A).
    unfold set_insert. change (p_insert (sops_of m) st k) with (ss_insert m st k) in E. rewrite E.
    cbn [fst snd]. split; auto. split; [|reflexivity].
    change (p_contains (sops_of m) st k) with (set_contains m st k) in A. split.
    - apply s_contains_in; auto. destruct (set_contains m st k) eqn:C.
      + rewrite A. apply s_contains_in; auto.
      + rewrite A. left. auto.
    - intros x Hx. apply bool_ext. rewrite !s_contains_in by auto.
      destruct (set_contains m st k); rewrite A; [reflexivity|]. simpl. intuition congruence.
  Qed.

  Lemma s_remove st k : inv st ->
    inv (snd (set_remove m st k)) /\ drops (set_contains m st) k (set_contains m (snd (set_remove m st k))) /\
    fst (set_remove m st k) =
      set_contains m st k || sib_contains (set_contains m st) (ks_sib sp k).
  Proof.
    intros H. destruct (sc_remove _ _ (sl_core L) st k H) as (st' & E & H' & A).
    unfold set_remove. change (p_remove (sops_of m) st k) with (ss_remove m st k) in E. rewrite E.
    cbn [fst snd]. split; auto. split; [|reflexivity].
    pose proof (sc_keqb _ _ (sl_core L)) as Q. split.
    - apply not_true_is_false. rewrite s_contains_in, A, filter_In by auto. intros [_ F].
      rewrite (proj2 (Q k k) eq_refl) in F. discriminate.
    - intros x Hx. apply bool_ext. rewrite !s_contains_in, A, filter_In by auto.
      destruct (ks_eqb sp k x) eqn:F; simpl; [apply Q in F; congruence|]. tauto.
  Qed.

  Lemma s_clear st : inv st ->
    inv (set_clear m st) /\ abs (set_clear m st) = [] /\ forall k, set_contains m (set_clear m st) k = false.
  Proof.
    intros H. destruct (sc_clear _ _ (sl_core L) st H) as [H' A].
    split; [exact H'|]. split; [exact A|]. intros k. apply not_true_is_false.
    rewrite s_contains_in; [|exact H'].
    change (set_clear m st) with (p_clear (sops_of m) st). rewrite A. auto.
  Qed.

  Lemma s_new w : inv (set_new m w) /\ abs (set_new m w) = [] /\ forall k, set_contains m (set_new m w) k = false.
  Proof.
    destruct (sl_empty _ _ L w) as [H A]. split; auto. split; auto. intros k.
    apply not_true_is_false. unfold set_new. rewrite s_contains_in, A; auto.
  Qed.

  Lemma s_len st : inv st -> set_len m st = length (abs st).
  Proof. intros H. exact (sc_len _ _ (sl_core L) st H). Qed.

  Lemma s_is_empty st : inv st ->
    (set_is_empty m st = true <-> forall k, set_contains m st k = true <-> ks_leaf sp k = LNone).
  Proof. intros H. exact (sc_is_empty _ _ (sl_core L) st H). Qed.

  Lemma s_clone st : set_clone m st = st.
  Proof. exact (sc_clone _ _ (sl_core L) st). Qed.

  Lemma s_eq a b : inv a -> inv b ->
    (set_eq m a b = true <-> forall k, set_contains m a k = set_contains m b k).
  Proof. intros Ha Hb. exact (sc_eq _ _ (sl_core L) a b Ha Hb). Qed.

  Lemma s_retain X (f : set_retain_fn X T) x st : inv st ->
    exists x' st' oc l', set_retain m f x st = (x', st', oc) /\ inv st' /\
      retain_elems f x (sc_vis (sl_core L) st) = (x', l', oc) /\
      match oc with
      | Done => abs st' = l'
      | Unwound =>
          (forall k, In k (abs st') -> In k (abs st) \/ In k l' /\ ks_leaf sp k = LUnit) /\
          (forall k, In k (abs st) -> In k l' -> In k (abs st'))
      end.
  Proof. intros H. exact (sc_retain_some (sl_core L) X f x st H). Qed.

  Lemma s_reach_inv st : reach st -> inv st.
  Proof.
    induction 1.
    - apply s_new.
    - apply s_insert; auto.
    - apply s_remove; auto.
    - apply s_clear; auto.
    - destruct (s_retain S f s st IHset_reachable) as (x' & st' & oc & l' & E & H' & _).
      rewrite E. exact H'.
    - rewrite s_clone. auto.
  Qed.

  Lemma s_vis_free st : (forall k, ks_leaf sp k <> LUnit) -> inv st -> sc_vis (sl_core L) st = abs st.
  Proof.
    intros F H. rewrite <- (sc_vis_filter _ _ (sl_core L) st H). symmetry.
    assert (G : forall l, (forall k, In k l -> p_contains (sops_of m) st k = true) ->
                          filter (p_contains (sops_of m) st) l = l).
    { induction l as [|a l IH]; simpl; auto. intros G. rewrite (G a) by auto. f_equal. apply IH. intros k Hk. apply G. right. exact Hk. }
    apply G. intros k Hk. apply (sc_contains _ _ (sl_core L) st k H).
    apply (sc_vis_in _ _ (sl_core L) st k H) in Hk. destruct Hk as [Hk|Hk]; auto.
    exfalso. eapply F; eauto.
  Qed.
End Facts.
