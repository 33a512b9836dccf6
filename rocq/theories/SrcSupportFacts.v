(** What the comparisons of src/macro_support.rs depend on. *)
Require Import List Arith Bool Lia.
Import ListNotations.
From Verif Require Import Std Traits DeriveUnit SrcSupportSpec.

Section Facts.
  Context {V : Type} (c : V -> V -> comparison).
  Notation pure := (fun (s : unit) (v w : V) => (s, Some (c v w))).
  Notation pairs k l := (filter_map ms_flatten (enumerate_from k l)).
  Notation go := (iter_cmp_with (pair_cmp_with pure) tt).

  Lemma pairs_later : forall (l : list (option V)) k, pairs k l = [] /\ existsb is_some l = false \/
    exists i v r, pairs k l = (i, v) :: r /\ k <= i /\ existsb is_some l = true.
  Proof.
    induction l as [|[v|] l IH]; intro k; cbn.
    - now left.
    - right. exists k, v, (pairs (S k) l). repeat split. lia.
    - destruct (IH (S k)) as [H|(i & v & r & E & L & X)]; [now left|].
      right. exists i, v, r. repeat split; [exact E|lia|exact X].
  Qed.
  Lemma go_alike : forall pre pre' k r r', Forall2 (alike c) pre pre' ->
    go (pairs k (pre ++ r)) (pairs k (pre' ++ r')) = go (pairs (k + length pre) r) (pairs (k + length pre) r').
  Proof.
    intros pre pre' k r r' H. revert k. induction H as [|x y pre pre' A H IH]; intro k.
    - cbn. now rewrite Nat.add_0_r.
    - replace (k + length (x :: pre)) with (S k + length pre) by (cbn; lia). rewrite <- IH. clear IH.
      destruct x as [v|], y as [w|]; cbn in A; try contradiction; cbn; [|reflexivity].
      unfold pair_cmp_with at 1. cbn. now rewrite Nat.compare_refl, A.
  Qed.
  Lemma go_values : forall k v w r r', c v w <> Eq -> go (pairs k (Some v :: r)) (pairs k (Some w :: r')) = (tt, Some (c v w)).
  Proof.
    intros k v w r r' H. cbn. unfold pair_cmp_with at 1. cbn. rewrite Nat.compare_refl.
    destruct (c v w); [contradiction|reflexivity|reflexivity].
  Qed.
  Lemma go_left : forall k v (r r' : list (option V)), go (pairs k (Some v :: r)) (pairs k (None :: r')) =
    (tt, Some (if existsb is_some r' then Lt else Gt)).
  Proof.
    intros k v r r'. cbn. destruct (pairs_later r' (S k)) as [[E X]|(i & w & l & E & L & X)]; rewrite E, X; [reflexivity|].
    unfold pair_cmp_with at 1. cbn. now rewrite (proj2 (Nat.compare_lt_iff k i)) by lia.
  Qed.
  Lemma go_right : forall k w (r r' : list (option V)), go (pairs k (None :: r)) (pairs k (Some w :: r')) =
    (tt, Some (if existsb is_some r then Gt else Lt)).
  Proof.
    intros k w r r'. cbn. destruct (pairs_later r (S k)) as [[E X]|(i & v & l & E & L & X)]; rewrite E, X; [reflexivity|].
    unfold pair_cmp_with at 1. cbn. now rewrite (proj2 (Nat.compare_gt_iff i k)) by lia.
  Qed.
  Lemma compares_go : forall a b o, compares c a b o -> storage_iterator_cmp_with pure tt a b = (tt, Some o).
  Proof.
    intros a b o H. unfold storage_iterator_cmp_with, enumerate.
    destruct H as [a b A|pre pre' v w r r' A N|pre pre' v r r' A|pre pre' w r r' A].
    - rewrite <- (app_nil_r a), <- (app_nil_r b), go_alike by exact A. reflexivity.
    - rewrite go_alike by exact A. now apply go_values.
    - rewrite go_alike by exact A. apply go_left.
    - rewrite go_alike by exact A. apply go_right.
  Qed.
  (** Slices of the same length always compare. *)
  Lemma compares_always : forall a b, length a = length b -> exists o, compares c a b o.
  Proof.
    intros a b L.
    assert (H : Forall2 (alike c) a b \/ exists pre pre' x y r r', Forall2 (alike c) pre pre' /\ ~ alike c x y /\
      a = pre ++ x :: r /\ b = pre' ++ y :: r').
    { revert b L. induction a as [|x a IH]; intros [|y b] L; try discriminate L; [left; constructor|].
      assert (D : alike c x y \/ ~ alike c x y).
      { destruct x as [v|], y as [w|]; cbn; try tauto. destruct (c v w); (left; reflexivity) || (right; discriminate). }
      destruct D as [D|D]; [|right; exists [], [], x, y, a, b; repeat split; [constructor|exact D]].
      injection L as L. destruct (IH b L) as [H|(pre & pre' & x' & y' & r & r' & A & N & -> & ->)].
      - left. now constructor.
      - right. exists (x :: pre), (y :: pre'), x', y', r, r'. repeat split; [now constructor|exact N]. }
    destruct H as [H|(pre & pre' & x & y & r & r' & A & N & -> & ->)].
    - exists Eq. now constructor.
    - destruct x as [v|], y as [w|]; cbn in N.
      + exists (c v w). now constructor.
      + eexists. now apply cmp_left.
      + eexists. now apply cmp_right.
      + exfalso. now apply N.
  Qed.
End Facts.

(** [partial_cmp] of values that always compare. *)
Lemma partial_total : forall V (c : V -> V -> comparison) a b o,
  storage_iterator_cmp_with (fun (s : unit) v w => (s, Some (c v w))) tt a b = (tt, Some o) ->
  storage_iterator_partial_cmp_with (fun (s : unit) v w => (s, Some (Some (c v w)))) tt a b = (tt, Some (Some o)).
Proof.
  intros V c a b o. unfold storage_iterator_cmp_with, storage_iterator_partial_cmp_with.
  generalize (filter_map ms_flatten (enumerate a)) as x, (filter_map ms_flatten (enumerate b)) as y.
  induction x as [|[i v] x IH]; intros [|[j w] y] H; cbn in *; try (injection H as <-; reflexivity).
  unfold pair_cmp_with at 1 in H. unfold pair_partial_cmp_with at 1. cbn in *.
  destruct (Nat.compare i j); try (injection H as <-; reflexivity).
  destruct (c v w); try (injection H as <-; reflexivity). now apply IH.
Qed.

(** Sets: a flag is a value that is there or not. *)
Lemma flag_pairs : forall l k, filter ms_filter_bool (enumerate_from k l) = filter_map ms_flatten (enumerate_from k (map flag l)).
Proof. induction l as [|[|] l IH]; intro k; cbn; [reflexivity| |]; now rewrite IH. Qed.
Lemma flags_go : forall a b o, compares bool_cmp (map flag a) (map flag b) o -> storage_iterator_cmp_bool a b = o.
Proof.
  intros a b o H. apply compares_go in H. unfold storage_iterator_cmp_with in H. unfold storage_iterator_cmp_bool.
  unfold enumerate in *. rewrite !flag_pairs. revert H.
  generalize (filter_map ms_flatten (enumerate_from 0 (map flag a))) as x,
    (filter_map ms_flatten (enumerate_from 0 (map flag b))) as y.
  induction x as [|[i v] x IH]; intros [|[j w] y] H; cbn in *; try (now injection H as <-).
  unfold pair_cmp_with at 1 in H. unfold pair_cmp at 1. cbn in *.
  destruct (Nat.compare i j); try (now injection H as <-).
  destruct (bool_cmp v w); try (now injection H as <-). now apply IH.
Qed.
Lemma flags_partial : forall a b, storage_iterator_partial_cmp_bool a b = Some (storage_iterator_cmp_bool a b).
Proof.
  intros a b. unfold storage_iterator_partial_cmp_bool, storage_iterator_cmp_bool.
  generalize (filter ms_filter_bool (enumerate a)) as x, (filter ms_filter_bool (enumerate b)) as y.
  induction x as [|[i v] x IH]; intros [|[j w] y]; cbn; try reflexivity.
  unfold pair_partial_cmp at 1, pair_cmp at 1. cbn. destruct (Nat.compare i j); try reflexivity.
  destruct (bool_cmp v w); try reflexivity. apply IH.
Qed.
