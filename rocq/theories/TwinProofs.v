(** Two lawful storages for the same keys: sets and sets, sets and maps. *)
Require Import List Arith NArith ZArith Bool Lia Permutation Sorted.
Import ListNotations.
From Verif Require Import Std Traits Key Api Spec Reach SetHistory IterLaws IterFacts MapCore MapLaws
  SetCore SetLaws MapFacts MapProofs SetFacts SetProofs.

Lemma retain_elems_done {T} (f : list T -> T -> answer) : (forall log k, f log k <> Unwind) ->
  forall l log, snd (retain_elems (slogged f) log l) = Done.
Proof.
  intros F. induction l as [|k l IH]; intros log; simpl; auto.
  specialize (F log k). destruct (f log k); auto; [|congruence].
  specialize (IH (log ++ [k])). destruct (retain_elems (slogged f) (log ++ [k]) l) as [[? ?] ?]. auto.
Qed.

Section Sets.
  Context {T : Type} {sp : KeySpec T} {m1 m2 : SetStorage T} (L1 : SetLaws sp m1) (L2 : SetLaws sp m2).
  Hypothesis total : forall x y, x = y \/ ks_before sp x y \/ ks_before sp y x.
  Notation inv1 := (sc_inv (sl_core L1)).
  Notation inv2 := (sc_inv (sl_core L2)).
  Notation has1 := (set_contains m1).
  Notation has2 := (set_contains m2).

  Lemma twin_abs a b : inv1 a -> inv2 b -> same_set (has1 a) (has2 b) ->
    sc_abs (sl_core L1) a = sc_abs (sl_core L2) b.
  Proof.
    intros Ha Hb E. apply (sorted_unique (ks_before sp)).
    - intros x y _ _. apply total.
    - apply strongly_sorted_by. exact (sc_sorted _ _ (sl_core L1) a Ha).
    - apply strongly_sorted_by. exact (sc_sorted _ _ (sl_core L2) b Hb).
    - eapply elements_perm; [apply (s_elements L1); auto|].
      apply elements_ext with (has2 b); [intros k; symmetry; apply E|]. apply (s_elements L2); auto.
  Qed.

  Lemma twin_vis a b : inv1 a -> inv2 b -> same_set (has1 a) (has2 b) ->
    sc_vis (sl_core L1) a = sc_vis (sl_core L2) b.
  Proof.
    intros Ha Hb E. apply (sorted_unique (ks_before sp)).
    - intros x y _ _. apply total.
    - apply strongly_sorted_by. exact (sc_vis_sorted _ _ (sl_core L1) a Ha).
    - apply strongly_sorted_by. exact (sc_vis_sorted _ _ (sl_core L2) b Hb).
    - apply NoDup_Permutation.
      + exact (sc_vis_nodup _ _ (sl_core L1) a Ha).
      + exact (sc_vis_nodup _ _ (sl_core L2) b Hb).
      + intros k. rewrite (sc_vis_in _ _ (sl_core L1) a k Ha), (sc_vis_in _ _ (sl_core L2) b k Hb).
        rewrite (twin_abs a b) by auto. reflexivity.
  Qed.

  Lemma abs_has a b : inv1 a -> inv2 b -> sc_abs (sl_core L1) a = sc_abs (sl_core L2) b ->
    same_set (has1 a) (has2 b).
  Proof.
    intros Ha Hb E k. apply bool_ext. rewrite (s_contains_in L1), (s_contains_in L2), E by auto. reflexivity.
  Qed.

  Lemma adds_same (p p' q q' : T -> bool) k : same_set p p' -> adds p k q -> adds p' k q' -> same_set q q'.
  Proof.
    intros E [H1 H2] [H1' H2'] x. destruct (ks_eqb sp x k) eqn:Q.
    - apply (sc_keqb _ _ (sl_core L1)) in Q. subst x. congruence.
    - assert (x <> k).
      { intros ->. rewrite (proj2 (sc_keqb _ _ (sl_core L1) k k) eq_refl) in Q. discriminate. }
      rewrite H2, H2', E by auto. reflexivity.
  Qed.

  Lemma drops_same (p p' q q' : T -> bool) k : same_set p p' -> drops p k q -> drops p' k q' -> same_set q q'.
  Proof.
    intros E [H1 H2] [H1' H2'] x. destruct (ks_eqb sp x k) eqn:Q.
    - apply (sc_keqb _ _ (sl_core L1)) in Q. subst x. congruence.
    - assert (x <> k).
      { intros ->. rewrite (proj2 (sc_keqb _ _ (sl_core L1) k k) eq_refl) in Q. discriminate. }
      rewrite H2, H2', E by auto. reflexivity.
  Qed.

  Lemma twin_op o a b : inv1 a -> inv2 b -> same_set (has1 a) (has2 b) -> returning o ->
    exists x a' b' n0, (forall n, n0 <= n -> run_sop m1 n a o = (x, a') /\ run_sop m2 n b o = (x, b')) /\
      inv1 a' /\ inv2 b' /\ same_set (has1 a') (has2 b').
  Proof.
    intros Ha Hb E R. pose proof (twin_abs a b Ha Hb E) as EA.
    destruct o as [k|k|k| | | |f|]; simpl.
    - destruct (s_insert L1 a k Ha) as (Ha' & A & B). destruct (s_insert L2 b k Hb) as (Hb' & A' & B').
      exists (QBool (fst (set_insert m1 a k))), (snd (set_insert m1 a k)), (snd (set_insert m2 b k)), 0.
      split.
      + intros n _. split; [destruct (set_insert m1 a k); auto|].
        replace (fst (set_insert m1 a k)) with (fst (set_insert m2 b k)).
        * destruct (set_insert m2 b k); auto.
        * rewrite B, B', (E k). auto.
      + split; auto. split; auto. eapply adds_same; eauto.
    - destruct (s_remove L1 a k Ha) as (Ha' & A & B). destruct (s_remove L2 b k Hb) as (Hb' & A' & B').
      exists (QBool (fst (set_remove m1 a k))), (snd (set_remove m1 a k)), (snd (set_remove m2 b k)), 0.
      split.
      + intros n _. split; [destruct (set_remove m1 a k); auto|].
        replace (fst (set_remove m1 a k)) with (fst (set_remove m2 b k)).
        * destruct (set_remove m2 b k); auto.
        * rewrite B, B', (E k). destruct (ks_sib sp k) as [y|]; simpl; rewrite ?(E y); auto.
      + split; auto. split; auto. eapply drops_same; eauto.
    - exists (QBool (has1 a k)), a, b, 0. split; auto. intros n _. rewrite (E k). auto.
    - exists (QNat (set_len m1 a)), a, b, 0. split; auto. intros n _.
      rewrite (s_len L1), (s_len L2), EA by auto. auto.
    - exists (QBool (set_is_empty m1 a)), a, b, 0. split; auto. intros n _.
      replace (set_is_empty m1 a) with (set_is_empty m2 b); auto. apply bool_ext.
      rewrite (s_is_empty L1), (s_is_empty L2) by auto. split; intros H k; [rewrite (E k)|rewrite <- (E k)]; auto.
    - destruct (s_clear L1 a Ha) as (Ha' & _ & F). destruct (s_clear L2 b Hb) as (Hb' & _ & F').
      exists QUnit, (set_clear m1 a), (set_clear m2 b), 0. split; auto. split; auto. split; auto.
      intros k. rewrite F, F'. auto.
    - destruct (s_retain L1 _ (slogged f) [] a Ha) as (x' & a' & oc & l' & E1 & Ha' & G1 & A1).
      destruct (s_retain L2 _ (slogged f) [] b Hb) as (x'' & b' & oc' & l'' & E2 & Hb' & G2 & A2).
      rewrite (twin_vis a b Ha Hb E) in G1. rewrite G1 in G2. injection G2 as <- <- <-.
      assert (D : oc = Done).
      { change oc with (snd (x', l', oc)). rewrite <- G1. apply retain_elems_done. exact R. }
      subst oc. exists (QRetain x' Done), a', b', 0. rewrite E1, E2. split; auto. split; auto.
      split; auto. apply abs_has; auto. congruence.
    - destruct (s_iter L1 a Ha) as [n1 I1]. destruct (s_iter L2 b Hb) as [n2 I2].
      exists (QList (sc_abs (sl_core L1) a)), a, b, (Nat.max n1 n2). split; auto.
      intros n Hn. rewrite I1, I2, EA by lia. auto.
  Qed.

  Lemma twin_ops ops : forall a b, inv1 a -> inv2 b -> same_set (has1 a) (has2 b) -> Forall returning ops ->
    exists xs a' b' n0,
      (forall n, n0 <= n -> run_sops m1 n a ops = (xs, a') /\ run_sops m2 n b ops = (xs, b')) /\
      inv1 a' /\ inv2 b' /\ same_set (has1 a') (has2 b').
  Proof.
    induction ops as [|o ops IH]; intros a b Ha Hb E R; simpl.
    - exists [], a, b, 0. auto.
    - inversion R; subst.
      destruct (twin_op o a b Ha Hb E H1) as (x & a1 & b1 & n1 & P1 & Ha1 & Hb1 & E1).
      destruct (IH a1 b1 Ha1 Hb1 E1 H2) as (xs & a2 & b2 & n2 & P2 & Ha2 & Hb2 & E2).
      exists (x :: xs), a2, b2, (Nat.max n1 n2). split; auto. intros n Hn.
      destruct (P1 n ltac:(lia)) as [-> ->]. destruct (P2 n ltac:(lia)) as [-> ->]. auto.
  Qed.

  Lemma run_sops_reach1 ops : forall a, set_reachable m1 a -> exists xs a' n0,
    (forall n, n0 <= n -> run_sops m1 n a ops = (xs, a')) /\ set_reachable m1 a'.
  Proof.
    intros a R. destruct (s_c25_exact L1 a ops (has1 a) R (fun _ => eq_refl)) as (xs & a' & n0 & E & R' & _).
    eauto.
  Qed.

  Lemma s_c34 a b ops : set_reachable m1 a -> set_reachable m2 b -> same_set (has1 a) (has2 b) ->
    Forall returning ops ->
    exists xs a' b' n0,
      (forall n, n0 <= n -> run_sops m1 n a ops = (xs, a') /\ run_sops m2 n b ops = (xs, b')) /\
      set_reachable m1 a' /\ set_reachable m2 b' /\ same_set (has1 a') (has2 b').
  Proof.
    intros Ra Rb E R.
    destruct (twin_ops ops a b (s_reach_inv L1 a Ra) (s_reach_inv L2 b Rb) E R)
      as (xs & a' & b' & n0 & P & _ & _ & E').
    destruct (s_c25_exact L1 a ops _ Ra (fun _ => eq_refl)) as (xs1 & a1 & n1 & P1 & R1 & _).
    destruct (s_c25_exact L2 b ops _ Rb (fun _ => eq_refl)) as (xs2 & b1 & n2 & P2 & R2 & _).
    specialize (P1 (Nat.max n0 (Nat.max n1 n2)) ltac:(lia)).
    specialize (P2 (Nat.max n0 (Nat.max n1 n2)) ltac:(lia)).
    pose proof (P (Nat.max n0 (Nat.max n1 n2)) ltac:(lia)) as [Q1 Q2].
    rewrite Q1 in P1. rewrite Q2 in P2. injection P1 as <- <-. injection P2 as <- <-.
    exists xs, a', b', n0. auto.
  Qed.

  Lemma s_c34_iter a b : set_reachable m1 a -> set_reachable m2 b -> same_set (has1 a) (has2 b) ->
    exists l, yields (ss_Iter m1) (set_iter m1 a) l /\ yields (ss_Iter m2) (set_iter m2 b) l /\
      yields (ss_IntoIter m1) (set_into_iter m1 a) l /\ yields (ss_IntoIter m2) (set_into_iter m2 b) l.
  Proof.
    intros Ra Rb E. pose proof (s_reach_inv L1 a Ra) as Ha. pose proof (s_reach_inv L2 b Rb) as Hb.
    exists (sc_abs (sl_core L1) a). split; [apply s_iter; auto|].
    rewrite (twin_abs a b) by auto. split; [apply s_iter; auto|].
    rewrite <- (twin_abs a b) by auto. split; [apply s_into_iter; auto|].
    rewrite (twin_abs a b) by auto. apply s_into_iter; auto.
  Qed.

  Lemma s_c34_eq a a2 b b2 : set_reachable m1 a -> set_reachable m1 a2 ->
    set_reachable m2 b -> set_reachable m2 b2 ->
    same_set (has1 a) (has2 b) -> same_set (has1 a2) (has2 b2) ->
    set_eq m1 a a2 = set_eq m2 b b2 /\
    exists l, returns (fun n => inter_drain m1 n (set_intersection m1 a a2)) l /\
              returns (fun n => inter_drain m2 n (set_intersection m2 b b2)) l.
  Proof.
    intros Ra Ra2 Rb Rb2 E E2. split.
    - apply bool_ext. rewrite (s_c32 L1), (s_c32 L2) by auto. split; intros H k; specialize (H k);
        specialize (E k); specialize (E2 k); congruence.
    - destruct (s_c31 L1 a a2 Ra Ra2) as (l & El & S & D & _).
      destruct (s_c31 L2 b b2 Rb Rb2) as (l' & El' & S' & D' & _).
      exists l. split; auto. replace l with l'; auto. apply (sorted_unique (ks_before sp)); auto.
      eapply elements_perm; [exact El'|]. eapply elements_ext; [|exact El].
      intros k. simpl. rewrite (E k), (E2 k). auto.
  Qed.
End Sets.

(** A set next to a map whose keys are the elements. *)
Section SetMap.
  Context {T V : Type} {sp : KeySpec T} {m : SetStorage T} {mm : MapStorage T V}
    (L : SetLaws sp m) (LM : MapLaws sp mm).
  Notation has := (set_contains m).
  Notation hask := (map_contains_key mm).

  Lemma set_kops_reach ops : forall st, set_reachable m st -> set_reachable m (set_kops m st ops).
  Proof.
    induction ops as [|o ops IH]; intros st R; simpl; auto. apply IH. destruct o; constructor; auto.
  Qed.

  Lemma keyset_len st sm : set_reachable m st -> map_reachable mm sm ->
    (forall k, has st k = hask sm k) -> set_len m st = map_len mm sm.
  Proof.
    intros R RM E. destruct (s_c30 L st R) as (l & _ & _ & [N El] & _ & ->).
    destruct (c05 LM sm RM) as (lm & _ & [Nm Em] & -> & _).
    rewrite <- (map_length fst lm). apply Permutation_length. apply NoDup_Permutation; auto.
    intros k. rewrite El, E, in_fst, (contains_get LM) by (apply (r_inv LM); auto).
    destruct (map_get mm sm k) as [v|] eqn:G; split; auto; try discriminate.
    - intros _. exists v. apply Em. auto.
    - intros [v H]. apply Em in H. congruence.
  Qed.

  Lemma keyset_iter st sm : (forall x y, x = y \/ ks_before sp x y \/ ks_before sp y x) ->
    set_reachable m st -> map_reachable mm sm ->
    (forall k, has st k = hask sm k) ->
    exists l lm, yields (ss_Iter m) (set_iter m st) l /\ yields (ms_Iter mm) (map_iter mm sm) lm /\
      map fst lm = l.
  Proof.
    intros Tot R RM E. destruct (s_c30 L st R) as (l & Y & _ & [N El] & S & _).
    destruct (c06 LM sm RM) as (lm & Ym & [Nm Em] & Sm). exists l, lm. split; auto. split; auto.
    apply (sorted_unique (ks_before sp)); auto.
    apply NoDup_Permutation; auto.
    intros k. rewrite El, E, in_fst, (contains_get LM) by (apply (r_inv LM); auto).
    destruct (map_get mm sm k) as [v|] eqn:G; split; auto; try discriminate.
    - intros _. exists v. apply Em. auto.
    - intros [v H]. apply Em in H. congruence.
  Qed.
End SetMap.

Section Kops.
  Context {T : Type} {sp : KeySpec T} {m : SetStorage T} {mm : MapStorage T unit}
    (L : SetLaws sp m) (LM : MapLaws sp mm).
  Notation has := (set_contains m).
  Notation hask := (map_contains_key mm).

  Lemma hask_get sm k : map_reachable mm sm -> hask sm k = match map_get mm sm k with Some _ => true | None => false end.
  Proof.
    intros R. apply (contains_get LM), (r_inv LM); auto.
  Qed.

  Lemma kops_ok ops : forall st sm, set_reachable m st -> map_reachable mm sm ->
    (forall k, has st k = hask sm k) ->
    set_reachable m (set_kops m st ops) /\ map_reachable mm (map_kops mm sm ops) /\
    forall k, has (set_kops m st ops) k = hask (map_kops mm sm ops) k.
  Proof.
    induction ops as [|o ops IH]; intros st sm R RM E; simpl; auto. apply IH.
    - destruct o; constructor; auto.
    - destruct o; constructor; auto.
    - destruct o as [k|k|]; intros x.
      + destruct (s_insert L st k (s_reach_inv L st R)) as (_ & [A B] & _).
        destruct (insert_facts LM sm k tt (r_inv LM sm RM)) as (_ & A' & B').
        rewrite hask_get by (constructor; auto).
        destruct (ks_eqb sp x k) eqn:Q.
        * apply (sc_keqb _ _ (sl_core L)) in Q. subst x. rewrite A, A'. auto.
        * assert (x <> k).
          { intros ->. rewrite (proj2 (sc_keqb _ _ (sl_core L) k k) eq_refl) in Q. discriminate. }
          rewrite B, B', E, hask_get by auto. auto.
      + destruct (s_remove L st k (s_reach_inv L st R)) as (_ & [A B] & _).
        destruct (remove_facts LM sm k (r_inv LM sm RM)) as (_ & A' & B').
        rewrite hask_get by (constructor; auto).
        destruct (ks_eqb sp x k) eqn:Q.
        * apply (sc_keqb _ _ (sl_core L)) in Q. subst x. rewrite A, A'. auto.
        * assert (x <> k).
          { intros ->. rewrite (proj2 (sc_keqb _ _ (sl_core L) k k) eq_refl) in Q. discriminate. }
          rewrite B, B', E, hask_get by auto. auto.
      + destruct (s_clear L st (s_reach_inv L st R)) as (_ & _ & A). rewrite A.
        rewrite hask_get by (constructor; auto).
        destruct (clear_facts LM sm (r_inv LM sm RM)) as [HI HE]. rewrite (nil_get LM) by auto. auto.
  Qed.

  Lemma s_c40 w w' ops :
    let st := set_kops m (set_new m w) ops in
    let sm := map_kops mm (map_new mm w') ops in
    (forall k, has st k = hask sm k) /\ set_len m st = map_len mm sm /\
    ((forall x y, x = y \/ ks_before sp x y \/ ks_before sp y x) ->
     exists l, yields (ss_Iter m) (set_iter m st) l /\
               yields (ms_Iter mm) (map_iter mm sm) (map (fun k => (k, tt)) l)).
  Proof.
    intros st sm.
    assert (E0 : forall k, has (set_new m w) k = hask (map_new mm w') k).
    { intros k. destruct (s_new L w) as (_ & _ & ->). rewrite hask_get by constructor.
      destruct (new_facts LM w') as [H E]. rewrite (nil_get LM) by auto. auto. }
    destruct (kops_ok ops (set_new m w) (map_new mm w') (sr_new m w) (mr_new mm w') E0) as (R & RM & E).
    split; [exact E|]. split; [exact (keyset_len L LM _ _ R RM E)|].
    intros Tot. destruct (keyset_iter L LM _ _ Tot R RM E) as (l & lm & Y & Ym & El).
    exists l. split; [exact Y|]. replace (map (fun k => (k, tt)) l) with lm; [exact Ym|].
    subst l. clear. induction lm as [|[k []] lm IH]; simpl; congruence.
  Qed.
End Kops.
