(** Proofs about histories of maps. *)
Require Import List Arith NArith ZArith Bool Lia Permutation Sorted.
Import ListNotations.
From Verif Require Import Std Traits Key Api Spec Reach History IterLaws IterFacts MapCore
  MapLaws MapFacts.

Section Hist.
  Context {K V : Type} {sp : KeySpec K} {m : MapStorage K V} (L : MapLaws sp m).
  Notation C := (ml_core L).
  Notation inv := (c_inv C).
  Notation ents st := (c_ents C st).
  Notation kr := (fun e : K * V * ref => (ekey e, eref e)).

  Lemma write_all_ok g l : forall st, inv st -> (forall k r, In (k, r) l -> map_get_mut m st k = Some r) ->
    NoDup (map fst l) ->
    exists st', write_all m g l st = Ok st' /\ inv st' /\
      (map_reachable m st -> map_reachable m st') /\
      (forall k, In k (map fst l) -> map_get m st' k = option_map (g k) (map_get m st k)) /\
      (forall k, ~ In k (map fst l) -> map_get m st' k = map_get m st k).
  Proof.
    induction l as [|[k r] l IH]; intros st H Hl N; simpl.
    - exists st. repeat split; auto. intros k [].
    - inversion N as [|? ? Hn N']; subst.
      destruct (get_mut_facts L st k H) as [_ F].
      destruct (F r (Hl k r (or_introl eq_refl))) as (v & G & D & W).
      rewrite D. simpl. destruct (W (g k v)) as (st1 & A & G1 & G2 & G3). rewrite A. simpl.
      assert (H1 : inv st1).
      { unfold assign in A. destruct (ms_store m st r (g k v)) as [s|] eqn:Es; [|discriminate].
        injection A as <-. apply (c_store _ _ _ C st r (g k v) s H Es). }
      destruct (IH st1 H1) as (st' & E & H' & R & P1 & P2); auto.
      { intros k' r' Hi. rewrite G3. apply Hl. right; auto. }
      exists st'. split; auto. split; auto. split; [|split].
      + intros Hr. apply R. eapply mr_assign; eauto.
      + intros k' [<-|Hi].
        * rewrite P2 by auto. rewrite G1, G. reflexivity.
        * rewrite P1 by auto. rewrite G2; auto. intros ->. auto.
      + intros k' Hi. rewrite P2 by tauto. apply G2. intros ->. tauto.
  Qed.

  Lemma assign_inv st r v st' : inv st -> assign m st r v = Ok st' -> inv st'.
  Proof.
    intros H E. unfold assign in E. destruct (ms_store m st r v) as [s|] eqn:Es; [|discriminate].
    injection E as <-. apply (c_store _ _ _ C st r v s H Es).
  Qed.

  Lemma is_empty_get st : inv st -> (map_is_empty m st = true <-> forall k, map_get m st k = None).
  Proof.
    intros H. rewrite (is_empty_facts L) by auto. rewrite (len_facts L) by auto.
    destruct (ents_lists L st H) as [_ E]. split.
    - intros E0 k. destruct (map_get m st k) as [v|] eqn:G; auto. apply E in G.
      destruct (map fst (ents st)); [destruct G|discriminate].
    - intros E0. destruct (map fst (ents st)) as [|[k v] l] eqn:El; auto.
      specialize (E0 k). specialize (E k v). simpl in E.
      assert (F : map_get m st k = Some v) by (apply E; auto). congruence.
  Qed.

  Lemma run_op_ok st o : inv st ->
    exists x st' n0, (forall n, n0 <= n -> run_op m n st o = Ok (x, st')) /\ inv st' /\
      (map_reachable m st -> map_reachable m st') /\
      spec_op (map_get m st) o x (map_get m st').
  Proof.
    assert (KK : forall st, keeps (map_get m st) (map_get m st)) by (intros ? ?; reflexivity).
    intros H. destruct o; simpl.
    - do 2 eexists. exists 0. split; [reflexivity|]. auto.
    - do 2 eexists. exists 0. split; [reflexivity|]. split; [auto|]. split; [auto|].
      split; auto. rewrite (contains_get L) by auto. reflexivity.
    - destruct (get_mut_facts L st k H) as [F0 F].
      destruct (map_get_mut m st k) as [r|].
      + destruct (F r eq_refl) as (v & G & D & W). destruct (W w) as (st1 & A & G1 & G2 & _).
        exists (ROption (Some v)), st1, 0. rewrite D. simpl. rewrite A. simpl.
        split; auto. split; [eapply assign_inv; eauto|].
        split; [intros; eapply mr_assign; eauto|]. rewrite G. split; auto. split; auto.
      + rewrite (proj1 F0 eq_refl). exists (ROption None), st, 0. auto.
    - destruct (insert_facts L st k v H) as (I1 & I2 & I3).
      pose proof (insert_inv L st k v H) as H'.
      assert (R : map_reachable m st -> map_reachable m (snd (map_insert m st k v)))
        by (intros; constructor; auto).
      unfold map_insert in *.
      destruct (ms_insert m st k v) as [o st'] eqn:E. simpl in *.
      exists (ROption o), st', 0. split; auto. split; auto. split; auto.
      rewrite I1. split; auto. split; auto.
    - destruct (remove_facts L st k H) as (I1 & I2 & I3).
      pose proof (remove_inv L st k H) as H'.
      assert (R : map_reachable m st -> map_reachable m (snd (map_remove m st k)))
        by (intros; constructor; auto).
      unfold map_remove in *.
      destruct (ms_remove m st k) as [o st'] eqn:E. simpl in *.
      exists (ROption o), st', 0. split; auto. split; auto. split; auto.
      rewrite I1. split; auto. split; auto.
    - exists (RNat (map_len m st)), st, 0. split; auto. split; auto. split; auto. split; auto.
      exists (map fst (ents st)). split; [apply ents_lists; auto|].
      rewrite (len_facts L) by auto. reflexivity.
    - exists (RBool (map_is_empty m st)), st, 0. split; auto. split; auto. split; auto. split; auto.
      eexists. split; eauto. apply is_empty_get; auto.
    - destruct (clear_facts L st H) as [H' E].
      exists RUnit, (map_clear m st), 0. split; auto. split; auto.
      split; [intros; constructor; auto|]. split; auto. apply (nil_get L); auto.
    - destruct (retain_facts L _ (logged f) [] st H) as (s' & st' & oc & E & H' & El).
      exists (RRetain s' oc), st', 0. rewrite E. split; auto. split; auto.
      split. { intros R. pose proof (mr_retain m _ (logged f) [] st R) as R'. rewrite E in R'. exact R'. }
      exists (map fst (ents st)), s', (map fst (ents st')), oc.
      split; [apply ents_lists; auto|]. split; auto. split; auto. apply ents_lists; auto.
    - destruct (iter_yields L st H) as [n0 Y].
      exists (RList (map fst (ents st))), st, n0. split.
      { intros n Hn. rewrite (Y n Hn). reflexivity. }
      split; auto. split; auto. split; auto. exists (map fst (ents st)).
      split; auto. apply ents_lists; auto.
    - destruct (proj1 (iter_mut_yields L st H)) as [n0 Y].
      destruct (write_all_ok g (map kr (ents st)) st H) as (st' & E & H' & R & P1 & P2).
      { intros k r Hi. rewrite (get_mut_look L) by auto.
        destruct (in_kr_look L st k r H Hi) as [v ->]. reflexivity. }
      { rewrite map_map. apply (c_nodup_k _ _ _ C st H). }
      exists RUnit, st', n0. split.
      { intros n Hn. rewrite (Y n Hn), E. reflexivity. }
      split; auto. split; auto. split; auto.
      intros k. destruct (map_get m st k) as [v|] eqn:G.
      + rewrite P1, G; auto. apply (get_in L) in G; auto.
        apply in_map_iff in G as ([[k' v'] r] & [= <- <-] & Hi).
        rewrite map_map. apply in_map_iff. exists (k', v', r). auto.
      + rewrite P2, G; auto. rewrite map_map. intros Hi.
        apply in_map_iff in Hi as ([[k' v'] r] & E1 & Hi). unfold ekey in E1; simpl in E1. subst k'.
        assert (F : map_get m st k = Some v').
        { apply (get_in L); auto. apply in_map_iff. exists (k, v', r). auto. }
        congruence.
    - pose proof (entry_facts L st k H) as F. exists (RKey k), st, 0. split.
      2: { auto. }
      intros _ _. destruct (map_get m st k) as [v|].
      + destruct F as (o & r & E & Ho & _). rewrite E. simpl.
        destruct (occ_facts L st o k r H Ho) as (v' & _ & _ & _ & Ek & _). rewrite Ek. reflexivity.
      + destruct F as (x & E & Hx). rewrite E. simpl.
        destruct (vac_facts L st x k H Hx) as (_ & Ek & _). rewrite Ek. reflexivity.
    - pose proof (entry_facts L st k H) as F. destruct (map_get m st k) as [v|] eqn:G.
      + destruct F as (o & r & E & Ho & _).
        destruct (occ_facts L st o k r H Ho) as (v' & G' & _ & D & _ & _ & _ & Em & _).
        rewrite G in G'. injection G' as <-.
        exists (RValue v), st, 0. split; [|auto]. intros _ _. rewrite E. simpl.
        unfold occ_into_mut. rewrite Em. simpl. unfold read_ref. simpl. rewrite D. reflexivity.
      + destruct F as (x & E & Hx).
        destruct (vac_facts L st x k H Hx) as (_ & Ek & Hv). destruct (Hv d) as (r & Ei & Er).
        destruct (insert_facts L st k d H) as (_ & I2 & I3).
        pose proof (insert_inv L st k d H) as H'.
        destruct (get_mut_facts L _ k H') as [_ F]. destruct (F r Er) as (v & G' & D & _).
        unfold map_insert in I2, Ei. rewrite I2 in G'. injection G' as <-.
        exists (RValue d), (snd (ms_insert m st k d)), 0. split; [|split; [auto|split]].
        * intros _ _. rewrite E. simpl. rewrite Ei. simpl. unfold read_ref. simpl. rewrite D. reflexivity.
        * intros R. exact (mr_insert m st k d R).
        * split; auto. split; auto.
    - pose proof (entry_facts L st k H) as F. destruct (map_get m st k) as [v|] eqn:G.
      + destruct F as (o & r & E & Ho & _).
        destruct (occ_facts L st o k r H Ho) as (v' & G' & _ & D & _ & _ & _ & Em & _).
        rewrite G in G'. injection G' as <-.
        exists (RValue v), st, 0. split; [|auto]. intros _ _. rewrite E. simpl.
        unfold occ_into_mut. rewrite Em. simpl. unfold read_ref. simpl. rewrite D. reflexivity.
      + destruct F as (x & E & Hx).
        destruct (vac_facts L st x k H Hx) as (_ & Ek & Hv).
        destruct (f k) as [d|] eqn:Ef.
        * destruct (Hv d) as (r & Ei & Er).
          destruct (insert_facts L st k d H) as (_ & I2 & I3).
          pose proof (insert_inv L st k d H) as H'.
          destruct (get_mut_facts L _ k H') as [_ F]. destruct (F r Er) as (v & G' & D & _).
          unfold map_insert in I2, Ei. rewrite I2 in G'. injection G' as <-.
          exists (RValue d), (snd (ms_insert m st k d)), 0. split; [|split; [auto|split]].
          -- intros _ _. rewrite E. simpl. rewrite Ek, Ef, Ei. simpl. unfold read_ref. simpl.
             rewrite D. reflexivity.
          -- intros R. exact (mr_insert m st k d R).
          -- split; auto. split; auto.
        * exists RUnwound, st, 0. split; [|auto]. intros _ _. rewrite E. simpl. rewrite Ek, Ef. reflexivity.
    - pose proof (entry_facts L st k H) as F. destruct (map_get m st k) as [v|] eqn:G.
      + destruct F as (o & r & E & Ho & _).
        destruct (occ_facts L st o k r H Ho) as (v' & G' & Gm & D & _ & _ & Egm & Em & _ & W).
        rewrite G in G'. injection G' as <-.
        destruct (W (fst (g v))) as (st' & _ & A & H' & Ho' & G1 & G2).
        exists (match snd (g v) with Done => RValue (fst (g v)) | Unwound => RUnwound end), st', 0.
        split; [|split; [auto|split]].
        * intros _ _. rewrite E. simpl. rewrite Egm. simpl. rewrite D. simpl. rewrite A. simpl.
          destruct (snd (g v)); [|reflexivity]. simpl.
          destruct (occ_facts L st' o k r H' Ho') as (v1 & G1' & _ & D' & _ & _ & _ & Em' & _).
          rewrite G1 in G1'. injection G1' as <-.
          unfold occ_into_mut. rewrite Em'. simpl. unfold read_ref. simpl. rewrite D'. reflexivity.
        * intros R. eapply mr_assign; eauto.
        * split; auto. split; auto.
      + destruct F as (x & E & Hx).
        destruct (vac_facts L st x k H Hx) as (_ & Ek & Hv). destruct (Hv d) as (r & Ei & Er).
        destruct (insert_facts L st k d H) as (_ & I2 & I3).
        pose proof (insert_inv L st k d H) as H'.
        destruct (get_mut_facts L _ k H') as [_ F]. destruct (F r Er) as (v & G' & D & _).
        unfold map_insert in I2, Ei. rewrite I2 in G'. injection G' as <-.
        exists (RValue d), (snd (ms_insert m st k d)), 0. split; [|split; [auto|split]].
        * intros _ _. rewrite E. simpl. rewrite Ei. simpl. unfold read_ref. simpl. rewrite D. reflexivity.
        * intros R. exact (mr_insert m st k d R).
        * split; auto. split; auto.
    - pose proof (entry_facts L st k H) as F. destruct (map_get m st k) as [old|] eqn:G.
      + destruct F as (o & r & E & Ho & _).
        destruct (occ_facts L st o k r H Ho) as (v' & G' & Gm & D & _ & _ & Egm & Em & _ & W).
        rewrite G in G'. injection G' as <-.
        destruct (W v) as (st' & Ei & A & H' & Ho' & G1 & G2).
        exists (ROption (Some old)), st', 0. split; [|split; [auto|split]].
        * intros _ _. rewrite E. simpl. rewrite Ei. reflexivity.
        * intros R. eapply mr_assign; eauto.
        * split; auto. split; auto.
      + destruct F as (x & E & Hx).
        destruct (vac_facts L st x k H Hx) as (_ & Ek & Hv). destruct (Hv v) as (r & Ei & Er).
        destruct (insert_facts L st k v H) as (_ & I2 & I3).
        pose proof (insert_inv L st k v H) as H'.
        exists (ROption None), (snd (ms_insert m st k v)), 0. split; [|split; [auto|split]].
        * intros _ _. rewrite E. simpl. rewrite Ei. reflexivity.
        * intros R. exact (mr_insert m st k v R).
        * split; auto. split; auto.
    - pose proof (entry_facts L st k H) as F. destruct (map_get m st k) as [old|] eqn:G.
      + destruct F as (o & r & E & Ho & _).
        destruct (occ_facts L st o k r H Ho) as (v' & G' & _ & _ & _ & _ & _ & _ & Erm & _).
        rewrite G in G'. injection G' as <-.
        destruct (remove_facts L st k H) as (_ & I2 & I3).
        exists (ROption (Some old)), (snd (map_remove m st k)), 0. split; [|split; [|split]].
        * intros _ _. rewrite E. simpl. rewrite Erm. reflexivity.
        * apply (remove_inv L st k H).
        * intros R. exact (mr_remove m st k R).
        * split; auto. split; auto.
      + destruct F as (x & E & Hx). exists (ROption None), st, 0. split; [|split; [auto|split; [auto|]]].
        * intros _ _. rewrite E. reflexivity.
        * split; auto. split; auto.
  Qed.

  Lemma run_ops_ok ops : forall st, inv st ->
    exists xs st' n0, (forall n, n0 <= n -> run_ops m n st ops = Ok (xs, st')) /\ inv st' /\
      (map_reachable m st -> map_reachable m st') /\
      spec_ops (map_get m st) ops xs (map_get m st').
  Proof.
    induction ops as [|o ops IH]; intros st H; simpl.
    - exists [], st, 0. split; [auto|]. split; [auto|]. split; [auto|]. intros k; reflexivity.
    - destruct (run_op_ok st o H) as (x & st1 & n1 & E1 & H1 & R1 & S1).
      destruct (IH st1 H1) as (xs & st2 & n2 & E2 & H2 & R2 & S2).
      exists (x :: xs), st2, (Nat.max n1 n2). split.
      { intros n Hn. rewrite E1 by lia. simpl. rewrite E2 by lia. reflexivity. }
      split; auto. split; auto. exists (map_get m st1). auto.
  Qed.
End Hist.

Lemma lists_ext {K V} (f g : fmap K V) l : (forall k, f k = g k) -> lists f l -> lists g l.
Proof. intros E [H1 H2]. split; auto. intros k v. rewrite <- E. apply H2. Qed.

Lemma spec_op_ext {K V} (f g : fmap K V) o x f' : (forall k, f k = g k) ->
  spec_op f o x f' -> spec_op g o x f'.
Proof.
  intros E. assert (Kp : keeps f f' -> keeps g f') by (intros H k; rewrite H; auto).
  assert (U : forall k o, updates f k o f' -> updates g k o f').
  { intros k o0 [H1 H2]. split; auto. intros k' Hk. rewrite <- E. auto. }
  assert (Ls : forall l, lists f l -> lists g l) by (intros l; apply lists_ext; auto).
  destruct o; simpl; rewrite <- ?E; try (intros [-> H]; auto; fail).
  - intros [-> H]. split; auto. destruct (f k); auto.
  - intros [(l & H1 & ->) H]. split; eauto.
  - intros [(b & -> & H1) H]. split; auto. exists b. split; auto. rewrite H1.
    split; intros H2 k; rewrite <- (H2 k); auto.
  - intros (l & log & l' & o & H1 & H2 & -> & H3). exists l, log, l', o. auto.
  - intros [(l & H1 & ->) H]. split; eauto.
  - intros [-> H]. split; auto. intros k. rewrite <- E. auto.
  - destruct (f k); intros [-> H]; auto.
  - destruct (f k); [|destruct (f0 k)]; intros [-> H]; auto.
  - destruct (f k); intros [-> H]; auto.
Qed.

Lemma spec_ops_ext {K V} (f g : fmap K V) ops xs f' : (forall k, f k = g k) ->
  spec_ops f ops xs f' -> spec_ops g ops xs f'.
Proof.
  intros E. destruct ops as [|o ops], xs as [|x xs]; simpl; auto.
  - intros H k. rewrite H. auto.
  - intros (f1 & H1 & H2). exists f1. split; auto. eapply spec_op_ext; eauto.
Qed.

Lemma c01_from {K V} {sp : KeySpec K} {m : MapStorage K V} (L : MapLaws sp m) st ops f :
  map_reachable m st -> (forall k, map_get m st k = f k) ->
  exists xs st' n0, (forall n, n0 <= n -> run_ops m n st ops = Ok (xs, st')) /\
    map_reachable m st' /\ spec_ops f ops xs (map_get m st').
Proof.
  intros R E. destruct (run_ops_ok L ops st (r_inv L st R)) as (xs & st' & n0 & E1 & _ & R1 & S1).
  exists xs, st', n0. split; auto. split; auto. eapply spec_ops_ext; eauto.
Qed.

Lemma c01 {K V} {sp : KeySpec K} {m : MapStorage K V} (L : MapLaws sp m) w ops :
  exists xs st n0, (forall n, n0 <= n -> run_ops m n (map_new m w) ops = Ok (xs, st)) /\
    spec_ops (fun _ => None) ops xs (map_get m st).
Proof.
  destruct (c01_from L (map_new m w) ops (fun _ => None)) as (xs & st & n0 & E & _ & S).
  - constructor.
  - destruct (new_facts L w) as [H Hn]. apply (nil_get L); auto.
  - exists xs, st, n0. auto.
Qed.
