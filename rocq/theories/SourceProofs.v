(** Collecting and deserializing from sources with effects: proofs. *)
Require Import List Arith Lia String.
Import ListNotations.
From Verif Require Import Std Traits Key Spec MapCore MapLaws MapFacts SetCore SetLaws SetFacts KeyLaws Api Reach
  IterFacts MapProofs SetProofs Sources SourceSpec DropSpec DropProofs.

Section Map.
  Context {K V S E : Type} {sp : KeySpec K} {m : MapStorage K V} (L : MapLaws sp m).
  Variable src : source S (K * V) E.
  Variable dr : drop_fn S V.
  Notation reach := (map_reachable m).

  Lemma insert_put st k v : reach st ->
    put_at (map_get m st) k v (map_get m (snd (map_insert m st k v))) /\
    fst (map_insert m st k v) = map_get m st k.
  Proof. intros R. destruct (insert_facts L st k v (r_inv L st R)) as (H1 & H2 & H3). now repeat split. Qed.

  Lemma gather_sound n : forall s st s' st' how, reach st ->
    gather m src dr n s st = Some (s', st', how) ->
    reach st' /\ gathers src dr s (map_get m st) s' how (map_get m st').
  Proof.
    induction n as [|n IH]; intros s st s' st' how R H; [discriminate H|]. cbn in H.
    destruct (src s) as [s1 [[k v]| |e|]] eqn:Es.
    - destruct (insert_put st k v R) as [P Q].
      pose proof (mr_insert m st k v R) as R1.
      destruct (map_insert m st k v) as [[old|] st1]; cbn [fst snd] in *.
      + destruct (dr s1 old) as [s2 []] eqn:Ed.
        * injection H as <- <- <-. split; [exact R1|]. eapply GaDropPanic; eauto.
        * destruct (IH _ _ _ _ _ R1 H) as [R2 G]. split; [exact R2|]. eapply GaOld; eauto.
      + destruct (IH _ _ _ _ _ R1 H) as [R2 G]. split; [exact R2|]. eapply GaNew; eauto.
    - injection H as <- <- <-. split; [exact R|]. now constructor.
    - injection H as <- <- <-. split; [exact R|]. now constructor.
    - injection H as <- <- <-. split; [exact R|]. now constructor.
  Qed.

  Lemma gathers_ext s f s' how g : gathers src dr s f s' how g -> forall f', (forall k, f' k = f k) ->
    gathers src dr s f' s' how g.
  Proof.
    assert (P : forall (f f' : fmap K V) k v g, (forall k, f' k = f k) -> put_at f k v g -> put_at f' k v g).
    { intros f0 f' k v g0 H [H1 H2]. split; [exact H1|]. intros j Hj. rewrite H. auto. }
    intros H. induction H; intros f' Hf.
    - apply GaEnd; [assumption|]. intros k. now rewrite Hf.
    - apply GaFail; [assumption|]. intros k. now rewrite Hf.
    - apply GaPanic; [assumption|]. intros k. now rewrite Hf.
    - eapply GaNew; [eassumption|now rewrite Hf|eapply P; [exact Hf|eassumption]|auto].
    - eapply GaOld; [eassumption|rewrite Hf; eassumption|eassumption|eapply P; [exact Hf|eassumption]|auto].
    - eapply GaDropPanic; [eassumption|rewrite Hf; eassumption|eassumption|eapply P; [exact Hf|eassumption]].
  Qed.

  Lemma gathers_returns s f s' how g : gathers src dr s f s' how g -> forall st, reach st ->
    (forall k, map_get m st k = f k) ->
    exists n0 st', forall n, n0 <= n -> gather m src dr n s st = Some (s', st', how).
  Proof.
    intros H. induction H as [s s1 f g E1 Hg|s s1 e f g E1 Hg|s s1 f g E1 Hg
      |s s1 k v f f1 s2 how g E1 Ef P H IH|s s1 s2 k v old f f1 s3 how g E1 Ef Ed P H IH
      |s s1 s2 k v old f g E1 Ef Ed P]; intros st R Hf.
    1-3: exists 1, st; intros [|n] Hn; [lia|]; cbn; now rewrite E1.
    - destruct (insert_put st k v R) as [Q1 Q2].
      assert (Hf1 : forall j, map_get m (snd (map_insert m st k v)) j = f1 j).
      { intros j. destruct Q1 as [Q3 Q4], P as [P1 P2].
        destruct (ks_eqb sp j k) eqn:Ej.
        - apply (c_keqb _ _ _ (ml_core L)) in Ej. subst j. congruence.
        - assert (j <> k) by (intros ->; enough (ks_eqb sp k k = true) by congruence;
            now apply (c_keqb _ _ _ (ml_core L))).
          rewrite Q4, P2 by assumption. apply Hf. }
      destruct (IH _ (mr_insert m st k v R) Hf1) as (n0 & st' & Hn).
      exists (Datatypes.S n0), st'. intros [|n] Hn'; [lia|]. cbn. rewrite E1.
      rewrite Hf, Ef in Q2. destruct (map_insert m st k v) as [o st1]. cbn in Q2. subst o.
      apply Hn. lia.
    - destruct (insert_put st k v R) as [Q1 Q2].
      assert (Hf1 : forall j, map_get m (snd (map_insert m st k v)) j = f1 j).
      { intros j. destruct Q1 as [Q3 Q4], P as [P1 P2].
        destruct (ks_eqb sp j k) eqn:Ej.
        - apply (c_keqb _ _ _ (ml_core L)) in Ej. subst j. congruence.
        - assert (j <> k) by (intros ->; enough (ks_eqb sp k k = true) by congruence;
            now apply (c_keqb _ _ _ (ml_core L))).
          rewrite Q4, P2 by assumption. apply Hf. }
      destruct (IH _ (mr_insert m st k v R) Hf1) as (n0 & st' & Hn).
      exists (Datatypes.S n0), st'. intros [|n] Hn'; [lia|]. cbn. rewrite E1.
      rewrite Hf, Ef in Q2. destruct (map_insert m st k v) as [o st1]. cbn in Q2. subst o.
      rewrite Ed. apply Hn. lia.
    - destruct (insert_put st k v R) as [Q1 Q2].
      exists 1, (snd (map_insert m st k v)). intros [|n] Hn'; [lia|]. cbn. rewrite E1.
      rewrite Hf, Ef in Q2. destruct (map_insert m st k v) as [o st1]. cbn in Q2. subst o.
      now rewrite Ed.
  Qed.

  Lemma map_makes before n w s s' r :
    (forall a b, ks_before sp a b <-> before a b) ->
    map_gather m src dr w n s = Some (s', r) ->
    makes src dr before s s' (seen (map_get m) r) /\ (forall st, r = Built st -> reach st).
  Proof.
    intros Hb H. unfold map_gather in H.
    destruct (gather m src dr n s (map_new m w)) as [[[s1 st] how]|] eqn:G; [|discriminate].
    destruct (gather_sound n _ _ _ _ _ (mr_new m w) G) as [R Gs]. clear G.
    destruct (c14 L (map_new m w) (or_introl (ex_intro _ w eq_refl))) as (N & _).
    apply gathers_ext with (f' := fun _ => None) in Gs; [|intros k; now rewrite N].
    destruct (c06 L st R) as (l & Y & Hl & Hs).
    apply (sorted_by_ext _ _ _ (fun a b => proj2 (Hb a b))) in Hs.
    destruct how as [|e|].
    - injection H as <- <-. split; [now constructor|]. now intros st0 [= <-].
    - destruct (map_drop m (counted dr) (s1, 2) st) as [[s2 k] p] eqn:D.
      destruct (whole_drop L before Hb dr st l s1 1 s2 k p R Y D) as [lk Ds].
      destruct k as [|[|[|k]]]; injection H as <- <-; (split; [|discriminate]); cbn [seen].
      + eapply MkRefusedAbort; eauto.
      + eapply MkRefusedPanic; eauto.
      + eapply MkRefused; eauto. rewrite <- (drops_quiet dr before _ _ _ _ _ _ _ Ds eq_refl eq_refl). exact Ds.
      + apply drops_le in Ds. lia.
    - destruct (map_drop m (counted dr) (s1, 1) st) as [[s2 k] p] eqn:D.
      destruct (whole_drop L before Hb dr st l s1 0 s2 k p R Y D) as [lk Ds].
      rewrite (drops_last dr before _ _ _ _ _ _ _ Ds eq_refl eq_refl) in Ds.
      destruct k as [|[|k]]; injection H as <- <-; (split; [|discriminate]); cbn [seen].
      + eapply MkAborts; eauto.
      + eapply MkUnwinds; eauto.
      + apply drops_le in Ds. lia.
  Qed.

  Lemma map_returns w s s1 how f : gathers src dr s (fun _ => None) s1 how f ->
    exists s' r, returns (fun n => map_gather m src dr w n s) (s', r).
  Proof.
    intros G.
    destruct (c14 L (map_new m w) (or_introl (ex_intro _ w eq_refl))) as (N & _).
    destruct (gathers_returns _ _ _ _ _ G (map_new m w) (mr_new m w) N) as (n0 & st & Hn).
    unfold map_gather. destruct how as [|e|].
    - exists s1, (Built st). exists n0. intros n H. now rewrite Hn.
    - destruct (map_drop m (counted dr) (s1, 2) st) as [[s2 [|[|[|k]]]] p] eqn:D; eexists _, _; exists n0;
        intros n H; rewrite Hn, D by lia; reflexivity.
    - destruct (map_drop m (counted dr) (s1, 1) st) as [[s2 [|k]] p] eqn:D; eexists _, _; exists n0;
        intros n H; rewrite Hn, D by lia; reflexivity.
  Qed.
End Map.

Section Set_.
  Context {T S E : Type} {sp : KeySpec T} {m : SetStorage T} (L : SetLaws sp m).
  Variable src : source S T E.
  Notation reach := (set_reachable m).
  Notation has st := (fun k => set_contains m st k = true).

  Lemma set_insert_adds st k : reach st -> forall j,
    set_contains m (snd (set_insert m st k)) j = true <-> j = k \/ set_contains m st j = true.
  Proof.
    intros R j. destruct (s_insert L st k (s_reach_inv L st R)) as (_ & [A1 A2] & _).
    destruct (ks_eqb sp j k) eqn:Ej.
    - apply (sc_keqb _ _ (sl_core L)) in Ej. subst j. intuition.
    - assert (j <> k) by (intros ->; enough (ks_eqb sp k k = true) by congruence;
        now apply (sc_keqb _ _ (sl_core L))).
      rewrite A2 by assumption. intuition.
  Qed.

  Lemma set_gathers_ext s p s' how q : set_gathers src s p s' how q ->
    forall p', (forall k, p' k <-> p k) -> set_gathers src s p' s' how q.
  Proof.
    intros H. induction H; intros p' Hp.
    - apply SgEnd; [assumption|]. intros k. now rewrite Hp.
    - apply SgFail; [assumption|]. intros k. now rewrite Hp.
    - apply SgPanic; [assumption|]. intros k. now rewrite Hp.
    - eapply SgItem; [eassumption|]. apply IHset_gathers. intros j. now rewrite Hp.
  Qed.

  Lemma set_gather_sound n : forall s st s' st' how, reach st ->
    set_gather_loop m src n s st = Some (s', st', how) ->
    reach st' /\ set_gathers src s (has st) s' how (has st').
  Proof.
    induction n as [|n IH]; intros s st s' st' how R H; [discriminate H|]. cbn in H.
    destruct (src s) as [s1 [k| |e|]] eqn:Es.
    - destruct (IH _ _ _ _ _ (sr_insert m st k R) H) as [R2 G]. split; [exact R2|].
      eapply SgItem; [exact Es|]. eapply set_gathers_ext; [exact G|]. intros j. symmetry.
      now apply set_insert_adds.
    - injection H as <- <- <-. split; [exact R|]. now constructor.
    - injection H as <- <- <-. split; [exact R|]. now constructor.
    - injection H as <- <- <-. split; [exact R|]. now constructor.
  Qed.

  Lemma set_gathers_returns s p s' how q : set_gathers src s p s' how q -> forall st,
    exists n0 st', forall n, n0 <= n -> set_gather_loop m src n s st = Some (s', st', how).
  Proof.
    intros H. induction H as [s s1 p q E1|s s1 e p q E1|s s1 p q E1|s s1 k p s2 how q E1 H IH]; intros st.
    1-3: exists 1, st; intros [|n] Hn; [lia|]; cbn; now rewrite E1.
    destruct (IH (snd (set_insert m st k))) as (n0 & st' & Hn).
    exists (Datatypes.S n0), st'. intros [|n] Hn'; [lia|]. cbn. rewrite E1. apply Hn. lia.
  Qed.

  Lemma set_makes_ok n w s s' r : set_gather m src w n s = Some (s', r) ->
    set_makes src s s' (seen (fun st k => set_contains m st k = true) r) /\
    (forall st, r = Built st -> reach st).
  Proof.
    intros H. unfold set_gather in H.
    destruct (set_gather_loop m src n s (set_new m w)) as [[[s1 st] how]|] eqn:G; [|discriminate].
    destruct (set_gather_sound n _ _ _ _ _ (sr_new m w) G) as [R Gs].
    apply set_gathers_ext with (p' := fun _ => False) in Gs.
    2:{ intros k. destruct (s_new L w) as (_ & _ & N). rewrite N. intuition discriminate. }
    destruct how as [|e|]; injection H as <- <-; (split; [econstructor; exact Gs|]);
      try discriminate. now intros st0 [= <-].
  Qed.

  Lemma set_returns w s s1 how p : set_gathers src s (fun _ => False) s1 how p ->
    exists r, returns (fun n => set_gather m src w n s) (s1, r).
  Proof.
    intros G. destruct (set_gathers_returns _ _ _ _ _ G (set_new m w)) as (n0 & st & Hn).
    unfold set_gather. destruct how as [|e|]; eexists; exists n0; intros n H; now rewrite Hn.
  Qed.
End Set_.

Section Read.
  Context {K V B S E : Type} {sp : KeySpec K} {m : MapStorage K V} (L : MapLaws sp m).
  Variable de : deserializer S (K * V) B E.
  Variable dr : drop_fn S V.

  Lemma map_reads before n w s s' r :
    (forall a b, ks_before sp a b <-> before a b) ->
    map_deserialize m de dr w n s = Some (s', r) ->
    reads_map de dr before s s' (seen (map_get m) r) /\ (forall st, r = Built st -> map_reachable m st).
  Proof.
    intros Hb H. unfold map_deserialize in H. destruct (de_ask de AskMap s) as [s1 [| |x|e]] eqn:Ea.
    - destruct (map_makes L _ _ before n w s1 s' r Hb H) as [M R]. split; [|exact R]. eapply RdMap; eauto.
    - injection H as <- <-. split; [now apply RdSeq|discriminate].
    - injection H as <- <-. split; [now apply RdOther|discriminate].
    - injection H as <- <-. split; [now apply RdError|discriminate].
  Qed.
End Read.

Section ReadSet.
  Context {T A S E : Type} {sp : KeySpec T} {m : SetStorage T} (L : SetLaws sp m).
  Variable de : deserializer S A T E.

  Lemma set_reads n w s s' r :
    set_deserialize m de w n s = Some (s', r) ->
    reads_set de s s' (seen (fun st k => set_contains m st k = true) r) /\
    (forall st, r = Built st -> set_reachable m st).
  Proof.
    intros H. unfold set_deserialize in H. destruct (de_ask de AskSeq s) as [s1 [| |x|e]] eqn:Ea.
    - injection H as <- <-. split; [now apply RtMap|discriminate].
    - destruct (set_makes_ok L _ n w s1 s' r H) as [M R]. split; [|exact R]. eapply RtSeq; eauto.
    - injection H as <- <-. split; [now apply RtOther|discriminate].
    - injection H as <- <-. split; [now apply RtError|discriminate].
  Qed.
End ReadSet.

(** Sources and destructors without effects. *)
Definition pop {A E} : source (list A) A E := fun l =>
  match l with [] => ([], Ends) | x :: r => (r, Gives x) end.

Lemma map_gather_pure {K V E} (m : MapStorage K V) w l :
  returns (fun n => map_gather (E := E) m pop (fun s _ => (s, false)) w n l)
    ([], Built (map_from_iter m w l)).
Proof.
  assert (G : forall l st n, List.length l < n ->
    gather (E := E) m pop (fun s _ => (s, false)) n l st =
    Some ([], fold_left (fun st e => snd (map_insert m st (fst e) (snd e))) l st, ByEnd)).
  { clear l. induction l as [|[k v] l IH]; intros st [|n] H; cbn in *; try lia; [reflexivity|].
    destruct (map_insert m st k v) as [[old|] st1]; cbn; now rewrite IH by lia. }
  exists (Datatypes.S (List.length l)). intros n H. unfold map_gather. now rewrite G by lia.
Qed.
Lemma set_gather_pure {T E} (m : SetStorage T) w l :
  returns (fun n => set_gather (E := E) m pop w n l) ([], Built (set_from_iter m w l)).
Proof.
  assert (G : forall l st n, List.length l < n ->
    set_gather_loop (E := E) m pop n l st =
    Some ([], fold_left (fun st x => snd (set_insert m st x)) l st, ByEnd)).
  { clear l. induction l as [|k l IH]; intros st [|n] H; cbn in *; try lia; [reflexivity|].
    now rewrite IH by lia. }
  exists (Datatypes.S (List.length l)). intros n H. unfold set_gather. now rewrite G by lia.
Qed.
