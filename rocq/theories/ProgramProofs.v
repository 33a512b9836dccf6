(** Programs over several maps do what they should. *)
Require Import List Arith Bool Lia Permutation Sorted.
Import ListNotations.
From Verif Require Import Std Traits DeriveAny Key Spec Api Reach KeyLaws EffectSpec EqSpec IterLaws IterFacts MapCore
  MapLaws MapFacts MapProofs EffectProofs EqProofs IterProofs DropSpec ClearSpec ClearProofs Sources SourceSpec DropProofs SourceProofs AnyRefSpec Program
  ProgramSpec.

Lemma var_rel {A B} (P : option A -> option B -> Prop) R E : P None None ->
  Forall2 P R E -> forall a, P (var a R) (var a E).
Proof.
  intros H0 F. unfold var. induction F as [|x y R E Hx F IH]; intros [|a]; cbn; auto.
Qed.
Lemma set_var_rel {A B} (P : option A -> option B -> Prop) R E x y : P x y ->
  Forall2 P R E -> forall a, Forall2 P (set_var a x R) (set_var a y E).
Proof.
  intros H0 F. induction F as [|? ? R E Hx F IH]; intros [|a]; cbn; auto.
Qed.
Lemma var_other {A} a b (x : option A) R : a <> b -> var b (set_var a x R) = var b R.
Proof.
  unfold var. revert a b. induction R as [|y R IH]; intros [|a] [|b] H; cbn; auto; try congruence.
Qed.
Lemma var_self {A} a (R : list (option A)) : var a (set_var a None R) = None.
Proof. unfold var. revert a. induction R as [|y R IH]; intros [|a]; cbn; auto. Qed.
Lemma set_var_back {A} a (x : A) R : var a R = Some x -> set_var a (Some x) (set_var a None R) = R.
Proof.
  unfold var. revert a. induction R as [|y R IH]; intros [|a] H; cbn in *; try congruence.
  now rewrite IH.
Qed.
Lemma set_var_length {A} a (x : option A) R : length (set_var a x R) = length R.
Proof. revert a. induction R as [|y R IH]; intros [|a]; cbn; auto. Qed.
Lemma var_in {A} a (x : A) R : var a R = Some x -> a < length R.
Proof.
  unfold var. intros H. destruct (Nat.lt_ge_cases a (length R)) as [?|Hl]; [assumption|].
  rewrite nth_overflow in H by exact Hl. discriminate.
Qed.
Lemma back_dec (ds : list dir) : {In Back ds} + {~ In Back ds}.
Proof. apply in_dec. decide equality. Qed.
Lemma back_or ds (both : bool) : (In Back ds -> both = true) \/ (In Back ds /\ both = false).
Proof. destruct (back_dec ds), both; tauto. Qed.

Lemma counted_stop {S V} (dr : drop_fn S V) l : forall s s' n o,
  drop_values (counted dr) (s, 0) l = ((s', n), o) -> s' = s /\ n = 0.
Proof.
  induction l as [|v l IH]; intros s s' n o; cbn.
  - intros [= <- <- _]. auto.
  - destruct (drop_values (counted dr) (s, 0) l) as [[s2 n2] o2] eqn:E. intros [= <- <- _]. eauto.
Qed.
Lemma counted_le {S V} (dr : drop_fn S V) l : forall s k s' n o,
  drop_values (counted dr) (s, k) l = ((s', n), o) -> n <= k.
Proof.
  induction l as [|v l IH]; intros s k s' n o; cbn.
  - intros [= <- <- _]. auto.
  - destruct k as [|k].
    + destruct (drop_values (counted dr) (s, 0) l) as [[s2 n2] o2] eqn:E. intros [= <- <- _]. eauto.
    + destruct (dr s v) as [s1 []].
      * destruct (drop_values (counted dr) (s1, k) l) as [[s2 n2] o2] eqn:E. intros [= <- <- _].
        apply IH in E. lia.
      * destruct (drop_values (counted dr) (s1, Datatypes.S k) l) as [[s2 n2] o2] eqn:E.
        intros [= <- <- _]. eauto.
Qed.
Lemma count_drops {S K V} (dr : drop_fn S V) (l : list (K * V)) : forall w k s s' n o,
  drop_values (counted dr) (s, Datatypes.S k) (map snd l) = ((s', n), o) ->
  drops_some dr (fun _ _ => True) (Datatypes.S k) w s l s' n [] /\ (n = Datatypes.S k -> o = Done).
Proof.
  induction l as [|[j v] l IH]; intros w k s s' n o; cbn [drop_values map snd].
  - intros [= <- <- <-]. split; [constructor|auto].
  - cbn [counted]. destruct (dr s v) as [s1 []] eqn:D.
    + destruct (drop_values (counted dr) (s1, k) (map snd l)) as [[s2 n2] o2] eqn:E. intros [= <- <- <-].
      pose proof (counted_le _ _ _ _ _ _ _ E) as Hle. split; [|lia]. destruct k as [|k].
      * apply counted_stop in E as [-> ->]. now constructor.
      * eapply DsPanic; [easy|exact D|]. apply (IH _ _ _ _ _ _ E).
    + destruct (drop_values (counted dr) (s1, Datatypes.S k) (map snd l)) as [[s2 n2] o2] eqn:E.
      intros [= <- <- <-]. destruct (IH None _ _ _ _ _ E) as [H1 H2]. split; [|exact H2].
      eapply DsOk; [easy|exact D|exact H1].
Qed.

Section Cleared.
  Context {S K V : Type} (dr : drop_fn S V) (pl : K -> K -> spot).

  Lemma clears_count x l x' kept lk oc : clears_to (counted dr) pl x l x' kept lk oc ->
    forall s, x = (s, 2) -> clears_some dr pl s l (fst x') (snd x') kept lk.
  Proof.
    induction 1 as [x|x k v x1 l x2 kept lk oc D H IH|x k v x1 l x2 oc D H]; intros s ->.
    - constructor.
    - cbn [counted] in D. destruct (dr s v) as [s1 []] eqn:E; inversion D; subst.
      eapply CsOk; [exact E|]. now apply IH.
    - cbn [counted] in D. destruct (dr s v) as [s1 []] eqn:E; inversion D; subst.
      destruct x2 as [s2 n]. eapply CsPanic; [exact E|].
      exact (proj1 (count_drops dr _ None _ _ _ _ _ H)).
  Qed.

  Lemma clears_le s l s' n kept lk : clears_some dr pl s l s' n kept lk -> n <= 2.
  Proof.
    assert (Le : forall bf n w x (l : list (K * V)) x' n' lk, drops_some dr bf n w x l x' n' lk -> n' <= n)
      by (clear; induction 1; lia).
    induction 1 as [| |d k v d1 l d2 n E D]; auto. apply Le in D. lia.
  Qed.

  Lemma clears_leak s l s' n kept lk : clears_some dr pl s l s' n kept lk ->
    (forall a b, pl a b <> OneTable) -> lk = [].
  Proof.
    intros H N. induction H as [| |d k v d1 l d2 n E D]; auto. clear D.
    induction l as [|[k' v'] l IH]; [reflexivity|]. cbn. unfold in_table at 1. cbn.
    pose proof (N k k'). destruct (pl k k'); [exact IH|congruence|exact IH].
  Qed.
End Cleared.

Section Step.
  Context {K V S : Type} (m : MapStorage K V) (U : helpers S K V).
  Variable sp : KeySpec K.
  Variable L : MapLaws sp m.
  Notation C := (ml_core L).
  Notation inv := (c_inv C).
  Notation ents := (c_ents C).
  Notation es := (fun st => map fst (ents st)).
  Variable before : K -> K -> Prop.
  Variable pl : K -> K -> spot.
  Variable both : bool.
  Hypothesis Hbefore : forall a b, ks_before sp a b <-> before a b.
  Hypothesis Hclears : forall D (dr : drop_fn D V),
    clears_at pl dr (fun k => k) (fun d st => ms_clear_drop m dr d st) (fun f s st => ms_retain m f s st).
  Hypothesis Hplaces : both = true -> forall a b, pl a b <> OneTable.
  Hypothesis Hclones : forall X (f : clone_fn X V) (dr : drop_fn X V) s st l s' n o,
    map_reachable m st -> yields (ms_Iter m) (map_iter m st) l ->
    map_clone_undo m (beside f) (counted dr) (s, 1) st = ((s', n), o) ->
    match o with
    | Some st' => n = 1 /\ exists l', clone_values f s l = (s', Some l') /\
        map_reachable m st' /\ yields (ms_Iter m) (map_iter m st') l'
    | None => exists s1 made order, clones_until f s l s1 made /\ Permutation order made /\
        drops_some dr before 1 None s1 order s' n []
    end.
  Hypothesis Htotal : both = true -> forall l, NoDup l -> sorted_by before l -> StronglySorted before l.
  Hypothesis Hend1 : double_ended (ms_Iter m) = both.
  Hypothesis Hend2 : double_ended (ms_IntoIter m) = both.
  Hypothesis Heq : forall X (f : eq_fn X V) x a b x' r,
    map_reachable m a -> map_reachable m b -> map_eq_with m f x a b = (x', r) ->
    compared f (map_get m a) (map_get m b) x x' r.

  Notation sees := (sees m).
  Notation osees := (osees m).

  Lemma sees_es st : map_reachable m st -> sees st (es st).
  Proof.
    intros R. split; [exact R|]. destruct (ml_iter _ _ L st (r_inv L st R)) as [O E].
    cbv beta. rewrite <- E. now apply yields_rem.
  Qed.
  Lemma sees_is st l : sees st l -> l = es st.
  Proof. intros [R Y]. exact (yields_fun _ _ _ _ Y (proj2 (sees_es st R))). Qed.

  Lemma holds_at st k : inv st -> holds (es st) k (map_get m st k).
  Proof.
    intros H. destruct (map_get m st k) as [v|] eqn:E; cbn.
    - now apply (get_in L).
    - intros Hi. apply in_map_iff in Hi as ([k0 v] & <- & Hi).
      apply (get_in L) in Hi; [|exact H]. cbn in E. congruence.
  Qed.

  Lemma store_at_key st k old r v st' : inv st ->
    MapCore.lookup (ks_eqb sp) k (ents st) = Some (old, r) -> ms_store m st r v = Some st' ->
    replaced (es st) k old v (es st').
  Proof.
    intros H E Es. destruct (c_store _ _ _ C st r v st' H Es) as (_ & H' & Ee).
    cbv beta. rewrite Ee. clear Ee.
    apply (lookup_in _ (c_keqb _ _ _ C)) in E. pose proof (c_nodup_r _ _ _ C st H) as N.
    apply in_split in E as (l1 & l2 & E). rewrite E in *.
    rewrite map_app in N. cbn in N. apply NoDup_remove_2 in N. rewrite in_app_iff in N.
    exists (map fst l1), (map fst l2). split; [now rewrite map_app|].
    unfold upd_ref. rewrite map_app, map_app. cbn [map].
    assert (Id : forall l : list (ent K V), ~ In r (map eref l) ->
              map fst (map (fun e => (ekey e, if ref_eqb r (eref e) then v else evalue e, eref e)) l)
              = map fst l).
    { induction l as [|[[k0 v0] r0] l IH]; [reflexivity|]. cbn. intros Hn.
      unfold eref, ekey, evalue in *. cbn in *. destruct (ref_eqb r r0) eqn:Er.
      - apply ref_eqb_eq in Er. destruct Hn. now left.
      - rewrite IH by tauto. reflexivity. }
    rewrite !Id by tauto. cbn. unfold eref, ekey. cbn.
    replace (ref_eqb r r) with true; [reflexivity|]. symmetry. now apply ref_eqb_eq.
  Qed.

  Lemma not_in_es st k : MapCore.lookup (ks_eqb sp) k (ents st) = None -> inv st -> holds (es st) k None.
  Proof.
    intros E H. pose proof (holds_at st k H) as Hh.
    replace (map_get m st k) with (@None V) in Hh; [exact Hh|].
    symmetry. etransitivity; [exact (c_get _ _ _ C st k H)|]. now rewrite E.
  Qed.

  Lemma inserted st k v : inv st ->
    match MapCore.lookup (ks_eqb sp) k (ents st) with
    | Some (old, _) => exists st', map_insert m st k v = (Some old, st') /\ replaced (es st) k old v (es st')
    | None => exists st', map_insert m st k v = (None, st') /\ added before (es st) k v (es st')
    end.
  Proof.
    intros H. destruct (MapCore.lookup (ks_eqb sp) k (ents st)) as [[old r]|] eqn:E.
    - destruct (c_insert_some _ _ _ C st k v old r H E) as (st2 & E1 & E2). exists st2.
      split; [exact E2|]. now apply (store_at_key st k old r v st2).
    - destruct (c_insert_none _ _ _ C st k v H E) as (st2 & E2 & H2 & P). exists st2.
      split; [exact E2|]. split; [exact P|].
      pose proof (c_sorted _ _ _ C _ H2) as So. revert So. clear -Hbefore.
      induction (ents st2) as [|e l IH]; cbn; intros So; [constructor|].
      inversion So as [|? ? So' F]; subst. constructor; [now apply IH|].
      rewrite Forall_map in *. revert F. apply Forall_impl. intros e' He.
      now rewrite <- Hbefore.
  Qed.

  Lemma taken_at st k : inv st ->
    match MapCore.lookup (ks_eqb sp) k (ents st) with
    | Some (v, _) => exists st', ms_remove m st k = (Some v, st') /\ taken (es st) k v (es st')
    | None => exists st', ms_remove m st k = (None, st') /\ es st' = es st
    end.
  Proof.
    intros H. destruct (c_remove _ _ _ C st k H) as (st' & E & H' & D).
    destruct (MapCore.lookup (ks_eqb sp) k (ents st)) as [[v r]|] eqn:El; exists st';
      (split; [exact E|]); cbv beta; rewrite D; clear D.
    - apply (lookup_in _ (c_keqb _ _ _ C)) in El. pose proof (c_nodup_k _ _ _ C st H) as N.
      apply in_split in El as (l1 & l2 & El). rewrite El in *.
      rewrite map_app in N. cbn in N. apply NoDup_remove_2 in N. rewrite in_app_iff in N.
      exists (map fst l1), (map fst l2). split; [now rewrite map_app|].
      rewrite map_app. unfold del. rewrite filter_app. cbn.
      rewrite (proj2 (c_keqb _ _ _ C k k) eq_refl). cbn.
      assert (Id : forall l : list (ent K V), ~ In k (map ekey l) ->
                filter (fun e => negb (ks_eqb sp k (fst e))) (map fst l) = map fst l).
      { induction l as [|[[k0 v0] r0] l IH]; [reflexivity|]. cbn. intros Hn.
        destruct (ks_eqb sp k k0) eqn:Ek.
        - apply (c_keqb _ _ _ C) in Ek. destruct Hn. left. now rewrite Ek.
        - cbn. now rewrite IH by tauto. }
      rewrite !Id by tauto. reflexivity.
    - assert (Id : forall l : list (K * V), ~ In k (map fst l) -> del (ks_eqb sp) k l = l).
      { unfold del. induction l as [|[k0 v0] l IH]; [reflexivity|]. cbn. intros Hn.
        destruct (ks_eqb sp k k0) eqn:Ek.
        - apply (c_keqb _ _ _ C) in Ek. destruct Hn. left. now rewrite Ek.
        - cbn. now rewrite IH by tauto. }
      apply Id. exact (not_in_es st k El H).
  Qed.

  Lemma after_ends n (f b : said K V) : n <= 2 -> after n f b = ends_with n f b.
  Proof. destruct n as [|[|[|n]]]; intros; [reflexivity..|lia]. Qed.

  Lemma one_step q a s st s' st' x : about q = Some a -> map_reachable m st ->
    exec_one m U q s st = (s', st', x) ->
    map_reachable m st' /\ exists y, x = y /\ does_one before pl both U q s (es st) s' (es st') y.
  Proof.
    intros Ha R E. pose proof (r_inv L st R) as H.
    destruct q as [b w|b|b|b k|b k|b k v|b k|b k v|b k v|b|b|b ds|b c|b c|b c|b|b ds];
      try discriminate Ha; cbn [exec_one] in E.
    - injection E as <- <- <-. split; [exact R|]. eexists. split; [reflexivity|].
      rewrite (len_facts L st H). constructor.
    - injection E as <- <- <-. split; [exact R|]. eexists. split; [reflexivity|].
      constructor. pose proof (c_is_empty _ _ _ C st H) as E0.
      change (map_is_empty m st = match ents st with [] => true | _ :: _ => false end) in E0.
      rewrite E0. destruct (ents st); cbn; split; congruence.
    - injection E as <- <- <-. split; [exact R|]. eexists. split; [reflexivity|].
      rewrite (contains_get L st k H). apply DoContains. now apply holds_at.
    - injection E as <- <- <-. split; [exact R|]. eexists. split; [reflexivity|].
      apply DoGet. now apply holds_at.
    - pose proof (mr_insert m st k v R) as R'. pose proof (inserted st k v H) as Hi.
      destruct (MapCore.lookup (ks_eqb sp) k (ents st)) as [[old r]|] eqn:El;
        destruct Hi as (st1 & Ei & Hi); rewrite Ei in E, R'; injection E as <- <- <-;
        (split; [exact R'|]); eexists; (split; [reflexivity|]).
      + now apply DoInsertOld.
      + apply DoInsertNew; [now apply not_in_es|exact Hi].
    - pose proof (mr_remove m st k R) as R'. pose proof (taken_at st k H) as Hi.
      destruct (MapCore.lookup (ks_eqb sp) k (ents st)) as [[old r]|] eqn:El;
        destruct Hi as (st1 & Ei & Hi); unfold map_remove in *; rewrite Ei in E, R'; injection E as <- <- <-;
        (split; [exact R'|]); eexists; (split; [reflexivity|]).
      + now apply DoRemove.
      + cbv beta in *. rewrite Hi. apply DoRemoveNone. now apply not_in_es.
    - rewrite (get_mut_look L st k H) in E.
      destruct (MapCore.lookup (ks_eqb sp) k (ents st)) as [[old r]|] eqn:El; cbn in E.
      + destruct (look_store L st k old r v H El) as [st1 Es].
        assert (Ed : deref m st r = Ok old).
        { unfold deref. now rewrite (look_load L st k old r). }
        assert (Ea : assign m st r v = Ok st1) by (unfold assign; now rewrite Es).
        rewrite Ed, Ea in E. unfold drop_one in E.
        destruct (h_drop U s old) as [s1 p] eqn:D. injection E as <- <- <-.
        split; [exact (mr_assign m st r v st1 R Ea)|]. eexists. split; [reflexivity|].
        eapply DoSet; [|exact D]. now apply (store_at_key st k old r v st1).
      + unfold drop_one in E. destruct (h_drop U s v) as [s1 p] eqn:D. injection E as <- <- <-.
        split; [exact R|]. eexists. split; [reflexivity|].
        apply DoSetNone; [now apply not_in_es|exact D].
    - destruct (or_insert_ok L st k H R) as (e & Ee & F). rewrite Ee in E.
      pose proof (ml_entry _ _ L st k H) as He. change (ms_entry m st k) with (map_entry m st k) in He.
      rewrite Ee in He. destruct e as [o|x0]; cbn [entry_or_insert] in E.
      + destruct F as (G & r & Em & F). unfold occ_into_mut in E. rewrite Em in E. cbn [res_map res_bind] in E. cbv beta iota in E.
        destruct (F v) as (F1 & F2 & _). pose proof (holds_at st k H) as Hk.
        destruct (map_get m st k) as [y|] eqn:Gy; [|congruence]. rewrite F2 in E. unfold drop_one in E.
        destruct (h_drop U s v) as [s1 p] eqn:D. injection E as <- <- <-.
        split; [exact R|]. exists (Some (bool_ends p (Value (Some y)))). split; [reflexivity|]. eapply DoOrInsertOld; eauto.
      + destruct F as (G & _ & F). destruct (F v) as (r & st1 & Ei & (F1 & F2 & _) & R').
        rewrite Ei, G in *. rewrite F2 in E. injection E as <- <- <-.
        split; [exact R'|]. eexists. split; [reflexivity|].
        pose proof (inserted st k v H) as Hi.
        destruct (MapCore.lookup (ks_eqb sp) k (ents st)) as [[old r0]|] eqn:El.
        { destruct He as (o & He & _). discriminate. }
        destruct He as (x1 & [= <-] & Hx). destruct (ml_vac _ _ L st x0 k H Hx) as (_ & _ & Hv).
        destruct (Hv v) as (r1 & Ei1 & _). rewrite Ei in Ei1. injection Ei1 as <- ->.
        destruct Hi as (st2 & Ei2 & Hi). unfold map_insert in Ei2. rewrite Ei2 in *. cbn [snd] in *.
        apply DoOrInsertNew; [now apply not_in_es|exact Hi].
    - pose proof (mr_retain m _ (keep_or_drop U) s st R) as R'.
      destruct (c_retain _ _ _ C S (keep_or_drop U) s st H) as (s1 & st1 & oc & E1 & H' & El).
      change (map_retain m (keep_or_drop U) s st = (s1, st1, oc)) in E1. rewrite E1 in E, R'.
      injection E as <- <- <-. split; [exact R'|]. eexists. split; [reflexivity|].
      now apply DoRetain.
    - destruct (map_clear_drop m (counted (h_drop U)) (s, 2) st) as [[[s1 n] st1] oc] eqn:E1.
      injection E as <- <- <-.
      destruct (c51_exact L pl _ (counted (h_drop U)) (s, 2) st (s1, n) st1 oc (Hclears _ _) R E1)
        as (l & kp & lk & Y & D & Y' & _ & R').
      split; [exact R'|]. eexists. split; [reflexivity|].
      rewrite <- (sees_is st _ (conj R Y)), <- (sees_is st1 _ (conj R' Y')).
      pose proof (clears_count (h_drop U) pl _ _ _ _ _ _ D s eq_refl) as D'. cbn [fst snd] in D'.
      rewrite (after_ends n) by exact (clears_le _ _ _ _ _ _ _ _ D').
      eapply DoClear; [exact D'|]. intros Hb. exact (clears_leak _ _ _ _ _ _ _ _ D' (Hplaces Hb)).
    - destruct (ml_iter _ _ L st H) as [O Er].
      destruct (back_or ds both) as [Hb|[Hb B]].
      + destruct (run_it_rem _ (ml_Iter L) ds (map_iter m st) O) as (it & E1 & _); [now rewrite Hend1|].
        rewrite E1 in E. injection E as <- <- <-. split; [exact R|]. eexists. split; [reflexivity|].
        unfold map_iter. rewrite Er. now apply DoIter.
      + destruct (run_it (ms_Iter m) ds (map_iter m st)) as [[l it]|] eqn:E1.
        * pose proof (run_it_back _ ds _ _ E1 Hb). congruence.
        * injection E as <- <- <-. split; [exact R|]. eexists. split; [reflexivity|].
          now apply DoIterInvalid.
  Qed.

  (** * Several maps *)

  Notation rel := (Forall2 osees).

  Lemma sees_sorted st l : sees st l -> both = true -> StronglySorted before (map fst l).
  Proof.
    intros [R Y] Hb. apply Htotal; [exact Hb| |].
    - rewrite (sees_is st l (conj R Y)). pose proof (c_nodup_k _ _ _ C st (r_inv L st R)) as N.
      rewrite map_map. exact N.
    - destruct (c06 L st R) as (l' & Y' & _ & Hs). rewrite (yields_fun _ _ _ _ Y Y').
      revert Hs. apply sorted_by_ext. intros a b. apply Hbefore.
  Qed.

  Lemma drops_here st l ds s s' n lk : sees st l ->
    drops_some (h_drop U) before 2 None s (snd (deque ds l)) s' n lk -> both = true -> lk = [].
  Proof.
    intros Hs D Hb. eapply drops_sorted; [exact D| |easy].
    apply deque_sorted. exact (sees_sorted st l Hs Hb).
  Qed.

  Lemma drop_map_ok s o p s' n : osees o p -> drop_map m U s o = (s', n) ->
    drops_map before both U s p s' n /\ n <= 2.
  Proof.
    intros Hs D. destruct o as [st|], p as [l|]; try contradiction; cbn in *.
    - destruct (map_drop m (counted (h_drop U)) (s, 2) st) as [[s1 n1] p1] eqn:E. injection D as -> ->.
      destruct (whole_drop L before Hbefore (h_drop U) st l s 1 s' n p1 (proj1 Hs) (proj2 Hs) E) as [lk D].
      split; [|exact (drops_le _ _ _ _ _ _ _ _ _ D)].
      exists lk. split; [exact D|]. exact (drops_here st l [] _ _ _ _ Hs D).
    - injection D as <- <-. auto.
  Qed.

  Lemma rel_length R E : rel R E -> length R = length E.
  Proof. induction 1; cbn; auto. Qed.

  Lemma assign_ok s R E b st l s' R' x : rel R E -> sees st l ->
    assign_var m U s R b st = (s', R', x) ->
    exists k, drops_map before both U s (var b E) s' k /\ x = ends_with k Fine Panicked /\
      rel R' (set_var b (Some l) E).
  Proof.
    intros F Hs A. unfold assign_var in A.
    destruct (drop_map m U s (var b R)) as [s1 k] eqn:D. injection A as <- <- <-.
    destruct (drop_map_ok _ _ _ _ _ (var_rel osees R E Logic.I F b) D) as [D' Hk].
    exists k. split; [exact D'|]. split; [now apply after_ends|]. now apply set_var_rel.
  Qed.

  Lemma on_var_ok q a s R E s' R' x : about q = Some a -> rel R E ->
    on_var m U a q s R = (s', R', x) ->
    exists E', does before pl both U q s E s' E' x /\ rel R' E'.
  Proof.
    intros Ha F H. unfold on_var in H. pose proof (var_rel osees R E Logic.I F a) as Hv.
    destruct (var a R) as [st|] eqn:Er; destruct (var a E) as [l|] eqn:El; try contradiction.
    - destruct (exec_one m U q s st) as [[s1 st1] y] eqn:E1. injection H as <- <- <-.
      cbn in Hv. pose proof (sees_is st l Hv) as ->.
      destruct (one_step q a s st s1 st1 y Ha (proj1 Hv) E1) as (R1 & z & <- & D).
      eexists. split; [eapply DoOne; eassumption|].
      apply set_var_rel; [exact (sees_es st1 R1)|exact F].
    - injection H as <- <- <-. exists E. split; [eapply DoOneInvalid; eassumption|exact F].
  Qed.

  Lemma sees_holds st l : sees st l -> forall k, holds l k (map_get m st k).
  Proof. intros Hs k. rewrite (sees_is st l Hs). apply holds_at. apply (r_inv L). apply Hs. Qed.

  Lemma sees_new w : sees (map_new m w) [].
  Proof.
    pose proof (sees_es _ (mr_new m w)) as Hs. cbv beta in Hs.
    destruct (ml_empty _ _ L w) as [_ E]. unfold map_new in Hs. rewrite E in Hs. exact Hs.
  Qed.

  Lemma step_ok q s R E s' R' x : rel R E -> exec m U q s R = (s', R', x) ->
    exists E', does before pl both U q s E s' E' x /\ rel R' E'.
  Proof.
    intros F H. pose proof (var_rel osees R E Logic.I F) as Hv. pose proof (rel_length R E F) as Hlen.
    destruct q as [a w|a|a|a k|a k|a k v|a k|a k v|a k v|a|a|a ds|a b|a b|a b|a|a ds];
      try (eapply on_var_ok; [reflexivity|exact F|exact H]); cbn [exec] in H.
    - destruct (Nat.ltb_spec a (length R)) as [Hl|Hl].
      + destruct (assign_ok _ _ _ _ _ _ _ _ _ F (sees_new w) H) as (k & D & -> & F').
        eexists. split; [|exact F']. apply DoNew; [lia|exact D].
      + injection H as <- <- <-. exists E. split; [apply DoNewInvalid; lia|exact F].
    - pose proof (Hv a) as Ha. pose proof (Hv b) as Hb.
      destruct (var a R) as [x1|] eqn:Ea; destruct (var a E) as [l1|] eqn:Ea'; try contradiction.
      2: { injection H as <- <- <-. exists E. split; [apply DoEqInvalid; auto|exact F]. }
      destruct (var b R) as [x2|] eqn:Eb; destruct (var b E) as [l2|] eqn:Eb'; try contradiction.
      2: { injection H as <- <- <-. exists E. split; [apply DoEqInvalid; auto|exact F]. }
      destruct (map_eq_with m (h_eq U) s x1 x2) as [s1 r] eqn:E1. injection H as <- <- <-.
      exists E. split; [|exact F]. eapply DoEq; try eassumption.
      + exact (sees_holds x1 l1 Ha).
      + exact (sees_holds x2 l2 Hb).
      + exact (Heq _ _ _ _ _ _ _ (proj1 Ha) (proj1 Hb) E1).
    - pose proof (Hv a) as Ha.
      destruct (var a R) as [x1|] eqn:Ea; destruct (var a E) as [l1|] eqn:Ea'; try contradiction.
      2: { injection H as <- <- <-. exists E. split; [apply DoCloneInvalid; auto|exact F]. }
      destruct (Nat.ltb_spec b (length R)) as [Hl|Hl].
      2: { injection H as <- <- <-. exists E. split; [apply DoCloneInvalid; right; lia|exact F]. }
      destruct (map_clone_undo m (beside (h_clone U)) (counted (h_drop U)) (s, 1) x1) as [[s1 k] o] eqn:E1.
      pose proof (Hclones S (h_clone U) (h_drop U) s x1 l1 s1 k o (proj1 Ha) (proj2 Ha) E1) as Hc.
      destruct o as [st1|].
      + destruct Hc as (_ & l' & Ec & R1 & Y').
        destruct (assign_ok _ _ _ _ _ _ _ _ _ F (conj R1 Y') H) as (k' & D & -> & F').
        eexists. split; [|exact F']. eapply DoClone; try eassumption. lia.
      + destruct Hc as (s0 & mk & order & Cl & P & D). injection H as <- <- <-. exists E. split; [|exact F].
        replace (after k Fine NoClone) with (if Nat.eqb k 1 then Some (@NoClone K V) else None).
        * eapply DoClonePanic; try eassumption. lia.
        * apply drops_le in D. destruct k as [|[|k]]; [reflexivity..|lia].
    - pose proof (Hv a) as Ha.
      destruct (var a R) as [x1|] eqn:Ea; destruct (var a E) as [l1|] eqn:Ea'; try contradiction.
      2: { injection H as <- <- <-. exists E. split; [apply DoMoveInvalid; auto|exact F]. }
      destruct (Nat.ltb_spec b (length R)) as [Hl|Hl].
      2: { injection H as <- <- <-. exists E. split; [apply DoMoveInvalid; right; lia|exact F]. }
      pose proof (set_var_rel osees R E None None Logic.I F a) as F1.
      destruct (Nat.eq_dec a b) as [<-|Hab].
      + unfold assign_var in H. rewrite var_self in H. cbn in H. injection H as <- <- <-.
        rewrite set_var_back by exact Ea. exists E. split; [|exact F]. eapply DoMoveSelf. eassumption.
      + destruct (assign_ok _ _ _ _ _ _ _ _ _ F1 Ha H) as (k & D & -> & F').
        rewrite var_other in D by exact Hab.
        eexists. split; [|exact F']. apply DoMove; try assumption. lia.
    - pose proof (Hv a) as Ha.
      destruct (var a R) as [x1|] eqn:Ea; destruct (var a E) as [l1|] eqn:Ea'; try contradiction.
      2: { injection H as <- <- <-. exists E. split; [apply DoDropInvalid; auto|exact F]. }
      destruct (drop_map m U s (Some x1)) as [s1 k] eqn:D. injection H as <- <- <-.
      destruct (drop_map_ok _ _ (Some l1) _ _ Ha D) as [D' Hk].
      eexists. split; [|now apply (set_var_rel osees R E None None Logic.I F a)].
      rewrite after_ends by exact Hk. eapply DoDrop; [exact Ea'|exact D'].
    - pose proof (Hv a) as Ha.
      destruct (var a R) as [x1|] eqn:Ea; destruct (var a E) as [l1|] eqn:Ea'; try contradiction.
      2: { injection H as <- <- <-. exists E. split; [apply DoIntoIterInvalid; auto|exact F]. }
      destruct (back_or ds both) as [Hb|[Hb B]].
      + destruct (ml_into_iter _ _ L x1 (r_inv L x1 (proj1 Ha))) as [O _].
        destruct (run_it_rem _ (ml_IntoIter L) ds (map_into_iter m x1) O) as (it & E1 & _); [now rewrite Hend2|].
        rewrite E1 in H.
        destruct (it_drop (ms_IntoIter m) (counted (fun s e => h_drop U s (snd e))) (s, 2) it)
          as [[s1 k] p] eqn:D. injection H as <- <- <-.
        destruct (into_drop L before Hbefore (h_drop U) ds x1 l1 _ it s 1 s1 k p (proj1 Ha) (proj2 Ha) E1 D)
          as (-> & lk & D').
        eexists. split; [|now apply (set_var_rel osees R E None None Logic.I F a)].
        rewrite after_ends by exact (drops_le _ _ _ _ _ _ _ _ _ D').
        eapply DoIntoIter; [eassumption..|apply surjective_pairing|].
        exists lk. split; [exact D'|]. exact (drops_here x1 l1 ds _ _ _ _ Ha D').
      + destruct (run_it (ms_IntoIter m) ds (map_into_iter m x1)) as [[l it]|] eqn:E1.
        * pose proof (run_it_back _ ds _ _ E1 Hb). congruence.
        * injection H as <- <- <-. exists E. split; [apply DoIntoIterInvalid; auto|exact F].
  Qed.

  Lemma all_ok l : forall s R E s' R' xs e, rel R E -> exec_all m U l s R = (s', R', xs, e) ->
    exists E', does_all before pl both U l s E s' E' xs e /\ rel R' E'.
  Proof.
    induction l as [|q l IH]; intros s R E s' R' xs e F H; cbn in H.
    - injection H as <- <- <- <-. exists E. split; [constructor|exact F].
    - destruct (exec m U q s R) as [[s1 R1] [x|]] eqn:E1.
      + destruct (step_ok q s R E s1 R1 _ F E1) as (E2 & D & F1).
        destruct (exec_all m U l s1 R1) as [[[s2 R2] ys] e2] eqn:E3.
        injection H as <- <- <- <-. destruct (IH _ _ _ _ _ _ _ F1 E3) as (E4 & D4 & F4).
        exists E4. split; [|exact F4]. econstructor; eassumption.
      + injection H as <- <- <- <-. destruct (step_ok q s R E s1 R1 _ F E1) as (E2 & D & F1).
        exists E2. split; [|exact F1]. now constructor.
  Qed.

  Lemma rel_start n : rel (repeat None n) (repeat None n).
  Proof. induction n; cbn; constructor; auto. exact Logic.I. Qed.
End Step.
