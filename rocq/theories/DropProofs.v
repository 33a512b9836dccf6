(** Dropping maps and owning iterators, and clones that unwind: proofs. *)
Require Import List Arith Bool Lia Permutation Sorted.
Import ListNotations.
From Verif Require Import Std Traits Key Spec MapCore MapLaws KeyLaws Api Reach IterLaws IterFacts
  MapFacts MapProofs EffectSpec EffectProofs DropSpec DropLaws CloneUndo Sources.

Lemma counted_out {S V} (dr : drop_fn S V) s v : counted dr (s, 0) v = ((s, 0), false).
Proof. reflexivity. Qed.

Section Counted.
  Context {S K V : Type} (dr : drop_fn S V) (before : K -> K -> Prop).
  Notation bf := (fun a b : K * V => before (fst a) (fst b)).
  Notation cdr := (counted (fun s (e : K * V) => dr s (snd e))).

  Lemma falls_out w x l x' p lk : falls cdr bf w x l x' p lk -> snd x = 0 -> x' = x.
  Proof.
    intros H. induction H as [w d|w d x d1 p r d2 q lk Hx E H IH|y d x r d2 q lk Hl H IH]; intros Hn; auto.
    destruct d as [s n]. cbn in Hn. subst n. rewrite counted_out in E. injection E as <- <-. auto.
  Qed.

  Lemma falls_count w x l x' p lk : falls cdr bf w x l x' p lk -> forall s k, x = (s, Datatypes.S k) ->
    exists lk', drops_some dr before (Datatypes.S k) (option_map fst w) s l (fst x') (snd x') lk'.
  Proof.
    intros H. induction H as [w d|w d x d1 p r d2 q lk Hx E H IH|y d x r d2 q lk Hl H IH]; intros s k ->.
    - eexists. constructor.
    - assert (Hw : forall j, option_map fst w = Some j -> before j (fst x)).
      { intros j Hj. destruct w as [y|]; [|discriminate]. injection Hj as <-. exact (Hx y eq_refl). }
      clear Hx. destruct x as [kx v]. cbn [counted fst snd] in *.
      destruct (dr s v) as [s1 []] eqn:Ed; injection E as <- <-.
      + destruct k as [|k].
        * apply falls_out in H; [|reflexivity]. subst d2. exists []. cbn [fst snd]. apply DsAbort; assumption.
        * destruct (IH s1 k eq_refl) as [lk' IH']. eexists. eapply DsPanic; eauto.
      + destruct (IH s1 k eq_refl) as [lk' IH']. eexists. eapply DsOk; eauto.
    - destruct (IH s k eq_refl) as [lk' IH']. destruct x as [kx v]. eexists. apply DsLeak; [exact Hl|exact IH'].
  Qed.
End Counted.

Section Facts.
  Context {S K V : Type} (dr : drop_fn S V) (before : K -> K -> Prop).
  Notation drops := (drops_some dr before).

  Lemma drops_le n w s l s' n' lk : drops n w s l s' n' lk -> n' <= n.
  Proof. induction 1; lia. Qed.

  Lemma drops_quiet n w s l s' n' lk : drops n w s l s' n' lk -> w = None -> n' = n -> lk = [].
  Proof.
    induction 1 as [n w s|n w s k v s1 l s2 n2 lk Hw E H IH|n w s k v s1 l s2 n2 lk Hw E H IH
      |w s k v s1 l Hw E|n j s k v l s2 n2 lk Hl H IH]; intros Ew En; auto; try discriminate.
    apply drops_le in H. lia.
  Qed.

  Lemma drops_last n w s l s' n' lk : drops n w s l s' n' lk -> w = None -> n = 1 -> lk = [].
  Proof.
    induction 1; intros Ew En; auto; discriminate.
  Qed.

  Lemma drops_sorted n w s l s' n' lk : drops n w s l s' n' lk ->
    StronglySorted before (map fst l) -> (forall j, w = Some j -> Forall (before j) (map fst l)) -> lk = [].
  Proof.
    induction 1 as [n w s|n w s k v s1 l s2 n2 lk Hw E H IH|n w s k v s1 l s2 n2 lk Hw E H IH
      |w s k v s1 l Hw E|n j s k v l s2 n2 lk Hl H IH]; cbn; intros So Hj; auto.
    - apply IH; [now inversion So|discriminate].
    - inversion So; subst. apply IH; [assumption|]. now intros j [= <-].
    - specialize (Hj j eq_refl). inversion Hj; contradiction.
  Qed.
End Facts.

Lemma deque_sorted {K V} (before : K -> K -> Prop) ds : forall l : list (K * V), StronglySorted before (map fst l) ->
  StronglySorted before (map fst (snd (deque ds l))).
Proof.
  induction ds as [|[] ds IH]; intros l So; [exact So| |]; cbn [deque].
  - destruct (deque ds (tl l)) as [o r] eqn:E. cbn [snd]. change r with (snd (o, r)). rewrite <- E.
    apply IH. destruct l; [exact So|]. now inversion So.
  - destruct (deque ds (removelast l)) as [o r] eqn:E. cbn [snd]. change r with (snd (o, r)). rewrite <- E.
    apply IH. clear -So. induction l as [|a l IHl]; [exact So|]. cbn [map] in So.
    inversion So as [|? ? So' F]; subst. destruct l as [|b l]; [constructor|].
    change (StronglySorted before (fst a :: map fst (removelast (b :: l)))).
    constructor; [now apply IHl|]. rewrite Forall_map in *. rewrite Forall_forall in *.
    intros x Hx. apply F. revert Hx. generalize (b :: l). clear. intros l.
    destruct l as [|c l] using rev_ind; [easy|]. rewrite removelast_last, in_app_iff. auto.
Qed.

(** Without hash tables there is an order between any two keys. *)
Lemma total_order :
  (forall t, hash_free t = true -> forall a b, a = b \/ key_before t a b \/ key_before t b a) /\
  (forall vs, hash_free_variants vs = true -> forall a b, a = b \/ keys_before vs a b \/ keys_before vs b a).
Proof.
  apply kty_mut; cbn [hash_free hash_free_variants].
  - intros _ [] []; cbn; intuition.
  - intros _ [] []; cbn; intuition.
  - discriminate.
  - intros t IH Hf [a|] [b|]; cbn; auto. destruct (IH Hf a b) as [->|]; auto.
  - intros bs vs IH Hf. exact (IH Hf).
  - intros _ [].
  - intros r IH Hf [[]|a] [[]|b]; cbn; auto. destruct (IH Hf a b) as [->|]; auto.
  - intros t IHt r IHr Hf. apply andb_true_iff in Hf as [H1 H2].
    intros [a|a] [b|b]; cbn; auto; [destruct (IHt H1 a b) as [->|]|destruct (IHr H2 a b) as [->|]]; auto.
Qed.

Lemma ordered t : hash_free t = true -> forall l, NoDup l -> sorted_by (key_before t) l ->
  StronglySorted (key_before t) l.
Proof.
  intros Hf l N So. induction l as [|a l IH]; [constructor|]. destruct So as [F So].
  inversion N as [|? ? Na Nl]; subst. constructor; [auto|]. rewrite Forall_forall. intros b Hb.
  destruct (proj1 total_order t Hf a b) as [->|[H|H]]; [contradiction|exact H|].
  destruct (F b Hb H).
Qed.

Lemma sinks_log {V} leaky w d (l : list V) d' p lk :
  sinks (fun d v => (d ++ [v], false)) leaky w d l d' p lk -> w = false -> d' = d ++ l.
Proof.
  intros H. induction H as [w d|w d x d1 p r d2 q lk E H IH|d x r d2 q lk Hl H IH]; intros Hw.
  - now rewrite app_nil_r.
  - injection E as <- <-. rewrite (IH eq_refl), <- app_assoc. reflexivity.
  - discriminate.
Qed.
Lemma falls_log {K V} bf w d (l : list (K * V)) d' p lk :
  falls (fun d e => (d ++ [snd e], false)) bf w d l d' p lk -> w = None -> d' = d ++ map snd l.
Proof.
  intros H. induction H as [w d|w d x d1 p r d2 q lk Hx E H IH|y d x r d2 q lk Hl H IH]; intros Hw.
  - now rewrite app_nil_r.
  - injection E as <- <-. rewrite (IH eq_refl), <- app_assoc. reflexivity.
  - discriminate.
Qed.

Lemma vclone_until {S K V} (f : clone_fn S V) (es : list (K * V)) : forall s s1 made,
  vclone f s (map snd es) = (s1, made, true) ->
  exists l, clones_until f s es s1 l /\ made = map snd l.
Proof.
  induction es as [|[k v] es IH]; intros s s1 made; cbn; [discriminate|].
  destruct (f s v) as [s2 [v2|]] eqn:E.
  - destruct (vclone f s2 (map snd es)) as [[s3 m3] b] eqn:E2. intros [= <- <- ->].
    destruct (IH s2 s3 m3 E2) as (l & (done & k1 & v1 & rest & s0 & E1 & E3 & E4) & ->).
    exists ((k, v2) :: l). split; [|reflexivity].
    exists ((k, v) :: done), k1, v1, rest, s0. split; [now rewrite E1|]. split; [|exact E4].
    cbn. now rewrite E, E3.
  - intros [= <- <-]. exists []. split; [|reflexivity]. exists [], k, v, es, s. auto.
Qed.

Section Map.
  Context {K V : Type} {sp : KeySpec K} {m : MapStorage K V} (L : MapLaws sp m).
  Variable before : K -> K -> Prop.
  Hypothesis Hbefore : forall a b, ks_before sp a b <-> before a b.
  Notation reach := (map_reachable m).
  Notation es st := (map fst (c_ents (ml_core L) st)).

  Lemma falls_before {D} (dr : drop_fn D (K * V)) w d l d' p lk :
    falls dr (fun a b => ks_before sp (fst a) (fst b)) w d l d' p lk ->
    falls dr (fun a b => before (fst a) (fst b)) w d l d' p lk.
  Proof.
    intros H. induction H as [w d|w d x d1 p r d2 q lk Hx E H IH|y d x r d2 q lk Hl H IH].
    - constructor.
    - econstructor; [|exact E|exact IH]. intros y Hy. apply Hbefore, Hx, Hy.
    - constructor; [|exact IH]. intros Hb. apply Hl, Hbefore, Hb.
  Qed.

  Lemma es_is st l : reach st -> yields (ms_Iter m) (map_iter m st) l -> l = es st.
  Proof.
    intros R Y. destruct (ml_iter _ _ L st (r_inv L st R)) as [O E]. rewrite <- E.
    exact (yields_fun _ _ _ _ Y (yields_rem _ (ml_Iter L) _ O)).
  Qed.

  Lemma run_dl ds : forall s r s', il_ok (ml_IntoIter L) s -> dl_ok (ml_drops L) s ->
    run_it (ms_IntoIter m) ds s = Some (r, s') -> dl_ok (ml_drops L) s'.
  Proof.
    induction ds as [|[] ds IH]; intros s r s' Hok Hd E; cbn in E.
    - now injection E as <- <-.
    - destruct (il_next _ (ml_IntoIter L) s Hok) as (s1 & En & Hok1 & _).
      pose proof (dl_next (ml_drops L) s Hok Hd) as Hd1. rewrite En in *. cbn in Hd1.
      destruct (run_it (ms_IntoIter m) ds s1) as [[r2 s2]|] eqn:E2; [|discriminate].
      injection E as <- <-. eauto.
    - destruct (it_back (ms_IntoIter m)) as [b|] eqn:Eb; [|discriminate].
      destruct (il_back _ (ml_IntoIter L) b s Eb Hok) as (s1 & En & Hok1 & _).
      pose proof (dl_back (ml_drops L) b s Eb Hok Hd) as Hd1. rewrite En in *. cbn in Hd1.
      destruct (run_it (ms_IntoIter m) ds s1) as [[r2 s2]|] eqn:E2; [|discriminate].
      injection E as <- <-. eauto.
  Qed.

  Lemma into_drop {S} (dr : drop_fn S V) ds st l o it s k s' n p :
    reach st -> yields (ms_Iter m) (map_iter m st) l ->
    run_it (ms_IntoIter m) ds (map_into_iter m st) = Some (o, it) ->
    it_drop (ms_IntoIter m) (counted (fun s e => dr s (snd e))) (s, Datatypes.S k) it = ((s', n), p) ->
    o = fst (deque ds l) /\
    exists lk, drops_some dr before (Datatypes.S k) None s (snd (deque ds l)) s' n lk.
  Proof.
    intros R Y Er Ed. rewrite (es_is st l R Y). pose proof (r_inv L st R) as H.
    destruct (ml_into_iter _ _ L st H) as [Ok Rem]. destruct (ml_drop _ _ L st H) as [Dl _].
    destruct (run_it_rem _ (ml_IntoIter L) ds (map_into_iter m st) Ok) as (it' & Er' & Ok' & Rem').
    { intros Hb. exact (run_it_back _ _ _ _ Er Hb). }
    unfold map_into_iter in *. rewrite Er in Er'. injection Er' as -> <-. rewrite Rem in *.
    split; [reflexivity|].
    pose proof (run_dl ds _ _ _ Ok Dl Er) as Dl'.
    destruct (dl_drop (ml_drops L) _ (counted (fun s e => dr s (snd e))) (s, Datatypes.S k) it Ok' Dl') as [lk F].
    rewrite Ed, Rem' in F. cbn [fst snd] in F. apply falls_before in F.
    exact (falls_count dr before None _ _ _ _ _ F s k eq_refl).
  Qed.

  Lemma whole_drop {S} (dr : drop_fn S V) st l s k s' n p :
    reach st -> yields (ms_Iter m) (map_iter m st) l ->
    map_drop m (counted dr) (s, Datatypes.S k) st = ((s', n), p) ->
    exists lk, drops_some dr before (Datatypes.S k) None s l s' n lk.
  Proof.
    intros R Y Ed. destruct (ml_drop _ _ L st (r_inv L st R)) as [_ Hd].
    unfold map_drop in Ed.
    rewrite (Hd _ (counted dr) (counted (fun s e => dr s (snd e))) _) in Ed by (intros [? ?] [? ?]; reflexivity).
    destruct (into_drop dr [] st l [] (map_into_iter m st) s k s' n p R Y eq_refl Ed) as [_ D].
    exact D.
  Qed.

  (** What is cloned is what is dropped. *)
  Lemma vals_is (vals : ms_St m -> list V) cw cu :
    undoes vals cw cu (fun D dr d st => ms_drop m dr d st) ->
    forall st, reach st -> vals st = map snd (es st).
  Proof.
    intros [U _] st R. pose proof (r_inv L st R) as H.
    destruct (U _ (fun d v => (d ++ [v], false)) [] st) as [lk Hs].
    apply sinks_log in Hs; [|reflexivity]. cbn in Hs.
    destruct (ml_drop _ _ L st H) as [Dl Hd].
    rewrite (Hd _ _ (fun d e => (d ++ [snd e], false)) []) in Hs by reflexivity.
    destruct (ml_into_iter _ _ L st H) as [Ok Rem].
    destruct (dl_drop (ml_drops L) _ (fun d e => (d ++ [snd e], false)) [] _ Ok Dl) as [lk2 Hf].
    apply falls_log in Hf; [|reflexivity]. rewrite Rem in Hf. cbn in Hf. congruence.
  Qed.
End Map.

(** With the count of panics left beside it. *)
Lemma beside_clones {S K V} (f : clone_fn S V) (l : list (K * V)) : forall s n,
  clone_values (beside f) (s, n) l =
  ((fst (clone_values f s l), n), snd (clone_values f s l)).
Proof.
  induction l as [|[k v] l IH]; intros s n; cbn; [reflexivity|].
  destruct (f s v) as [s1 [v1|]]; cbn; [|reflexivity]. rewrite IH.
  destruct (clone_values f s1 l) as [s2 [r2|]]; reflexivity.
Qed.
Lemma beside_until {S K V} (f : clone_fn S V) s n (l : list (K * V)) x1 made :
  clones_until (beside f) (s, n) l x1 made -> exists s1, x1 = (s1, n) /\ clones_until f s l s1 made.
Proof.
  intros (done & k & v & rest & [s0 n0] & -> & E1 & E2). rewrite beside_clones in E1.
  destruct (clone_values f s done) as [s2 o] eqn:E. cbn in E1. injection E1 as -> -> ->.
  cbn in E2. destruct (f s0 v) as [s3 o] eqn:E3. injection E2 as <- ->.
  exists s3. split; [reflexivity|]. exists done, k, v, rest, s0. auto.
Qed.

Lemma sinks_count {S K V} (dr : drop_fn S V) (before : K -> K -> Prop) leaky w x l x' p lk :
  sinks (counted dr) leaky w x l x' p lk -> forall s es, x = (s, 1) -> l = map snd es -> w = false ->
  drops_some dr before 1 None s es (fst x') (snd x') [].
Proof.
  assert (Out : forall w x l x' p lk, sinks (counted dr) leaky w x l x' p lk -> snd x = 0 -> x' = x).
  { clear. intros w x l x' p lk H.
    induction H as [w d|w d x d1 p r d2 q lk E H IH|d x r d2 q lk Hl H IH]; intros Hn; auto.
    destruct d as [s n]. cbn in Hn. subst n. rewrite counted_out in E. injection E as <- <-. auto. }
  intros H. induction H as [w d|w d x d1 p r d2 q lk E H IH|d x r d2 q lk Hl H IH]; intros s es -> El Hw.
  - destruct es; [|discriminate]. constructor.
  - destruct es as [|[k v] es]; [discriminate|]. injection El as -> ->. cbn in E.
    destruct (dr s v) as [s1 []] eqn:Ed; injection E as <- <-.
    + apply Out in H; [|reflexivity]. subst d2. apply DsAbort; [discriminate|exact Ed].
    + eapply DsOk; [discriminate|exact Ed|]. now apply IH.
  - discriminate.
Qed.

Lemma clone_undone {t ki} (E : derive t = Some ki) {V S} (f : clone_fn S V) (dr : drop_fn S V) s st l s' n o :
  map_reachable (ki_map ki V) st -> yields (ms_Iter (ki_map ki V)) (map_iter (ki_map ki V) st) l ->
  map_clone_undo (ki_map ki V) (beside f) (counted dr) (s, 1) st = ((s', n), o) ->
  match o with
  | Some st' => n = 1 /\ exists l', clone_values f s l = (s', Some l') /\
      map_reachable (ki_map ki V) st' /\ yields (ms_Iter (ki_map ki V)) (map_iter (ki_map ki V) st') l'
  | None => exists s1 made order, clones_until f s l s1 made /\ Permutation order made /\
      drops_some dr (key_before t) 1 None s1 order s' n []
  end.
Proof.
  intros R Y H. set (L := derive_map_laws t ki V E).
  pose proof (es_is L st l R Y) as El. subst l.
  destruct (proj1 derive_undoes t ki E V) as [vals U].
  pose proof (vals_is L vals _ _ U st R) as Hv. destruct U as [_ U].
  pose proof (U _ (beside f) (counted dr) (s, 1) st) as U1. rewrite Hv in U1.
  unfold map_clone_undo in H.
  destruct (vclone (beside f) (s, 1) (map snd (map fst (c_ents (ml_core L) st)))) as [[x1 made] []] eqn:Ev.
  - destruct U1 as (_ & x2 & order & p & lk & U1 & P & F). rewrite H in U1.
    injection U1 as <- ->. apply vclone_until in Ev as (l & Cl & ->).
    apply beside_until in Cl as (s1 & -> & Cl).
    apply Permutation_map_inv in P as (order' & -> & P).
    exists s1, l, order'. split; [exact Cl|]. split; [now symmetry|].
    exact (sinks_count dr (key_before t) _ _ _ _ _ _ _ F s1 order' eq_refl eq_refl eq_refl).
  - destruct U1 as (st' & Cw & U1 & _). rewrite H in U1. injection U1 as <- ->.
    destruct (c52 L _ (beside f) (s, 1) st _ _ (proj1 derive_clones t ki E V _ (beside f)) R Cw)
      as (l & Yl & l' & Ec & Y' & _ & R').
    rewrite <- (es_is L st l R Yl). rewrite beside_clones in Ec.
    destruct (clone_values f s l) as [s1 o1]. cbn in Ec. injection Ec as -> <- ->.
    split; [reflexivity|]. exists l'. auto.
Qed.
