(** The code generated for enums with tuple variants is a map: lemmas. *)
Require Import List Arith NArith Bool String Lia Permutation Sorted.
Import ListNotations.
From Verif Require Import Std Traits DeriveAny Key Spec KeyLaws EffectSpec IterLaws MapCore MapLaws MapFacts EffectProofs
  ClearSpec ClearProofs Rust AnyCode AnyRun CodeSpec AnyCodeSpec AnyRetains AnyCodeMain AnyRefSpec Reach MapProofs.
Open Scope list_scope.

(** * Turns *)

Section Turns.
  Context {A : Type} (i : iterator A) (L : it_laws i) (both : bool).
  Hypothesis ends : is_some (it_back i) = both.

  Lemma turns_dealt c l : forall s, il_ok L s -> take_turns i c l s = deal both l (il_rem L s).
  Proof.
    induction l as [|[] l IH]; intros s Hs; [reflexivity| | |]; cbn [take_turns deal].
    - destruct (il_next i L s Hs) as (s' & E & Hs' & Hr). rewrite E, IH by exact Hs'.
      now rewrite Hr.
    - destruct (it_back i) as [b|] eqn:Eb; cbn in ends; subst both; [|now apply IH].
      destruct (il_back i L b s Eb Hs) as (s' & E & Hs' & Hr). rewrite E, IH by exact Hs'.
      now rewrite Hr.
    - rewrite (il_clone i L). now destruct c; apply IH.
  Qed.
End Turns.

Lemma deal_map {A B} (f : A -> B) both l : forall es,
  deal both l (map f es) = map (option_map f) (deal both l es).
Proof.
  induction l as [|[] l IH]; intros es; [reflexivity| | |]; cbn [deal map].
  - rewrite hd_error_map, tl_map. now rewrite IH.
  - destruct both; [|now apply IH]. rewrite <- map_rev, hd_error_map, removelast_map, IH.
    reflexivity.
  - apply IH.
Qed.

Lemma in_tl {A} (x : A) l : In x (tl l) -> In x l.
Proof. destruct l; cbn; auto. Qed.
Lemma in_rl {A} (x : A) l : In x (removelast l) -> In x l.
Proof.
  induction l as [|y l IH]; [auto|]. cbn. destruct l as [|z l]; [intros []|].
  intros [->|H]; [now left|right]. now apply IH.
Qed.
Lemma deal_in {A} both (x : A) l : forall es, In (Some x) (deal both l es) -> In x es.
Proof.
  induction l as [|[] l IH]; intros es; [intros []| | |]; cbn [deal].
  - intros [H|H]; [destruct es; [discriminate|]; injection H as ->; now left|].
    apply in_tl. now apply IH.
  - destruct both; [|apply IH]. intros [H|H].
    + rewrite in_rev. destruct (rev es); [discriminate|]. injection H as ->. now left.
    + apply in_rl. now apply IH.
  - apply IH.
Qed.
Lemma NoDup_tl {A} (l : list A) : NoDup l -> NoDup (tl l).
Proof. intros N. destruct l; [exact N|]. now inversion N. Qed.
Lemma NoDup_rl {A} (l : list A) : NoDup l -> NoDup (removelast l).
Proof.
  induction l as [|x l IH]; [auto|]. intros N. inversion N as [|? ? H N']; subst. cbn.
  destruct l as [|y l]; [constructor|]. constructor; [|now apply IH].
  intros Hi. apply H. now apply in_rl.
Qed.
(** The items dealt, without the gaps. *)
Lemma deal_nodup {A} both l : forall es : list A, NoDup es -> NoDup (cat_options (deal both l es)).
Proof.
  assert (C : forall (es : list (option A)) x, In x (cat_options es) <-> In (Some x) es).
  { induction es as [|[y|] es IH]; intros x; cbn; [tauto| |].
    - rewrite IH. split; (intros [H|H]; [left; congruence|now right]).
    - rewrite IH. split; [now right|]. intros [H|H]; [discriminate|exact H]. }
  induction l as [|[] l IH]; intros es N; [constructor| | |]; cbn [deal].
  - destruct es as [|x es]; cbn [hd_error tl cat_options].
    + now apply IH.
    + inversion N as [|? ? H N']; subst. constructor; [|now apply IH].
      rewrite C. intros Hi. now apply deal_in in Hi.
  - destruct both; [|now apply IH].
    destruct (rev es) as [|x r] eqn:Er; cbn [hd_error cat_options].
    + apply IH. now apply NoDup_rl.
    + assert (es = rev r ++ [x]) as -> by (rewrite <- (rev_involutive es), Er; reflexivity).
      rewrite removelast_last. apply NoDup_remove in N. rewrite app_nil_r in N.
      constructor; [|now apply IH]. rewrite C. intros Hi. now apply deal_in in Hi.
  - now apply IH.
Qed.

(** * One request *)

Section Step.
  Context {T : Type} {K : T -> Type} (impl : forall t, KeyImpl (K t)) {V S : Type}.
  Variable U : auser K V S.
  Variable flds : vfields T.
  Notation m := (any_map_storage V (fs_of impl flds)).
  Variable sp : KeySpec (R_of (K := K) flds).
  Variable L : MapLaws sp m.
  Notation C := (ml_core L).
  Notation inv := (c_inv C).
  Notation ents := (c_ents C).
  Notation es := (fun st => map fst (ents st)).
  Variable before : R_of (K := K) flds -> R_of (K := K) flds -> Prop.
  Variable ghost : R_of (K := K) flds -> Prop.
  Variable together : R_of (K := K) flds -> R_of (K := K) flds -> spot.
  Variable both : bool.
  Hypothesis Hbefore : forall a b, ks_before sp a b <-> before a b.
  Hypothesis Hghost : forall k, ks_leaf sp k = LUnit <-> ghost k.
  Hypothesis Hclears : forall D (dr : drop_fn D V),
    clears_at together dr (fun k => k) (fun d st => ms_clear_drop m dr d st)
      (fun f s st => ms_retain m f s st).
  Hypothesis Hclones : forall X (f : clone_fn X V),
    clones f (fun x st => ms_clone_with m f x st) (fun g x st => ms_retain m g x st)
      (ms_clone m).
  Hypothesis Hends :
    is_some (it_back (ms_Iter m)) = both /\ is_some (it_back (ms_Keys m)) = both /\
    is_some (it_back (ms_Values m)) = both /\ is_some (it_back (ms_IterMut m)) = both /\
    is_some (it_back (ms_ValuesMut m)) = both /\ is_some (it_back (ms_IntoIter m)) = both.

  Notation rt := (ref_task (written flds) before ghost (a_keep2_fn U flds)
                    (vf_clone (a_values U)) (vf_drop (a_values U)) together both).

  Definition good_step q := forall s st, inv st ->
    let '(s', st', a) := model_task impl U flds q s st in
    inv st' /\ rt q s (es st) a s' (es st').

  Lemma holds_at st k : inv st -> holds (es st) k (ms_get m st k).
  Proof.
    intros H. destruct (ms_get m st k) as [v|] eqn:E; cbn.
    - now apply (get_in L).
    - intros Hi. apply in_fst in Hi as [v Hi]. apply (get_in L) in Hi; [|exact H].
      unfold Api.map_get in Hi. congruence.
  Qed.

  Lemma store_at_key st k old r v st' : inv st ->
    MapCore.lookup (ks_eqb sp) k (ents st) = Some (old, r) -> ms_store m st r v = Some st' ->
    inv st' /\ replaced (es st) k old v (es st').
  Proof.
    intros H E Es. destruct (c_store _ _ _ C st r v st' H Es) as (_ & H' & Ee).
    split; [exact H'|]. cbv beta. rewrite Ee. clear Ee.
    apply (lookup_in _ (c_keqb _ _ _ C)) in E. pose proof (c_nodup_r _ _ _ C st H) as N.
    apply in_split in E as (l1 & l2 & E). rewrite E in *.
    rewrite map_app in N. cbn in N. apply NoDup_remove_2 in N. rewrite in_app_iff in N.
    exists (map fst l1), (map fst l2). split; [now rewrite map_app|].
    unfold upd_ref. rewrite map_app, map_app. cbn [map].
    assert (Id : forall l : list (ent (R_of (K := K) flds) V), ~ In r (map eref l) ->
              map fst (map (fun e => (ekey e, if ref_eqb r (eref e) then v else evalue e, eref e)) l)
              = map fst l).
    { induction l as [|[[k0 v0] r0] l IH]; [reflexivity|]. cbn. intros Hn.
      unfold eref, ekey, evalue in *. cbn in *. destruct (ref_eqb r r0) eqn:Er.
      - apply ref_eqb_eq in Er. destruct Hn. now left.
      - rewrite IH by tauto. reflexivity. }
    rewrite !Id by tauto. cbn. unfold eref, ekey. cbn.
    replace (ref_eqb r r) with true; [reflexivity|]. symmetry. now apply ref_eqb_eq.
  Qed.

  Lemma added_at st k v st' : inv st -> MapCore.lookup (ks_eqb sp) k (ents st) = None ->
    ms_insert m st k v = (None, st') -> inv st' /\ added before (es st) k v (es st').
  Proof.
    intros H E Ei. destruct (c_insert_none _ _ _ C st k v H E) as (st2 & E2 & H2 & P).
    change (ms_insert m st k v = (None, st2)) in E2. rewrite Ei in E2. injection E2 as <-. split; [exact H2|]. split; [exact P|].
    pose proof (c_sorted _ _ _ C _ H2) as So. revert So. clear -Hbefore.
    induction (ents st') as [|e l IH]; cbn; intros So; [constructor|].
    inversion So as [|? ? So' F]; subst. constructor; [now apply IH|].
    rewrite Forall_map in *. revert F. apply Forall_impl. intros e' He.
    now rewrite <- Hbefore.
  Qed.

  Lemma not_in_es st k : MapCore.lookup (ks_eqb sp) k (ents st) = None -> inv st -> holds (es st) k None.
  Proof.
    intros E H. pose proof (holds_at st k H) as Hh.
    replace (ms_get m st k) with (@None V) in Hh; [exact Hh|].
    symmetry. etransitivity; [exact (c_get _ _ _ C st k H)|]. now rewrite E.
  Qed.

  Lemma taken_at st k : inv st ->
    match MapCore.lookup (ks_eqb sp) k (ents st) with
    | Some (v, _) => exists st', ms_remove m st k = (Some v, st') /\ inv st' /\
                       taken (es st) k v (es st')
    | None => exists st', ms_remove m st k = (None, st') /\ inv st' /\ es st' = es st
    end.
  Proof.
    intros H. destruct (c_remove _ _ _ C st k H) as (st' & E & H' & D).
    destruct (MapCore.lookup (ks_eqb sp) k (ents st)) as [[v r]|] eqn:El; exists st';
      (split; [exact E|]); (split; [exact H'|]); cbv beta; rewrite D; clear D.
    - apply (lookup_in _ (c_keqb _ _ _ C)) in El. pose proof (c_nodup_k _ _ _ C st H) as N.
      apply in_split in El as (l1 & l2 & El). rewrite El in *.
      rewrite map_app in N. cbn in N. apply NoDup_remove_2 in N. rewrite in_app_iff in N.
      exists (map fst l1), (map fst l2). split; [now rewrite map_app|].
      rewrite map_app. unfold del. rewrite filter_app. cbn.
      rewrite (proj2 (c_keqb _ _ _ C k k) eq_refl). cbn.
      assert (Id : forall l : list (ent (R_of (K := K) flds) V), ~ In k (map ekey l) ->
                filter (fun e => negb (ks_eqb sp k (fst e))) (map fst l) = map fst l).
      { induction l as [|[[k0 v0] r0] l IH]; [reflexivity|]. cbn. intros Hn.
        destruct (ks_eqb sp k k0) eqn:Ek.
        - apply (c_keqb _ _ _ C) in Ek. destruct Hn. left. now rewrite Ek.
        - cbn. now rewrite IH by tauto. }
      rewrite !Id by tauto. reflexivity.
    - assert (Id : forall l : list (R_of (K := K) flds * V), ~ In k (map fst l) ->
                del (ks_eqb sp) k l = l).
      { unfold del. induction l as [|[k0 v0] l IH]; [reflexivity|]. cbn. intros Hn.
        destruct (ks_eqb sp k k0) eqn:Ek.
        - apply (c_keqb _ _ _ C) in Ek. destruct Hn. left. now rewrite Ek.
        - cbn. now rewrite IH by tauto. }
      apply Id. exact (not_in_es st k El H).
  Qed.

  Lemma simple_steps :
    good_step TLen /\ good_step TIsEmpty /\ (forall k, good_step (TContains k)) /\
    (forall k, good_step (TGet k)).
  Proof.
    split; [|split; [|split]].
    - intros s st H. cbn [model_task]. split; [exact H|].
      pose proof (len_facts L st H) as E. unfold Api.map_len in E. rewrite E. constructor.
    - intros s st H. cbn [model_task]. split; [exact H|]. constructor.
      pose proof (c_is_empty _ _ _ C st H) as E.
      change (ms_is_empty m st = match ents st with [] => true | _ :: _ => false end) in E.
      rewrite E. destruct (ents st); cbn; split; congruence.
    - intros k s st H. cbn [model_task]. split; [exact H|].
      econstructor; [exact (holds_at st k H)|].
      pose proof (contains_get L st k H) as E. unfold Api.map_contains_key, Api.map_get in E.
      rewrite E. now destruct (ms_get m st k).
    - intros k s st H. cbn [model_task]. split; [exact H|]. constructor. now apply holds_at.
  Qed.

  Lemma insert_step k v : good_step (TInsert k v).
  Proof.
    intros s st H. cbn [model_task]. destruct (ms_insert m st k v) as [o st'] eqn:Ei.
    destruct (MapCore.lookup (ks_eqb sp) k (ents st)) as [[old r]|] eqn:E.
    - destruct (c_insert_some _ _ _ C st k v old r H E) as (st2 & E1 & E2).
      change (ms_store m st r v = Some st2) in E1.
      change (ms_insert m st k v = (Some old, st2)) in E2.
      rewrite Ei in E2. injection E2 as -> ->.
      destruct (store_at_key st k old r v st2 H E E1) as [H' Hr]. split; [exact H'|].
      now apply RfInsertOld.
    - destruct (c_insert_none _ _ _ C st k v H E) as (st2 & E2 & H2 & P).
      change (ms_insert m st k v = (None, st2)) in E2.
      rewrite Ei in E2. injection E2 as -> ->.
      destruct (added_at st k v st2 H E Ei) as [H' Ha]. split; [exact H'|].
      apply RfInsertNew; [now apply not_in_es|exact Ha].
  Qed.

  Lemma put_step st k old r v : inv st ->
    MapCore.lookup (ks_eqb sp) k (ents st) = Some (old, r) ->
    exists st', put_at impl flds st r v = (st', RUnit) /\ inv st' /\
      replaced (es st) k old v (es st').
  Proof.
    intros H E. destruct (look_store L st k old r v H E) as [st' Es]. exists st'.
    unfold put_at. rewrite Es. split; [reflexivity|]. now apply (store_at_key st k old r v st').
  Qed.

  Lemma set_step k v : good_step (TSet k v).
  Proof.
    intros s st H. cbn [model_task].
    pose proof (get_mut_look L st k H) as E. unfold Api.map_get_mut in E. rewrite E.
    destruct (MapCore.lookup (ks_eqb sp) k (ents st)) as [[old r]|] eqn:El; cbn.
    - destruct (put_step st k old r v H El) as (st' & -> & H' & Hr). split; [exact H'|].
      now apply RfSet with (old := old).
    - split; [exact H|]. apply RfSetNone. now apply not_in_es.
  Qed.

  Lemma remove_step k : good_step (TRemove k).
  Proof.
    intros s st H. cbn [model_task]. pose proof (taken_at st k H) as Ht.
    destruct (MapCore.lookup (ks_eqb sp) k (ents st)) as [[v r]|] eqn:El;
      destruct Ht as (st' & -> & H' & Ht); (split; [exact H'|]).
    - now apply RfRemove.
    - cbv beta in *. rewrite Ht. apply RfRemoveNone. now apply not_in_es.
  Qed.

  Lemma retain_step : good_step TRetain.
  Proof.
    intros s st H. cbn [model_task].
    destruct (c_retain _ _ _ C S (a_keep2_fn U flds) s st H) as (s' & st' & oc & E & H' & El).
    change (ms_retain m (a_keep2_fn U flds) s st = (s', st', oc)) in E. rewrite E.
    split; [exact H'|]. change (ended (T := T) (K := K) (V := V) oc) with (finished (Ky := skey K) (V := V) oc).
    now apply RfRetain.
  Qed.

  Lemma clear_step : good_step TClear.
  Proof.
    intros s st H. cbn [model_task].
    destruct (ms_clear_drop m (vf_drop (a_values U)) s st) as [[s' st'] oc] eqn:E.
    set (dr := vf_drop (a_values U)) in *.
    destruct (proj1 (Hclears S dr) _ _ _ _ _ E) as (q & -> & _ & N).
    change (fun s k v => clr_fn together dr s k v) with (clr_fn together dr) in N.
    destruct (c_retain _ _ _ C _ (clr_fn together dr) (s, None) st H)
      as (x' & st2 & o & E2 & H2 & El).
    change (ms_retain m (clr_fn together dr) (s, None) st = (x', st2, o)) in E2.
    rewrite N in E2. injection E2 as <- <- <-. split; [exact H2|].
    change (ended (T := T) (K := K) (V := V) (oc_of (is_some q)))
      with (finished (Ky := skey K) (V := V) (oc_of (is_some q))).
    destruct (run_clears _ _ _ _ _ _ _ El) as [lk Cl].
    now apply RfClear with (leaked := lk).
  Qed.

  Lemma clone_step : good_step TClone.
  Proof.
    intros s st H. cbn [model_task]. set (f := vf_clone (a_values U)).
    pose proof (proj1 (Hclones S f) s st) as Hc. cbv beta in Hc.
    destruct (c_retain _ _ _ C _ (clone_here f) s st H) as (x' & st2 & o & E2 & H2 & El).
    change (ms_retain m (clone_here f) s st = (x', st2, o)) in E2.
    pose proof (run_clones f (map fst (ents st)) s) as N.
    destruct (ms_clone_with m f s st) as [s' [st'|]].
    - rewrite Hc in E2. injection E2 as <- <- <-. split; [exact H2|].
      destruct (clone_values f s (map fst (ents st))) as [x2 [l2|]] eqn:Ec.
      + rewrite El in N. injection N as <- <-. now apply RfClone.
      + destruct N as (l2 & N). rewrite El in N. discriminate.
    - destruct Hc as (st' & Hc). rewrite Hc in E2. injection E2 as <- <- <-. split; [exact H|].
      destruct (clone_values f s (map fst (ents st))) as [x2 [l2|]] eqn:Ec.
      + rewrite El in N. discriminate.
      + destruct N as (l2 & N). rewrite El in N. injection N as <- _. now apply RfClonePanic.
  Qed.

  Lemma iter_steps l : good_step (TIter OfIter l) /\ good_step (TIter OfIntoIter l) /\
    good_step (TIter OfValues l) /\ good_step (TIter OfKeys l).
  Proof.
    destruct Hends as (B1 & B2 & B3 & B4 & B5 & B6).
    split; [|split; [|split]]; intros s st H; cbn [model_task]; (split; [exact H|]).
    - destruct (ml_iter _ _ L st H) as [O E].
      rewrite (turns_dealt _ (ml_Iter L) both B1) by exact O. rewrite E. apply RfIter.
    - destruct (ml_into_iter _ _ L st H) as [O E].
      rewrite (turns_dealt _ (ml_IntoIter L) both B6) by exact O. rewrite E. apply RfIntoIter.
    - destruct (ml_values _ _ L st H) as [O E].
      rewrite (turns_dealt _ (ml_Values L) both B3) by exact O. rewrite E.
      replace (map evalue (ents st)) with (map snd (es st))
        by (rewrite map_map; reflexivity).
      unfold shown. rewrite deal_map, map_map.
      match goal with |- rt _ _ _ ?a _ _ =>
        replace a with (shows (Ky := skey K) (V := V) both (fun e : R_of (K := K) flds * V => (None, Some (snd e))) l (es st)) end.
      + apply RfValues.
      + unfold shows. f_equal. apply map_ext. now intros [[k v]|].
    - destruct (ml_keys _ _ L st H) as (O & N & So & Hi & _).
      rewrite (turns_dealt _ (ml_Keys L) both B2) by exact O.
      apply RfKeys with (ks := il_rem (ml_Keys L) (ms_keys m st)).
      + exact N.
      + intros k. rewrite Hi, Hghost, map_map. reflexivity.
      + revert So. clear -Hbefore. induction 1 as [|a l So IH F]; constructor; [exact IH|].
        revert F. apply Forall_impl. intros b Hb. now rewrite <- Hbefore.
  Qed.

  (** ** Assigning through references *)

  Notation Ent := (ent (R_of (K := K) flds) V).

  Definition hit (items : list (option Ent)) (r : ref) : bool :=
    existsb (ref_eqb r) (map eref (cat_options items)).

  Lemma hit_in items r : hit items r = true <-> In r (map eref (cat_options items)).
  Proof.
    unfold hit. rewrite existsb_exists. split.
    - intros (x & Hx & E). apply ref_eqb_eq in E. now subst.
    - intros Hx. exists r. split; [exact Hx|]. now apply ref_eqb_eq.
  Qed.

  Lemma in_cat {A} (l : list (option A)) x : In x (cat_options l) <-> In (Some x) l.
  Proof.
    induction l as [|[y|] l IH]; cbn; [tauto| |]; rewrite IH.
    - split; (intros [H|H]; [left; congruence|now right]).
    - split; [now right|]. intros [H|H]; [discriminate|exact H].
  Qed.

  Lemma same_ref st e e' : inv st -> In e (ents st) -> In e' (ents st) -> eref e = eref e' -> e = e'.
  Proof. intros H. exact (NoDup_map_in_inj eref _ (c_nodup_r _ _ _ C st H) e e'). Qed.

  Lemma store_each_dealt {A} (h : Ent -> A) (of : A -> option (skey K) * ref)
    (nm : Ent -> option (skey K)) (g : option (skey K) -> V -> V) :
    (forall e, of (h e) = (nm e, eref e)) ->
    forall items st, inv st -> NoDup (map eref (cat_options items)) ->
    (forall e, In (Some e) items -> In e (ents st)) ->
    exists st', store_each impl flds of g (map (option_map h) items) st =
        Some (map (option_map (fun e => (nm e, Some (evalue e)))) items, st') /\
      inv st' /\
      ents st' = map (fun e => if hit items (eref e)
                               then (ekey e, g (nm e) (evalue e), eref e) else e) (ents st).
  Proof.
    intros Hof. induction items as [|[e|] items IH]; intros st H N Hin.
    - exists st. split; [reflexivity|]. split; [exact H|]. cbn. now rewrite map_id.
    - cbn [map cat_options] in N. inversion N as [|? ? Hn N']; subst.
      assert (He : In e (ents st)) by (apply Hin; now left).
      cbn [map option_map store_each]. rewrite Hof. cbn [fst snd].
      assert (El : ms_load m st (eref e) = Some (evalue e)).
      { destruct e as [[k v] r]. apply (look_load L st k v r H).
        apply (in_lookup _ (c_keqb _ _ _ C)); [apply (c_nodup_k _ _ _ C st H)|exact He]. }
      rewrite El.
      destruct (c_store_ok _ _ _ C st (eref e) (g (nm e) (evalue e)) H (in_map eref _ _ He)) as [st1 Es].
      change (ms_store m st (eref e) (g (nm e) (evalue e)) = Some st1) in Es. rewrite Es.
      destruct (c_store _ _ _ C st _ _ st1 H Es) as (_ & H1 & E1).
      destruct (IH st1 H1 N') as (st' & Er & H' & Ee).
      { intros x Hx. rewrite E1. unfold upd_ref. apply in_map_iff. exists x.
        split; [|apply Hin; now right].
        destruct (ref_eqb (eref e) (eref x)) eqn:Exy; [|now destruct x as [[? ?] ?]].
        apply ref_eqb_eq in Exy. destruct Hn. rewrite Exy. apply in_map. now apply in_cat. }
      exists st'. rewrite Er. split; [reflexivity|]. split; [exact H'|].
      rewrite Ee, E1. unfold upd_ref. rewrite map_map. apply map_ext_in. intros x Hx.
      unfold hit. cbn [cat_options map existsb].
      destruct (ref_eqb (eref e) (eref x)) eqn:Exy.
      + apply ref_eqb_eq in Exy. pose proof (same_ref st e x H He Hx Exy) as ->.
        replace (ref_eqb (eref x) (eref x)) with true by (symmetry; now apply ref_eqb_eq).
        cbn [orb]. change (eref (ekey x, g (nm x) (evalue x), eref x)) with (eref x).
        fold (hit items (eref x)). destruct (hit items (eref x)) eqn:Eh; [|reflexivity].
        apply hit_in in Eh. contradiction.
      + replace (ref_eqb (eref x) (eref e)) with false.
        2:{ symmetry. destruct (ref_eqb (eref x) (eref e)) eqn:E; [|reflexivity].
            apply ref_eqb_eq in E. rewrite E in Exy. rewrite <- Exy. symmetry. now apply ref_eqb_eq. }
        cbn [orb]. change (eref (ekey x, evalue x, eref x)) with (eref x).
        now destruct x as [[? ?] ?].
    - cbn [map option_map store_each cat_options] in *.
      destruct (IH st H N) as (st' & Er & H' & Ee); [intros e He; apply Hin; now right|].
      exists st'. rewrite Er. split; [reflexivity|]. split; [exact H'|exact Ee].
  Qed.

  Lemma dealt_refs st l : inv st -> NoDup (map eref (cat_options (deal both l (ents st)))).
  Proof.
    intros H. pose proof (c_nodup_r _ _ _ C st H) as N.
    pose proof (deal_nodup both l (ents st) (NoDup_map_inv _ _ N)) as N2.
    assert (Hi : incl (cat_options (deal both l (ents st))) (ents st)).
    { intros x Hx. apply in_cat in Hx. now apply deal_in in Hx. }
    revert N2 Hi. generalize (cat_options (deal both l (ents st))).
    induction l0 as [|x l0 IH]; intros N2 Hi; [constructor|]. cbn. inversion N2 as [|? ? Hx N3]; subst.
    constructor; [|apply IH; [exact N3|intros y Hy; apply Hi; now right]].
    intros Hm. apply in_map_iff in Hm as (y & E & Hy).
    rewrite (same_ref st y x H) in Hy; [contradiction| | |exact E]; apply Hi; [now right|now left].
  Qed.

  Lemma touched_dealt st st' l (nm : Ent -> option (skey K)) (g : skey K -> V -> V)
    (g' : option (skey K) -> V -> V) : inv st ->
    (forall e, g' (nm e) = g (written flds (ekey e))) ->
    ents st' = map (fun e => if hit (deal both l (ents st)) (eref e)
                             then (ekey e, g' (nm e) (evalue e), eref e) else e) (ents st) ->
    touched (written flds) both g l (es st) (es st').
  Proof.
    intros H Hg E. unfold touched. cbv beta. rewrite E, deal_map.
    assert (Hd : forall e, In e (ents st) ->
      (In (Some (fst e)) (map (option_map fst) (deal both l (ents st))) <->
       hit (deal both l (ents st)) (eref e) = true)).
    { intros e He. rewrite hit_in, !in_map_iff. split.
      - intros ([e'|] & E' & Hi); [|discriminate]. injection E' as E'.
        exists e'. split; [|now apply in_cat]. apply deal_in in Hi.
        f_equal. apply (NoDup_map_in_inj ekey _ (c_nodup_k _ _ _ C st H)); auto.
        unfold ekey. now rewrite E'.
      - intros (e' & E' & Hi). apply in_cat in Hi. exists (Some e'). split; [|exact Hi].
        apply deal_in in Hi as Hi'. now rewrite (same_ref st e' e H Hi' He E'). }
    clear E H. revert Hd. generalize (deal both l (ents st)) as items. intros items.
    generalize (ents st). induction l0 as [|e l0 IH]; intros Hd; [constructor|]. cbn [map]. constructor.
    - specialize (Hd e (or_introl eq_refl)).
      destruct (hit items (eref e)) eqn:Eh; cbn [fst snd].
      + split; [reflexivity|]. split; [intros _; now rewrite Hg|].
        intros Hc. destruct Hc. now apply Hd.
      + split; [reflexivity|]. split; [|reflexivity]. intros Hc. apply Hd in Hc. discriminate.
    - apply IH. intros e' He'. apply Hd. now right.
  Qed.

  Lemma mut_steps g g2 l : good_step (TIterMut g l) /\ good_step (TValuesMut g2 l).
  Proof.
    destruct Hends as (B1 & B2 & B3 & B4 & B5 & B6).
    split; intros s st H; cbn [model_task].
    - destruct (ml_iter_mut _ _ L st H) as [O E].
      rewrite (turns_dealt _ (ml_IterMut L) both B4) by exact O. rewrite E, deal_map.
      set (g' := fun o : option (skey K) => match o with Some k => g k | None => fun v : V => v end).
      destruct (store_each_dealt (fun e => (ekey e, eref e))
                  (fun e => (Some (written flds (fst e)), snd e))
                  (fun e => Some (written flds (ekey e))) g' (fun e => eq_refl)
                  (deal both l (ents st)) st H (dealt_refs st l H)
                  (fun e He => deal_in both e l _ He)) as (st' & -> & H' & Ee).
      cbn [with_items]. split; [exact H'|].
      match goal with |- rt _ _ _ ?a _ _ =>
        replace a with (shows (Ky := skey K) (V := V) both
          (fun e : R_of (K := K) flds * V => (Some (written flds (fst e)), Some (snd e))) l (es st)) end.
      + apply RfIterMut. now apply (touched_dealt st st' l (fun e => Some (written flds (ekey e))) g g' H (fun e => eq_refl)).
      + unfold shows. cbv beta. rewrite deal_map, map_map. f_equal. apply map_ext. now intros [[[k v] r]|].
    - destruct (ml_values_mut _ _ L st H) as [O E].
      rewrite (turns_dealt _ (ml_ValuesMut L) both B5) by exact O. rewrite E, deal_map.
      destruct (store_each_dealt eref (fun r => (None, r))
                  (fun e => None) (fun _ => g2) (fun e => eq_refl)
                  (deal both l (ents st)) st H (dealt_refs st l H)
                  (fun e He => deal_in both e l _ He)) as (st' & -> & H' & Ee).
      cbn [with_items]. split; [exact H'|].
      match goal with |- rt _ _ _ ?a _ _ =>
        replace a with (shows (Ky := skey K) (V := V) both
          (fun e : R_of (K := K) flds * V => (None, Some (snd e))) l (es st)) end.
      + apply RfValuesMut.
        now apply (touched_dealt st st' l (fun _ => None) (fun _ => g2) (fun _ => g2) H (fun e => eq_refl)).
      + unfold shows. cbv beta. rewrite deal_map, map_map. f_equal. apply map_ext. now intros [[[k v] r]|].
  Qed.

  (** ** Entries *)

  Lemma entry_step k a : good_step (TEntry k a).
  Proof.
    intros s st H. cbn [model_task]. unfold of_entry.
    pose proof (ml_entry _ _ L st k H) as He.
    destruct (MapCore.lookup (ks_eqb sp) k (ents st)) as [[v r]|] eqn:El.
    - destruct He as (o & -> & Ho).
      destruct (ml_occ _ _ L st o k r H Ho) as (v' & El' & E1 & E2 & E3 & E4 & E5 & E6).
      rewrite El in El'. injection El' as <-.
      assert (Hh : holds (es st) k (Some v)).
      { cbn. apply (lookup_in _ (c_keqb _ _ _ C)) in El. now apply (in_map fst) in El. }
      destruct a.
      + rewrite E1. cbn [if_Ok]. split; [exact H|]. constructor.
      + rewrite E2. cbn [if_Ok]. split; [exact H|]. now constructor.
      + rewrite E3. cbn [if_Ok]. destruct (put_step st k v r v0 H El) as (st' & -> & H' & Hr).
        split; [exact H'|]. now apply RfEntrySet with (v := v0) (old := v); [left|].
      + rewrite E4. cbn [if_Ok]. destruct (put_step st k v r v0 H El) as (st' & -> & H' & Hr).
        split; [exact H'|]. now apply RfEntrySet with (v := v0) (old := v); [right|].
      + destruct (E5 v0) as (st' & Es & ->). cbn [if_Ok fst snd].
        destruct (store_at_key st k v r v0 st' H El Es) as [H' Hr]. split; [exact H'|].
        now apply RfEntryInsertOld.
      + rewrite E6. cbn [if_Ok fst snd]. pose proof (taken_at st k H) as Ht. rewrite El in Ht.
        destruct Ht as (st' & E & H' & Ht). rewrite E. cbn [snd]. split; [exact H'|].
        now apply RfEntryRemove.
    - destruct He as (x & -> & Hx).
      destruct (ml_vac _ _ L st x k H Hx) as (_ & Ek & Ei).
      pose proof (not_in_es st k El H) as Hn.
      destruct a.
      + rewrite Ek. split; [exact H|]. constructor.
      + split; [exact H|]. now constructor.
      + split; [exact H|]. now apply RfEntrySetNone with (v := v); [left|].
      + split; [exact H|]. now apply RfEntrySetNone with (v := v); [right|].
      + destruct (Ei v) as (r & -> & Hg). cbn [if_Ok fst snd].
        destruct (c_insert_none _ _ _ C st k v H El) as (st2 & E2 & H2 & P).
        change (ms_insert m st k v = (None, st2)) in E2. rewrite E2 in *. cbn [snd] in *.
        destruct (added_at st k v st2 H El E2) as [_ Ha]. split; [exact H2|].
        pose proof (insert_facts L st k v H) as (_ & Hv & _).
        unfold Api.map_insert, Api.map_get in Hv. rewrite E2 in Hv. cbn [snd] in Hv.
        pose proof (get_mut_facts L st2 k H2) as [_ Hm]. destruct (Hm r Hg) as (v' & Ev & Ed & _).
        unfold Api.map_get in Ev. rewrite Hv in Ev. injection Ev as <-.
        unfold Api.deref in Ed. destruct (ms_load m st2 r); [|discriminate].
        injection Ed as ->. now apply RfEntryInsertNew.
      + split; [exact H|]. now apply RfEntryRemoveNone.
  Qed.

  Lemma every_step q : good_step q.
  Proof.
    destruct simple_steps as (H1 & H2 & H3 & H4).
    destruct q as [| |k|k|k v|k v|k| | | |[] l|g l|g l|k a]; auto using insert_step, set_step,
      remove_step, retain_step, clear_step, clone_step, entry_step.
    - exact (proj1 (iter_steps l)).
    - exact (proj2 (proj2 (proj2 (iter_steps l)))).
    - exact (proj1 (proj2 (proj2 (iter_steps l)))).
    - exact (proj1 (proj2 (iter_steps l))).
    - exact (proj1 (mut_steps g (fun v => v) l)).
    - exact (proj2 (mut_steps (fun _ v => v) g l)).
  Qed.

  Lemma every_replies l : forall s st, inv st ->
    let '(rs, s', st') := replies (model_task impl U flds) l s st in
    ref_tasks (written flds) before ghost (a_keep2_fn U flds)
      (vf_clone (a_values U)) (vf_drop (a_values U)) together both l s (es st) rs s' (es st').
  Proof.
    induction l as [|q l IH]; intros s st H; cbn [replies]; [constructor|].
    pose proof (every_step q s st H) as Hq.
    destruct (model_task impl U flds q s st) as [[s1 st1] a]. destruct Hq as [H1 Hq].
    specialize (IH s1 st1 H1). destruct (replies _ l s1 st1) as [[rs s2] st2].
    econstructor; eauto.
  Qed.
End Step.
