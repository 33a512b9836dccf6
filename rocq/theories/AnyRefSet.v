(** The code generated for enums with tuple variants, used as a set. *)
Require Import List Arith NArith Bool String Lia Permutation Sorted.
Import ListNotations.
From Verif Require Import Std Traits DeriveAny Key Spec MapLaws KeyLaws IterLaws MapCore SetCore SetLaws
  IterProofs Rust AnyCode AnyRun CodeSpec AnyCodeSpec AnyRetains AnyCodeMain AnyRefSpec AnyRef AnyRefMain.
Open Scope list_scope.

Section Step.
  Context {T : Type} {K : T -> Type} (impl : forall t, KeyImpl (K t)) {V S : Type}.
  Variable U : auser K V S.
  Variable flds : vfields T.
  Notation m := (any_set_storage (fs_of impl flds)).
  Variable sp : KeySpec (R_of (K := K) flds).
  Variable L : SetLaws sp m.
  Notation C := (sl_core L).
  Notation inv := (sc_inv C).
  Notation es := (sc_abs C).
  Variable before : R_of (K := K) flds -> R_of (K := K) flds -> Prop.
  Variable at_leaf : R_of (K := K) flds -> leaf.
  Variable other : R_of (K := K) flds -> option (R_of (K := K) flds).
  Variable stays : R_of (K := K) flds -> R_of (K := K) flds -> bool.
  Variable both : bool.
  Hypothesis Hbefore : forall a b, ks_before sp a b <-> before a b.
  Hypothesis Hleaf : forall k, ks_leaf sp k = at_leaf k.
  Hypothesis Hother : forall k, ks_sib sp k = other k.
  Hypothesis Hstays : forall a b, late_of L a b = stays a b.
  Hypothesis Hends : is_some (it_back (ss_Iter m)) = both /\ is_some (it_back (ss_IntoIter m)) = both.

  Definition good_set_step (q : set_task (R_of (K := K) flds)) : Prop := forall s st, inv st ->
    let '(s', st', a) := model_set_task impl U flds q s st in
    inv st' /\
    ref_set_task (written flds) before at_leaf other stays (a_keep_fn U flds) both q s (es st) a s' (es st').

  Lemma order_ext l : StronglySorted (fun a b => ~ ks_before sp b a) l ->
    StronglySorted (fun a b => ~ before b a) l.
  Proof.
    intros H. induction H as [|a l H IH F]; constructor; [exact IH|].
    apply Forall_impl with (2 := F). intros b Hb. now rewrite <- Hbefore.
  Qed.
  Lemma abs_order st : inv st -> in_order before (es st).
  Proof. intros H. split; [exact (sc_nodup _ _ C st H)|]. apply order_ext. exact (sc_sorted _ _ C st H). Qed.

  Lemma set_step_ok q : good_set_step q.
  Proof.
    intros s st H. destruct q as [| |k|k|k| | | |[] l]; cbn [model_set_task].
    - split; [exact H|]. change (ss_len m st) with (p_len (sops_of m) st).
      rewrite (sc_len _ _ C st H). constructor.
    - split; [exact H|]. constructor. change (ss_is_empty m st) with (p_is_empty (sops_of m) st).
      rewrite (sc_is_empty _ _ C st H). split; intros X k; specialize (X k).
      + rewrite <- Hleaf, <- X. symmetry. exact (sc_contains _ _ C st k H).
      + rewrite Hleaf, <- X. exact (sc_contains _ _ C st k H).
    - split; [exact H|]. constructor. exact (sc_contains _ _ C st k H).
    - destruct (sc_insert _ _ C st k H) as (st' & E & H' & X).
      change (ss_insert m st k = (if inverted (ks_leaf sp k) then p_contains (sops_of m) st k
                 else negb (p_contains (sops_of m) st k), st')) in E. rewrite E.
      split; [exact H'|].
      pose proof (sc_contains _ _ C st k H) as Hc. rewrite Hleaf.
      destruct (p_contains (sops_of m) st k) eqn:Ec.
      + rewrite X.
        replace (if inverted (at_leaf k) then true else negb true) with (insert_says at_leaf k true)
          by (unfold insert_says; now destruct (at_leaf k)).
        constructor. now apply Hc.
      + replace (if inverted (at_leaf k) then false else negb false) with (insert_says at_leaf k false)
          by (unfold insert_says; now destruct (at_leaf k)).
        constructor; [|exact X|now apply abs_order].
        intros Hi. apply Hc in Hi. discriminate.
    - destruct (sc_remove _ _ C st k H) as (st' & E & H' & X).
      change (ss_remove m st k = (p_contains (sops_of m) st k ||
                sib_contains (p_contains (sops_of m) st) (ks_sib sp k), st')) in E. rewrite E.
      split; [exact H'|].
      pose proof (sc_contains _ _ C st k H) as Hc. rewrite Hother, X.
      assert (Id : forall l, ~ In k l -> filter (fun x => negb (ks_eqb sp k x)) l = l).
      { induction l as [|x l IH]; [reflexivity|]. cbn. intros Hn.
        destruct (ks_eqb sp k x) eqn:Ek.
        - apply (sc_keqb _ _ C) in Ek. destruct Hn. now left.
        - cbn. now rewrite IH by tauto. }
      destruct (p_contains (sops_of m) st k) eqn:Ec.
      + cbn [orb]. assert (Hi : In k (es st)) by now apply Hc.
        pose proof (sc_nodup _ _ C st H) as N.
        destruct (in_split _ _ Hi) as (l1 & l2 & El). rewrite El in *.
        apply NoDup_remove_2 in N. rewrite in_app_iff in N.
        rewrite filter_app. cbn.
        assert (ks_eqb sp k k = true) as -> by now apply (sc_keqb _ _ C). cbn.
        rewrite !Id by tauto. constructor.
      + cbn [orb]. assert (Hi : ~ In k (es st)) by (intros Hi; apply Hc in Hi; discriminate).
        rewrite Id by exact Hi. constructor; [exact Hi|].
        destruct (other k) as [j|]; cbn [sib_contains].
        * rewrite (sc_contains _ _ C st j H). split; [intros Hj; now exists j|].
          now intros (j' & [= <-] & Hj).
        * split; [discriminate|]. now intros (j' & ? & _).
    - destruct (sc_retain _ _ C S (a_keep_fn U flds) s st H) as (s' & st' & w & E & H' & Er).
      change (ss_retain m (a_keep_fn U flds) s st = (s', st', ends_at w)) in E. rewrite E.
      split; [exact H'|].
      assert (Hv : in_order before (sc_vis C st)).
      { split; [exact (sc_vis_nodup _ _ C st H)|]. apply order_ext. exact (sc_vis_sorted _ _ C st H). }
      assert (Hi : forall k, In k (sc_vis C st) <-> In k (es st) \/ at_leaf k = LUnit).
      { intros k. rewrite <- Hleaf. exact (sc_vis_in _ _ C st k H). }
      rewrite (undo_late _ _ _ _ Hstays) in Er.
      pose proof (RsRetain (Ky := _) (V := V) (written flds) before at_leaf other stays (a_keep_fn U flds) both
        s (es st) (sc_vis C st) (p_contains (sops_of m) st) s' (es st') w Hv Hi
        (fun k => sc_contains _ _ C st k H) (sc_vis_filter _ _ C st H) Er) as G.
      destruct w; exact G.
    - destruct (sc_clear _ _ C st H) as [H' E].
      change (inv (ss_clear m st)) in H'. change (es (ss_clear m st) = []) in E.
      split; [exact H'|]. rewrite E. constructor.
    - pose proof (sc_clone _ _ C st) as E. change (ss_clone m st = st) in E. rewrite E.
      split; [exact H|]. constructor.
    - split; [exact H|]. destruct (sl_into_iter _ _ L st H) as [Ho Hr].
      unfold shown. rewrite (turns_dealt (ss_IntoIter m) (sl_IntoIter L) both (proj2 Hends) true l _ Ho), Hr.
      constructor.
    - split; [exact H|]. destruct (sl_iter _ _ L st H) as [Ho Hr].
      unfold shown. rewrite (turns_dealt (ss_Iter m) (sl_Iter L) both (proj1 Hends) true l _ Ho), Hr.
      constructor.
  Qed.

  Lemma set_replies l : forall s st, inv st ->
    let '(rs, s', st') := replies (model_set_task impl U flds) l s st in
    ref_set_tasks (written flds) before at_leaf other stays (a_keep_fn U flds) both l s (es st) rs s' (es st').
  Proof.
    induction l as [|q l IH]; intros s st H; cbn [replies]; [constructor|].
    pose proof (set_step_ok q s st H) as Hq.
    destruct (model_set_task impl U flds q s st) as [[s1 st1] a]. destruct Hq as [H1 Hq].
    specialize (IH s1 st1 H1). destruct (replies _ l s1 st1) as [[rs s2] st2].
    econstructor; eauto.
  Qed.
End Step.

Section Enum.
  Context {T : Type} (ty : T -> kty) (impl : forall t, KeyImpl (key (ty t))).
  Hypothesis from : forall t, derive (ty t) = Some (impl t).
  Notation R_of := (R_of (K := fun t => key (ty t))).

  Lemma set_facts flds : (exists x t, In (x, Some t) flds) ->
    let m := any_set_storage (fs_of impl flds) in
    let both := hash_free_variants (variants_in ty flds) in
    exists sp, exists L : SetLaws sp m,
      (forall a b, ks_before sp a b <-> earlier ty flds a b) /\
      (forall k, ks_leaf sp k = leaf_in ty flds k) /\
      (forall k, ks_sib sp k = other_in ty flds k) /\
      (forall a b, late_of L a b = stays_in ty flds a b) /\
      is_some (it_back (ss_Iter m)) = both /\ is_some (it_back (ss_IntoIter m)) = both.
  Proof.
    intros Ht. pose proof (not_units ty flds Ht) as Hu.
    destruct (flds_derived ty impl from flds) as (fs & Ef & Es). cbv zeta.
    set (vs := variants_in ty flds) in *.
    pose (Q := fun p : {R : Type & described R} =>
      let m := any_set_storage (fst (fst (fst (projT2 p)))) in
      exists sp, exists L : SetLaws sp m,
        (forall a b, ks_before sp a b <-> snd (fst (fst (projT2 p))) a b) /\
        (forall k, ks_leaf sp k = snd (fst (projT2 p)) k) /\
        (forall k, ks_sib sp k = fst (snd (projT2 p)) k) /\
        (forall a b, late_of L a b = fst (snd (snd (projT2 p))) a b) /\
        is_some (it_back (ss_Iter m)) = hash_free_variants vs /\
        is_some (it_back (ss_IntoIter m)) = hash_free_variants vs).
    change (Q (existT described (R_of flds)
                 (fs_of impl flds, earlier ty flds, leaf_in ty flds, (other_in ty flds, (stays_in ty flds, together_in ty flds))))).
    rewrite Es. unfold Q. cbn [projT2 fst snd]. clear Es Q.
    assert (E : derive (KEnum false vs) = Some (derive_any fs)) by (cbn; now rewrite Hu, Ef).
    exists (key_spec (KEnum false vs)), (derive_set_laws (KEnum false vs) (derive_any fs) E).
    split; [intros a b; exact (proj1 spec_before (KEnum false vs) a b)|].
    split; [intros k; exact (proj1 spec_leaf (KEnum false vs) k)|].
    split; [intros k; exact (proj1 spec_sib (KEnum false vs) k)|].
    split; [intros a b; refine (eq_trans (derive_late (KEnum false vs) (derive_any fs) E a b) _);
            cbn [one_bitset]; now rewrite (as_units_none vs Hu)|].
    destruct (proj1 derive_ends (KEnum false vs) _ E) as [_ He]. exact He.
  Qed.
End Enum.

Lemma is_a_set {T : Type} (T_dec : forall a b : T, {a = b} + {a <> b}) (ty : T -> kty)
  (impl : forall t, KeyImpl (key (ty t))) (V S : Type) (U : auser (fun t => key (ty t)) V S)
  (flds : vfields T) w l s :
  (forall t, derive (ty t) = Some (impl t)) -> NoDup (map fst flds) ->
  (exists x t, In (x, Some t) flds) ->
  exists rs s' self es,
    work T_dec impl U flds (do_set_task T_dec impl U flds) (any_set_code flds) w l s =
      Some (rs, s', self) /\
    ref_set_tasks (written flds) (earlier ty flds) (leaf_in ty flds) (other_in ty flds) (stays_in ty flds)
      (a_keep_fn U flds) (hash_free_variants (variants_in ty flds)) l s [] rs s' es.
Proof.
  intros From N Ht.
  destruct (set_facts ty impl From flds Ht) as (sp & L & H1 & H2 & H3 & H4 & H5).
  destruct (sl_empty _ _ L w) as [I0 E0].
  pose proof (set_replies impl U flds sp L _ _ _ _ _ H1 H2 H3 H4 H5 l s _ I0) as Hr.
  rewrite (set_work T_dec impl U flds N (all_retain ty impl From) w l s).
  destruct (replies (model_set_task impl U flds) l s (ss_empty (any_set_storage (fs_of impl flds)) w))
    as [[rs s'] st'].
  eexists rs, s', _, _. split; [reflexivity|]. cbv beta in Hr. rewrite E0 in Hr. exact Hr.
Qed.
