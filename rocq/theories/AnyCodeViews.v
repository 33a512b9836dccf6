(** The iterators of the map storages generated for enums with tuple variants. *)
Require Import List Arith NArith Bool String Lia.
Import ListNotations.
From Verif Require Import Std Traits OptionBucket MapStorages SetStorages Names Rust UnitCode RustFacts CodeSpec DeriveAny
  UnitCodeProofs AnyCode AnyRun AnyCodeSpec AnyCodeFacts AnyCodeKeys AnyCodeMap AnyCodeOps AnyCodeIter
  AnyCodeArms.
Open Scope string_scope.

Section Views.
  Context {T : Type} {T_dec : forall a b : T, {a = b} + {a <> b}}
          {K : T -> Type} {impl : forall t, KeyImpl (K t)} {V S : Type}.
  Notation val := (val V (foreign impl V)).
  Notation rt := (rt V (foreign impl V) S).
  Notation fs flds := (fs_of impl flds).
  Variable U : auser K V S.
  Variable flds : vfields T.
  Notation E := (alinked T_dec impl U flds (fun _ _ => [])).
  Notation R0 := (R_of (K := K) flds).

  (** Items that are shown. *)
  Definition shows {A} (self : val) (f : A -> option (skey K) * option V) (a : A) (w : val) : Prop :=
    show impl self (VSome w) = Some (Some (f a)).

  Lemma all_shown {A} self (f : A -> option (skey K) * option V) l vs :
    Forall2 (item_rel (shows self f)) l vs ->
    all_some (show impl self) vs = Some (List.map (option_map f) l).
  Proof.
    induction 1 as [|x w l vs H1 H2 IH]; [reflexivity|]. cbn [all_some List.map].
    rewrite IH. destruct x as [a|]; cbn [item_rel] in H1.
    - destruct H1 as (y & Hy & ->). unfold shows in Hy. now rewrite Hy.
    - now subst.
  Qed.

  Lemma iterate_shown {A} C m q l s self self' s' it vs (f : A -> option (skey K) * option V) items :
    invoke E C m [] self VUnit s = (CVal it, self', s') ->
    run_turns T_dec impl U flds q l it s' = Some (vs, s') ->
    Forall2 (item_rel (shows self' f)) items vs ->
    iterate T_dec impl U flds C m q l s self = (s', self', shown f items).
  Proof.
    intros H1 H2 H3. unfold iterate. rewrite H1, H2, (all_shown _ _ _ _ H3). reflexivity.
  Qed.

  (** Items through which is assigned. *)
  Definition refers {A} (of : A -> option (skey K) * ref) (a : A) (w : val) : Prop :=
    exists p, same_place (impl := impl) (V := V) flds (snd (of a)) p /\
      w = match fst (of a) with
          | Some k => VPair (kval impl k) (VRef (MkPlace BSelf p))
          | None => VRef (MkPlace BSelf p)
          end.

  Lemma as_skey_kval (k : skey K) : as_skey impl (V := V) (kval impl k) = Some k.
  Proof. now destruct k. Qed.

  Lemma all_assigned {A} (of : A -> option (skey K) * ref) g l : forall vs st,
    Forall2 (item_rel (refers of)) l vs ->
    assign_each impl g vs (mself flds st) =
    option_map (fun e => (fst e, mself flds (snd e))) (store_each impl flds of g l st).
  Proof.
    induction l as [|x l IH]; intros vs st H; inversion H as [|? w ? vs' H1 H2]; subst; [reflexivity|].
    destruct x as [a|]; cbn [item_rel] in H1.
    2:{ subst w. cbn [assign_each store_each]. rewrite (IH _ _ H2).
        now destruct (store_each impl flds of g l st). }
    destruct H1 as (y & (p & Hp & ->) & ->).
    destruct (Hp st) as [L St]. cbn [assign_each store_each].
    cbn [ms_load ms_store any_map_storage].
    destruct (fst (of a)) as [k|]; cbn [assign_each]; rewrite ?as_skey_kval; rewrite L;
      destruct (any_load V (fs flds) st (snd (of a))) as [v|]; try reflexivity; rewrite St;
      destruct (any_store V (fs flds) st (snd (of a)) _) as [st'|]; try reflexivity;
      cbn [option_map]; rewrite (IH _ _ H2); now destruct (store_each impl flds of g l st').
  Qed.

  Lemma iterate_assigned {A} C m q l s st s' it vs (of : A -> option (skey K) * ref) g items :
    invoke E C m [] (mself flds st) VUnit s = (CVal it, mself flds st, s') ->
    run_turns T_dec impl U flds q l it s' = Some (vs, s') ->
    Forall2 (item_rel (refers of)) items vs ->
    iterate_mut T_dec impl U flds C m q g l s (mself flds st) =
    let '(s2, st', a) := with_items impl flds s' st (store_each impl flds of g items st) in
    (s2, mself flds st', a).
  Proof.
    intros H1 H2 H3. unfold iterate_mut. rewrite H1, H2, (all_assigned _ _ _ _ _ H3).
    now destruct (store_each impl flds of g items st) as [[items' st']|].
  Qed.

  (** ** The fields of the iterators *)
  Variable st0 : any_map V (fs flds).
  Notation self0 := (mself (impl := impl) (V := V) flds st0).
  Notation vs0 := (mvals (impl := impl) flds st0).

  (** References to values, as they are read and as they are assigned to. *)
  Definition reads (i : nat) (x : V) (y : val) : Prop :=
    y = VRef (payload i) /\ value_of impl self0 y = Some x.
  Definition assigns (i : nat) (r : ref) (y : val) : Prop :=
    y = VRef (payload i) /\
    same_place (impl := impl) (V := V) flds r [SField (field_name i); SPayload].
  Definition owns (x : V) (y : val) : Prop := y = VUser x.

  Lemma start_ref i x (k : R0) a : nth_error flds i = Some (x, None) ->
    nth_error vs0 i = Some (vopt impl a) ->
    exists v, optrel (reads i) a v /\ forall call fuel loc o e u,
      eval (en_func E) (en_func2 E) (en_dropped E) (en_ext E) (en_ext_retain E) call fuel
        (call1 OptAsRef (my i)) (MkRt loc self0 o e u) = (CVal v, MkRt loc self0 o e u).
  Proof.
    intros _ H. exists (ref_to i a). split.
    - destruct a as [v|]; cbn; [|reflexivity]. eexists. split; [reflexivity|]. split; [reflexivity|].
      apply load_payload. exact H.
    - intros. rewrite ev_call1, ev_my. cbn [andthen]. unfold mself.
      rewrite (prim_as_ref _ _ _ _ _ _ _ a); [reflexivity|apply plains_nil|exact H].
  Qed.

  Lemma start_mut i x (k : R0) a : nth_error flds i = Some (x, None) ->
    nth_error vs0 i = Some (vopt impl a) ->
    exists v, optrel (assigns i) (opt_as_mut [i] a) v /\ forall call fuel loc o e u,
      eval (en_func E) (en_func2 E) (en_dropped E) (en_ext E) (en_ext_retain E) call fuel
        (call1 OptAsMut (my i)) (MkRt loc self0 o e u) = (CVal v, MkRt loc self0 o e u).
  Proof.
    intros Hf H. exists (ref_to i a). split.
    - destruct a as [v|]; cbn; [|reflexivity]. eexists. split; [reflexivity|]. split; [reflexivity|].
      now apply (place_simple flds i x).
    - intros. rewrite ev_call1, ev_my. cbn [andthen]. unfold mself.
      rewrite (prim_as_mut _ _ _ _ _ _ _ a); [reflexivity|apply plains_nil|exact H].
  Qed.

  Lemma start_is_some i x (k : R0) a : nth_error flds i = Some (x, None) ->
    nth_error vs0 i = Some (vopt impl a) ->
    exists v, flagrel (is_some a) v /\ forall call fuel loc o e u,
      eval (en_func E) (en_func2 E) (en_dropped E) (en_ext E) (en_ext_retain E) call fuel
        (call1 OptIsSome (my i)) (MkRt loc self0 o e u) = (CVal v, MkRt loc self0 o e u).
  Proof.
    intros Hf H. exists (VBool (is_some a)). split; [reflexivity|].
    intros. rewrite ev_call1, ev_my. cbn [andthen]. unfold mself.
    rewrite (prim_is_some _ _ _ _ _ _ _ a); [reflexivity|apply plains_nil|exact H].
  Qed.

  Lemma start_own i x (k : R0) a : nth_error flds i = Some (x, None) ->
    nth_error vs0 i = Some (vopt impl a) ->
    exists v, optrel owns a v /\ forall call fuel loc o e u,
      eval (en_func E) (en_func2 E) (en_dropped E) (en_ext E) (en_ext_retain E) call fuel
        (EField BSelf (field_name i)) (MkRt loc self0 o e u) = (CVal v, MkRt loc self0 o e u).
  Proof.
    intros Hf H. exists (vopt impl a). split.
    - destruct a as [v|]; cbn; [|reflexivity]. eexists. split; reflexivity.
    - intros. rewrite ev_field. fold (field i). unfold mself.
      rewrite read_field by apply plains_nil. now rewrite H.
  Qed.

  (** The storage in a field, as a map. *)
  Lemma ev_start q i t a s call fuel loc o e u : 
    nth_error vs0 i = Some (VForeign (XMap t a)) ->
    start T_dec impl q t (VForeign (XMap t a)) = Some s ->
    eval (en_func E) (en_func2 E) (en_dropped E) (en_ext E) (en_ext_retain E) call fuel
      (ext (MStart q t) [my i]) (MkRt loc self0 o e u) =
    (CVal (VForeign (XIt q t (field i) s)), MkRt loc self0 o e u).
  Proof.
    intros H Hs. rewrite ev_ext1, ev_my. cbn [andthen ext_call]. unfold mself.
    rewrite read_field by apply plains_nil. now rewrite H, Hs.
  Qed.

  Lemma ev_start_own q i t a s call fuel loc o e u : 
    nth_error vs0 i = Some (VForeign (XMap t a)) ->
    start T_dec impl q t (VForeign (XMap t a)) = Some s ->
    eval (en_func E) (en_func2 E) (en_dropped E) (en_ext E) (en_ext_retain E) call fuel
      (ext (MStart q t) [EField BSelf (field_name i)]) (MkRt loc self0 o e u) =
    (CVal (VForeign (XIt q t (MkPlace BLent []) s)), MkRt loc self0 o e u).
  Proof.
    intros H Hs. rewrite ev_ext1, ev_field. fold (field i). unfold mself.
    rewrite read_field by apply plains_nil. rewrite H. cbn [answer_of andthen ext_call].
    now rewrite Hs.
  Qed.

  Notation C := (any_map_code flds).

  Lemma map_back {A B} (f : A -> B) (J : iterator A) :
    is_some (it_back (map_it f J)) = is_some (it_back J).
  Proof. cbn. now destruct (it_back J). Qed.

  Lemma map_backs {A B} (f : A -> B) (J : iterator A) b : it_back (map_it f J) = Some b ->
    exists b0, it_back J = Some b0 /\ b = fun s => Std.map_step f (b0 s).
  Proof. cbn. destruct (it_back J) as [b0|]; [|discriminate]. intros [= <-]. eauto. Qed.

  Lemma opt_clone_id {X} (a : option X) : opt_clone a = a.
  Proof. now destruct a. Qed.

  (** Clones of the fields for unit variants. *)
  Lemma reads_clone {A} (J : iterator A) i (r : it_st J -> val -> Prop) :
    (forall s v, r s v -> exists a, optrel (reads i) a v) ->
    (forall s v, r s v -> r (it_clone J s) v) ->
    clone_sound U J r.
  Proof.
    intros H1 H2. apply (opt_clone_sound U); [|exact H2].
    intros s v Hr. destruct (H1 _ _ Hr) as ([x|] & Ha); cbn in Ha; [|auto].
    destruct Ha as (y & -> & -> & _). right. eauto.
  Qed.

  Lemma take_id {X} (s : option X) : opt_take s = Std.map_step (fun x => x) (opt_take s).
  Proof. now destruct s. Qed.
  Lemma step_id {X Y} (r : option X * Y) : Std.map_step (fun x => x) r = r.
  Proof. now destruct r as [[|] ?]. Qed.

  Lemma iter_sound l s : exists it vs,
    invoke E C "iter" [] self0 VUnit s = (CVal it, self0, s) /\
    run_turns T_dec impl U flds KIter l it s = Some (vs, s) /\
    Forall2 (item_rel (shows self0 (fun e : R0 * V => (Some (written flds (fst e)), Some (snd e)))))
      (take_turns (ms_Iter (any_map_storage V (fs flds))) true l (any_iter V (fs flds) st0)) vs.
  Proof.
    eapply (iterate_sound U flds _ KIter (pair_simple (T := R0)) (iter_cx V)
      (fun i k => optrel (reads i)) (fun i t inj => itrel KIter t (field i))
      true) with (Cx := cx_map V) (rsv := vopt impl) (rcv := fun t s => VForeign (XMap t s))
      (se := fun i _ => call1 OptAsRef (my i)) (ce := fun i _ t => ext (MStart KIter t) [my i]).
    - intros i x k Hf Hk.
      assert (G : forall y v, reads i y v ->
        shows self0 (fun e : R0 * V => (Some (written flds (fst e)), Some (snd e))) (k, y)
          (VPair (VEnum x) v)).
      { intros y v [-> Hv]. unfold shows, show. cbn [as_skey]. rewrite Hv. cbn [fst snd]. now rewrite Hk. }
      split; [|split].
      + apply (pair_arm_sound U flds _ (reads i) (fun y => (k, y)) i x G).
      + intros b [= <-]. apply (pair_arm_sound U flds _ (reads i) (fun y => (k, y)) i x G).
      + intros _. apply (reads_clone _ i); [eauto|].
        intros a v Hr. cbn. now rewrite opt_clone_id.
    - intros i x t inj Hf Hk.
      assert (G : forall e : K t * V,
        shows self0 (fun e : R0 * V => (Some (written flds (fst e)), Some (snd e)))
          (inj (fst e), snd e) (out_val KIter x t (field i) e)).
      { intros e. unfold shows, show. cbn. now rewrite Hk. }
      split; [|split].
      + apply (complex_arm_sound U flds _ MNext KIter t (field i)
          (it_next (ms_Iter (M impl t))) i x (fun e => (inj (fst e), snd e)));
          [left; auto|reflexivity|exact G].
      + intros b Hb. destruct (map_backs _ _ _ Hb) as (b0 & Hb0 & ->).
        apply (complex_arm_sound U flds _ MNextBack KIter t (field i) b0 i x (fun e => (inj (fst e), snd e)));
          [right; auto|reflexivity|exact G].
      + intros _. apply (it_clone_sound U KIter t (field i)).
        intros a v ->. now exists a.
    - discriminate.
    - intros. apply map_back.
    - intros. now apply (start_ref i x k a).
    - intros i x t inj a Hf H. eexists. split; [reflexivity|].
      intros. apply (ev_start KIter i t a _ _ _ _ _ _ _ H). cbn [start]. now rewrite as_map_same.
    - reflexivity.
    - reflexivity.
    - reflexivity.
  Qed.

  Lemma keys_sound l s : exists it vs,
    invoke E C "keys" [] self0 VUnit s = (CVal it, self0, s) /\
    run_turns T_dec impl U flds KKeys l it s = Some (vs, s) /\
    Forall2 (item_rel (shows self0 (fun k : R0 => (Some (written flds k), None))))
      (take_turns (ms_Keys (any_map_storage V (fs flds))) true l (any_keys V (fs flds) st0)) vs.
  Proof.
    eapply (iterate_sound U flds _ KKeys (keys_simple (T := R0)) (keys_cx V)
      (fun i k => flagrel) (fun i t inj => itrel KKeys t (field i))
      true) with (Cx := cx_map V) (rsv := vopt impl) (rcv := fun t s => VForeign (XMap t s))
      (se := fun i _ => call1 OptIsSome (my i)) (ce := fun i _ t => ext (MStart KKeys t) [my i]).
    - intros i x k Hf Hk.
      assert (G : shows self0 (fun k : R0 => (Some (written flds k), None)) k (VEnum x)) by (unfold shows, show; cbn; now rewrite Hk).
      split; [|split].
      + apply (flag_arm_sound U flds _ k i x G).
      + intros b [= <-]. apply (flag_arm_sound U flds _ k i x G).
      + intros _ a v ->. exists (VBool a). split; reflexivity.
    - intros i x t inj Hf Hk.
      assert (G : forall e : item (K := K) (V := V) KKeys t, shows self0 (fun k : R0 => (Some (written flds k), None))
          (inj e) (out_val KKeys x t (field i) e)).
      { intros e. unfold shows, show. cbn. now rewrite Hk. }
      split; [|split].
      + apply (complex_arm_sound U flds _ MNext KKeys t (field i)
          (it_next (ms_Keys (M impl t))) i x (fun e => inj e));
          [left; auto|reflexivity|exact G].
      + intros b Hb. destruct (map_backs _ _ _ Hb) as (b0 & Hb0 & ->).
        apply (complex_arm_sound U flds _ MNextBack KKeys t (field i) b0 i x (fun e => inj e));
          [right; auto|reflexivity|exact G].
      + intros _. apply (it_clone_sound U KKeys t (field i)). intros a v ->. now exists a.
    - discriminate.
    - intros. apply map_back.
    - intros. now apply (start_is_some i x k a).
    - intros i x t inj a Hf H. eexists. split; [reflexivity|].
      intros. apply (ev_start KKeys i t a _ _ _ _ _ _ _ H). cbn [start]. now rewrite as_map_same.
    - reflexivity.
    - reflexivity.
    - reflexivity.
  Qed.

  Lemma values_sound l s : exists it vs,
    invoke E C "values" [] self0 VUnit s = (CVal it, self0, s) /\
    run_turns T_dec impl U flds KValues l it s = Some (vs, s) /\
    Forall2 (item_rel (shows self0 (fun v : V => (None, Some v))))
      (take_turns (ms_Values (any_map_storage V (fs flds))) true l (any_values V (fs flds) st0)) vs.
  Proof.
    eapply (iterate_sound U flds _ KValues (val_simple (T := R0)) (values_cx V)
      (fun i k => optrel (reads i)) (fun i t inj => itrel KValues t (field i))
      true) with (Cx := cx_map V) (rsv := vopt impl) (rcv := fun t s => VForeign (XMap t s))
      (se := fun i _ => call1 OptAsRef (my i)) (ce := fun i _ t => ext (MStart KValues t) [my i]).
    - intros i x k Hf Hk.
      assert (G : forall y v, reads i y v -> shows self0 (fun v : V => (None, Some v)) y v).
      { intros y v [-> Hv]. unfold shows, show, payload in *. cbn [as_skey]. now rewrite Hv. }
      split; [|split].
      + apply (value_arm_sound U flds _ (reads i) (fun y => y) i); [apply take_id|exact G].
      + intros b [= <-]. apply (value_arm_sound U flds _ (reads i) (fun y => y) i); [apply take_id|exact G].
      + intros _. apply (reads_clone _ i); [eauto|]. intros a v Hr. cbn. now rewrite opt_clone_id.
    - intros i x t inj Hf Hk.
      assert (G : forall e : item (K := K) (V := V) KValues t, shows self0 (fun v : V => (None, Some v))
          (e) (out_val KValues x t (field i) e)).
      { intros e. reflexivity. }
      split; [|split].
      + apply (complex_arm_sound U flds _ MNext KValues t (field i)
          (it_next (ms_Values (M impl t))) i x (fun e => e));
          [left; auto|intros a; now rewrite step_id|exact G].
      + intros b0 Hb0.
        apply (complex_arm_sound U flds _ MNextBack KValues t (field i) b0 i x (fun e => e));
          [right; auto|intros a; now rewrite step_id|exact G].
      + intros _. apply (it_clone_sound U KValues t (field i)). intros a v ->. now exists a.
    - discriminate.
    - intros. reflexivity.
    - intros. now apply (start_ref i x k a).
    - intros i x t inj a Hf H. eexists. split; [reflexivity|].
      intros. apply (ev_start KValues i t a _ _ _ _ _ _ _ H). cbn [start]. now rewrite as_map_same.
    - reflexivity.
    - reflexivity.
    - reflexivity.
  Qed.

  Lemma iter_mut_sound l s : exists it vs,
    invoke E C "iter_mut" [] self0 VUnit s = (CVal it, self0, s) /\
    run_turns T_dec impl U flds KIterMut l it s = Some (vs, s) /\
    Forall2 (item_rel (refers (fun e : R0 * ref => (Some (written flds (fst e)), snd e))))
      (take_turns (ms_IterMut (any_map_storage V (fs flds))) false l (any_iter_mut V (fs flds) st0)) vs.
  Proof.
    eapply (iterate_sound U flds _ KIterMut (pair_simple (T := R0)) (iter_mut_cx V)
      (fun i k => optrel (assigns i)) (fun i t inj => itrel KIterMut t (field i))
      false) with (Cx := cx_map V) (rsv := vopt impl) (rcv := fun t s => VForeign (XMap t s))
      (se := fun i _ => call1 OptAsMut (my i)) (ce := fun i _ t => ext (MStart KIterMut t) [my i]).
    - intros i x k Hf Hk.
      assert (G : forall y v, assigns i y v -> refers (fun e : R0 * ref => (Some (written flds (fst e)), snd e)) (k, y) (VPair (VEnum x) v)).
      { intros y v [-> Hv]. eexists. split; [exact Hv|]. cbn [fst]. now rewrite Hk. }
      split; [|split].
      + apply (pair_arm_sound U flds _ (assigns i) (fun y => (k, y)) i x G).
      + intros b [= <-]. apply (pair_arm_sound U flds _ (assigns i) (fun y => (k, y)) i x G).
      + discriminate.
    - intros i x t inj Hf Hk.
      assert (G : forall e : item (K := K) (V := V) KIterMut t, refers (fun e : R0 * ref => (Some (written flds (fst e)), snd e))
          (inj (fst e), i :: snd e) (out_val KIterMut x t (field i) e)).
      { intros e. exists [SField (field_name i); SInto (snd e)]. split; [now apply (place_tuple flds i x t)|]. cbn. now rewrite Hk. }
      split; [|split].
      + apply (complex_arm_sound U flds _ MNext KIterMut t (field i)
          (it_next (ms_IterMut (M impl t))) i x (fun e => (inj (fst e), i :: snd e)));
          [left; auto|reflexivity|exact G].
      + intros b Hb. destruct (map_backs _ _ _ Hb) as (b0 & Hb0 & ->).
        apply (complex_arm_sound U flds _ MNextBack KIterMut t (field i) b0 i x (fun e => (inj (fst e), i :: snd e)));
          [right; auto|reflexivity|exact G].
      + discriminate.
    - discriminate.
    - intros. apply map_back.
    - intros. now apply (start_mut i x k a).
    - intros i x t inj a Hf H. eexists. split; [reflexivity|].
      intros. apply (ev_start KIterMut i t a _ _ _ _ _ _ _ H). cbn [start]. now rewrite as_map_same.
    - reflexivity.
    - reflexivity.
    - reflexivity.
  Qed.

  Lemma values_mut_sound l s : exists it vs,
    invoke E C "values_mut" [] self0 VUnit s = (CVal it, self0, s) /\
    run_turns T_dec impl U flds KValuesMut l it s = Some (vs, s) /\
    Forall2 (item_rel (refers (fun r : ref => (None, r))))
      (take_turns (ms_ValuesMut (any_map_storage V (fs flds))) false l (any_values_mut V (fs flds) st0)) vs.
  Proof.
    eapply (iterate_sound U flds _ KValuesMut (val_simple (T := R0)) (values_mut_cx V)
      (fun i k => optrel (assigns i)) (fun i t inj => itrel KValuesMut t (field i))
      false) with (Cx := cx_map V) (rsv := vopt impl) (rcv := fun t s => VForeign (XMap t s))
      (se := fun i _ => call1 OptAsMut (my i)) (ce := fun i _ t => ext (MStart KValuesMut t) [my i]).
    - intros i x k Hf Hk.
      assert (G : forall y v, assigns i y v -> refers (fun r : ref => (None, r)) y v).
      { intros y v [-> Hv]. eexists. split; [exact Hv|]. reflexivity. }
      split; [|split].
      + apply (value_arm_sound U flds _ (assigns i) (fun y => y) i); [apply take_id|exact G].
      + intros b [= <-]. apply (value_arm_sound U flds _ (assigns i) (fun y => y) i); [apply take_id|exact G].
      + discriminate.
    - intros i x t inj Hf Hk.
      assert (G : forall e : item (K := K) (V := V) KValuesMut t, refers (fun r : ref => (None, r))
          (i :: e) (out_val KValuesMut x t (field i) e)).
      { intros e. exists [SField (field_name i); SInto e]. split; [now apply (place_tuple flds i x t)|]. reflexivity. }
      split; [|split].
      + apply (complex_arm_sound U flds _ MNext KValuesMut t (field i)
          (it_next (ms_ValuesMut (M impl t))) i x (fun e => i :: e));
          [left; auto|reflexivity|exact G].
      + intros b Hb. destruct (map_backs _ _ _ Hb) as (b0 & Hb0 & ->).
        apply (complex_arm_sound U flds _ MNextBack KValuesMut t (field i) b0 i x (fun e => i :: e));
          [right; auto|reflexivity|exact G].
      + discriminate.
    - discriminate.
    - intros. apply map_back.
    - intros. now apply (start_mut i x k a).
    - intros i x t inj a Hf H. eexists. split; [reflexivity|].
      intros. apply (ev_start KValuesMut i t a _ _ _ _ _ _ _ H). cbn [start]. now rewrite as_map_same.
    - reflexivity.
    - reflexivity.
    - reflexivity.
  Qed.

  Lemma into_iter_sound l s : exists it vs,
    invoke E C "into_iter" [] self0 VUnit s = (CVal it, self0, s) /\
    run_turns T_dec impl U flds KIntoIter l it s = Some (vs, s) /\
    Forall2 (item_rel (shows self0 (fun e : R0 * V => (Some (written flds (fst e)), Some (snd e)))))
      (take_turns (ms_IntoIter (any_map_storage V (fs flds))) false l (any_into_iter V (fs flds) st0)) vs.
  Proof.
    eapply (iterate_sound U flds _ KIntoIter (pair_simple (T := R0)) (into_iter_cx V)
      (fun i k => optrel owns) (fun i t inj => itrel KIntoIter t (MkPlace BLent []))
      false) with (Cx := cx_map V) (rsv := vopt impl) (rcv := fun t s => VForeign (XMap t s))
      (se := fun i _ => EField BSelf (field_name i)) (ce := fun i _ t => ext (MStart KIntoIter t) [EField BSelf (field_name i)]).
    - intros i x k Hf Hk.
      assert (G : forall y v, owns y v -> shows self0 (fun e : R0 * V => (Some (written flds (fst e)), Some (snd e))) (k, y) (VPair (VEnum x) v)).
      { intros y v ->. unfold shows, show. cbn. now rewrite Hk. }
      split; [|split].
      + apply (pair_arm_sound U flds _ owns (fun y => (k, y)) i x G).
      + intros b [= <-]. apply (pair_arm_sound U flds _ owns (fun y => (k, y)) i x G).
      + discriminate.
    - intros i x t inj Hf Hk.
      assert (G : forall e : item (K := K) (V := V) KIntoIter t, shows self0 (fun e : R0 * V => (Some (written flds (fst e)), Some (snd e)))
          (inj (fst e), snd e) (out_val KIntoIter x t (MkPlace BLent []) e)).
      { intros e. unfold shows, show. cbn. now rewrite Hk. }
      split; [|split].
      + apply (complex_arm_sound U flds _ MNext KIntoIter t (MkPlace BLent [])
          (it_next (ms_IntoIter (M impl t))) i x (fun e => (inj (fst e), snd e)));
          [left; auto|reflexivity|exact G].
      + intros b Hb. destruct (map_backs _ _ _ Hb) as (b0 & Hb0 & ->).
        apply (complex_arm_sound U flds _ MNextBack KIntoIter t (MkPlace BLent []) b0 i x (fun e => (inj (fst e), snd e)));
          [right; auto|reflexivity|exact G].
      + discriminate.
    - discriminate.
    - intros. apply map_back.
    - intros. now apply (start_own i x k a).
    - intros i x t inj a Hf H. eexists. split; [reflexivity|].
      intros. apply (ev_start_own KIntoIter i t a _ _ _ _ _ _ _ H). cbn [start]. now rewrite as_map_same.
    - reflexivity.
    - reflexivity.
    - reflexivity.
  Qed.
End Views.

Section Agree.
  Context {T : Type} {T_dec : forall a b : T, {a = b} + {a <> b}}
          {K : T -> Type} {impl : forall t, KeyImpl (K t)} {V S : Type}.
  Variable U : auser K V S.
  Variable flds : vfields T.
  Notation agrees := (agrees (T_dec := T_dec) (impl := impl) U flds).

  Lemma iter_agrees v l : agrees (TIter v l).
  Proof.
    intros s st. destruct v; cbn [do_task model_task].
    - destruct (iter_sound (T_dec := T_dec) U flds st l s) as (it & vs & H1 & H2 & H3).
      exact (iterate_shown U flds _ _ _ l s _ _ s it vs _ _ H1 H2 H3).
    - destruct (keys_sound (T_dec := T_dec) U flds st l s) as (it & vs & H1 & H2 & H3).
      exact (iterate_shown U flds _ _ _ l s _ _ s it vs _ _ H1 H2 H3).
    - destruct (values_sound (T_dec := T_dec) U flds st l s) as (it & vs & H1 & H2 & H3).
      exact (iterate_shown U flds _ _ _ l s _ _ s it vs _ _ H1 H2 H3).
    - destruct (into_iter_sound (T_dec := T_dec) U flds st l s) as (it & vs & H1 & H2 & H3).
      exact (iterate_shown U flds _ _ _ l s _ _ s it vs _ _ H1 H2 H3).
  Qed.

  Lemma iter_mut_agrees g l : agrees (TIterMut g l).
  Proof.
    intros s st. cbn [do_task model_task].
    destruct (iter_mut_sound (T_dec := T_dec) U flds st l s) as (it & vs & H1 & H2 & H3).
    exact (iterate_assigned U flds _ _ _ l s st s it vs _ _ _ H1 H2 H3).
  Qed.

  Lemma values_mut_agrees g l : agrees (TValuesMut g l).
  Proof.
    intros s st. cbn [do_task model_task].
    destruct (values_mut_sound (T_dec := T_dec) U flds st l s) as (it & vs & H1 & H2 & H3).
    exact (iterate_assigned U flds _ _ _ l s st s it vs _ _ _ H1 H2 H3).
  Qed.
End Agree.
