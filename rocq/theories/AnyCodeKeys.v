(** Where the keys of an enum with tuple variants are stored. *)
Require Import List Arith NArith Bool String Lia.
Import ListNotations.
From Verif Require Import Std Traits OptionBucket SetStorages Names Rust UnitCode RustFacts CodeSpec DeriveAny
  UnitCodeProofs AnyCode AnyRun AnyCodeSpec AnyCodeFacts.
Open Scope string_scope.

Section Keys.
  Context {T : Type} {K : T -> Type} {impl : forall t, KeyImpl (K t)} {V : Type}.
  Notation val := (val V (foreign impl V)).
  Notation M := (M impl (V := V)).
  Notation N := (N impl).
  Notation fs flds := (fs_of impl flds).
  Notation mvals := (mvals (impl := impl) (V := V)).
  Notation svals := (svals (impl := impl) (V := V)).
  Notation vopt := (vopt impl (V := V)).

  Lemma opt_shift {A} i (o : option A) :
    option_map shift_ref (opt_as_mut [i] o) = opt_as_mut [S i] o.
  Proof. now destruct o. Qed.

  (** The key of a unit variant: its place, and what the operations do there. *)
  Record simple_at (flds : vfields T) (k : R_of flds) (i : nat) (x : string)
    (ge : any_map V (fs flds) -> option V)
    (pu : any_map V (fs flds) -> option V -> any_map V (fs flds)) : Prop := {
    sa_fld : nth_error flds i = Some (x, None);
    sa_key : written (K := K) flds k = Plain x;
    sa_get : forall st, nth_error (mvals flds st) i = Some (vopt (ge st));
    sa_put : forall st o, put i (vopt o) (mvals flds st) = Some (mvals flds (pu st o));
    sa_same : forall st o, ge (pu st o) = o;
    sa_insert : forall st v, any_insert V (fs flds) st k v = (ge st, pu st (Some v));
    sa_contains : forall st, any_contains_key V (fs flds) st k = is_some (ge st);
    sa_any_get : forall st, any_get V (fs flds) st k = ge st;
    sa_get_mut : forall st, any_get_mut V (fs flds) st k = opt_as_mut [i] (ge st);
    sa_remove : forall st, any_remove V (fs flds) st k = (ge st, pu st None);
    sa_cell : forall st, any_cell_get V (fs flds) st [i] = Some (ge st);
    sa_cell_set : forall st o, any_cell_set V (fs flds) st [i] o = Some (pu st o);
    sa_entry : forall A B j (simple : ref -> res (entry A B)) occ vac st,
      any_entry_arms V (fs flds) j simple occ vac st k = simple [(j + i)%nat]
  }.

  (** The key of a tuple variant. *)
  Record tuple_at (flds : vfields T) (k : R_of flds) (i : nat) (x : string) (t : T) (k' : K t)
    (ge : any_map V (fs flds) -> ms_St (M t))
    (pu : any_map V (fs flds) -> ms_St (M t) -> any_map V (fs flds))
    (occ : ms_Occ (M t) -> any_occ_cx V (fs flds))
    (vac : ms_Vac (M t) -> any_vac_cx V (fs flds))
    (inj : K t -> R_of flds) : Prop := {
    ta_fld : nth_error flds i = Some (x, Some t);
    ta_key : written (K := K) flds k = Holding x t k';
    ta_inj : forall k', written (K := K) flds (inj k') = Holding x t k';
    ta_get : forall st, nth_error (mvals flds st) i = Some (VForeign (XMap t (ge st)));
    ta_put : forall st s,
      put i (VForeign (XMap t s)) (mvals flds st) = Some (mvals flds (pu st s));
    ta_same : forall st s, ge (pu st s) = s;
    ta_insert : forall st v, any_insert V (fs flds) st k v =
      let '(o, s) := ms_insert (M t) (ge st) k' v in (o, pu st s);
    ta_contains : forall st, any_contains_key V (fs flds) st k = ms_contains_key (M t) (ge st) k';
    ta_any_get : forall st, any_get V (fs flds) st k = ms_get (M t) (ge st) k';
    ta_get_mut : forall st,
      any_get_mut V (fs flds) st k = option_map (cons i) (ms_get_mut (M t) (ge st) k');
    ta_remove : forall st, any_remove V (fs flds) st k =
      let '(o, s) := ms_remove (M t) (ge st) k' in (o, pu st s);
    ta_entry : forall A B j (simple : ref -> res (entry A B)) o v st,
      any_entry_arms V (fs flds) j simple o v st k =
      res_map (fun e => match e with
                        | Occupied e => Occupied (o (occ e))
                        | Vacant e => Vacant (v (vac e)) end) (ms_entry (M t) (ge st) k');
    ta_occ_key : forall st o,
      any_occ_key_cx V (fs flds) st (occ o) = res_map inj (ms_occ_key (M t) (ge st) o);
    ta_occ_get : forall st o,
      any_occ_get_cx V (fs flds) st (occ o) = ms_occ_get (M t) (ge st) o;
    ta_occ_get_mut : forall st o,
      any_occ_get_mut_cx V (fs flds) st (occ o) = res_map (cons i) (ms_occ_get_mut (M t) (ge st) o);
    ta_occ_into_mut : forall st o,
      any_occ_into_mut_cx V (fs flds) st (occ o) = res_map (cons i) (ms_occ_into_mut (M t) (ge st) o);
    ta_occ_insert : forall st o v,
      any_occ_insert_cx V (fs flds) st (occ o) v =
      res_map (fun r => (fst r, pu st (snd r))) (ms_occ_insert (M t) (ge st) o v);
    ta_occ_remove : forall st o,
      any_occ_remove_cx V (fs flds) st (occ o) =
      res_map (fun r => (fst r, pu st (snd r))) (ms_occ_remove (M t) (ge st) o);
    ta_vac_key : forall st o,
      any_vac_key_cx V (fs flds) st (vac o) = inj (ms_vac_key (M t) (ge st) o);
    ta_vac_insert : forall st o v,
      any_vac_insert_cx V (fs flds) st (vac o) v =
      res_map (fun r => (i :: fst r, pu st (snd r))) (ms_vac_insert (M t) (ge st) o v)
  }.

  Lemma map_key flds (k : R_of flds) :
    (exists i x ge pu, simple_at flds k i x ge pu) \/
    (exists i x t k' ge pu occ vac inj, tuple_at flds k i x t k' ge pu occ vac inj).
  Proof.
    induction flds as [|[x0 [t0|]] r IH].
    - destruct k.
    - destruct k as [k|k].
      + right. exists 0, x0, t0, k, fst, (fun st s => (s, snd st)), inl, inl, inl.
        constructor; try reflexivity.
      + destruct (IH k) as [(i & x & ge & pu & H)|(i & x & t & k' & ge & pu & occ & vac & inj & H)].
        * left. exists (S i), x, (fun st => ge (snd st)), (fun st o => (fst st, pu (snd st) o)).
          destruct H. constructor; intros; cbn [nth_error written fs_of any_insert any_contains_key
            any_get any_get_mut any_remove any_cell_get any_cell_set any_entry_arms fst snd]; auto.
          -- apply (sa_get0 (snd st)).
          -- pose proof (sa_put0 (snd st) o) as P. unfold mvals, AnyCodeFacts.mvals in *.
             cbn [vals put fst snd]. now rewrite P.
          -- now rewrite sa_insert0.
          -- rewrite sa_get_mut0. apply opt_shift.
          -- now rewrite sa_remove0.
          -- now rewrite sa_cell_set0.
          -- rewrite sa_entry0. do 2 f_equal. lia.
        * right. exists (S i), x, t, k', (fun st => ge (snd st)), (fun st s => (fst st, pu (snd st) s)),
            (fun o => inr (occ o)), (fun o => inr (vac o)), (fun k => inr (inj k)).
          destruct H. constructor; intros; cbn [nth_error written fs_of any_insert any_contains_key
            any_get any_get_mut any_remove any_entry_arms any_occ_key_cx any_occ_get_cx
            any_occ_get_mut_cx any_occ_into_mut_cx any_occ_insert_cx any_occ_remove_cx
            any_vac_key_cx any_vac_insert_cx fst snd]; auto.
          -- apply (ta_get0 (snd st)).
          -- pose proof (ta_put0 (snd st) s) as P. unfold mvals, AnyCodeFacts.mvals in *.
             cbn [vals put fst snd]. now rewrite P.
          -- rewrite ta_insert0. now destruct (ms_insert _ _ _ _).
          -- rewrite ta_get_mut0. now destruct (ms_get_mut _ _ _).
          -- rewrite ta_remove0. now destruct (ms_remove _ _ _).
          -- rewrite ta_entry0. reflexivity.
          -- rewrite ta_occ_key0. now destruct (ms_occ_key _ _ _).
          -- rewrite ta_occ_get_mut0. now destruct (ms_occ_get_mut _ _ _).
          -- rewrite ta_occ_into_mut0. now destruct (ms_occ_into_mut _ _ _).
          -- rewrite ta_occ_insert0. now destruct (ms_occ_insert _ _ _ _).
          -- rewrite ta_occ_remove0. now destruct (ms_occ_remove _ _ _).
          -- now rewrite ta_vac_key0.
          -- rewrite ta_vac_insert0. now destruct (ms_vac_insert _ _ _ _).
    - destruct k as [[]|k].
      + left. exists 0, x0, fst, (fun st o => (o, snd st)).
        constructor; try reflexivity.
        * intros. cbn. now rewrite Nat.add_0_r.
      + destruct (IH k) as [(i & x & ge & pu & H)|(i & x & t & k' & ge & pu & occ & vac & inj & H)].
        * left. exists (S i), x, (fun st => ge (snd st)), (fun st o => (fst st, pu (snd st) o)).
          destruct H. constructor; intros; cbn [nth_error written fs_of any_insert any_contains_key
            any_get any_get_mut any_remove any_cell_get any_cell_set any_entry_arms fst snd]; auto.
          -- apply (sa_get0 (snd st)).
          -- pose proof (sa_put0 (snd st) o) as P. unfold mvals, AnyCodeFacts.mvals in *.
             cbn [vals put fst snd]. now rewrite P.
          -- now rewrite sa_insert0.
          -- rewrite sa_get_mut0. apply opt_shift.
          -- now rewrite sa_remove0.
          -- now rewrite sa_cell_set0.
          -- rewrite sa_entry0. do 2 f_equal. lia.
        * right. exists (S i), x, t, k', (fun st => ge (snd st)), (fun st s => (fst st, pu (snd st) s)),
            occ, vac, (fun k => inr (inj k)).
          destruct H. constructor; intros; cbn [nth_error written fs_of any_insert any_contains_key
            any_get any_get_mut any_remove any_entry_arms any_occ_key_cx any_occ_get_cx
            any_occ_get_mut_cx any_occ_into_mut_cx any_occ_insert_cx any_occ_remove_cx
            any_vac_key_cx any_vac_insert_cx fst snd]; auto.
          -- apply (ta_get0 (snd st)).
          -- pose proof (ta_put0 (snd st) s) as P. unfold mvals, AnyCodeFacts.mvals in *.
             cbn [vals put fst snd]. now rewrite P.
          -- rewrite ta_insert0. now destruct (ms_insert _ _ _ _).
          -- rewrite ta_get_mut0. now destruct (ms_get_mut _ _ _).
          -- rewrite ta_remove0. now destruct (ms_remove _ _ _).
          -- rewrite ta_occ_key0. now destruct (ms_occ_key _ _ _).
          -- rewrite ta_occ_get_mut0. now destruct (ms_occ_get_mut _ _ _).
          -- rewrite ta_occ_into_mut0. now destruct (ms_occ_into_mut _ _ _).
          -- rewrite ta_occ_insert0. now destruct (ms_occ_insert _ _ _ _).
          -- rewrite ta_occ_remove0. now destruct (ms_occ_remove _ _ _).
          -- now rewrite ta_vac_key0.
          -- rewrite ta_vac_insert0. now destruct (ms_vac_insert _ _ _ _).
  Qed.

  (** ** Sets *)

  Record set_simple_at (flds : vfields T) (k : R_of flds) (i : nat) (x : string)
    (ge : any_set (fs flds) -> bool)
    (pu : any_set (fs flds) -> bool -> any_set (fs flds)) : Prop := {
    ssa_fld : nth_error flds i = Some (x, None);
    ssa_key : written (K := K) flds k = Plain x;
    ssa_get : forall st, nth_error (svals flds st) i = Some (VBool (ge st));
    ssa_put : forall st b, put i (VBool b) (svals flds st) = Some (svals flds (pu st b));
    ssa_insert : forall st, anys_insert (fs flds) st k = (negb (ge st), pu st true);
    ssa_contains : forall st, anys_contains (fs flds) st k = ge st;
    ssa_remove : forall st, anys_remove (fs flds) st k = (ge st, pu st false)
  }.

  Record set_tuple_at (flds : vfields T) (k : R_of flds) (i : nat) (x : string) (t : T) (k' : K t)
    (ge : any_set (fs flds) -> ss_St (N t))
    (pu : any_set (fs flds) -> ss_St (N t) -> any_set (fs flds)) : Prop := {
    sta_fld : nth_error flds i = Some (x, Some t);
    sta_key : written (K := K) flds k = Holding x t k';
    sta_get : forall st, nth_error (svals flds st) i = Some (VForeign (XSet t (ge st)));
    sta_put : forall st s,
      put i (VForeign (XSet t s)) (svals flds st) = Some (svals flds (pu st s));
    sta_insert : forall st, anys_insert (fs flds) st k =
      let '(o, s) := ss_insert (N t) (ge st) k' in (o, pu st s);
    sta_contains : forall st, anys_contains (fs flds) st k = ss_contains (N t) (ge st) k';
    sta_remove : forall st, anys_remove (fs flds) st k =
      let '(o, s) := ss_remove (N t) (ge st) k' in (o, pu st s)
  }.

  Lemma set_key flds (k : R_of flds) :
    (exists i x ge pu, set_simple_at flds k i x ge pu) \/
    (exists i x t k' ge pu, set_tuple_at flds k i x t k' ge pu).
  Proof.
    induction flds as [|[x0 o0] r IH]; [destruct k|].
    destruct o0 as [t0|]; destruct k as [k|k].
    - right. exists 0, x0, t0, k, fst, (fun st s => (s, snd st)). constructor; reflexivity.
    - destruct (IH k) as [(i & x & ge & pu & H)|(i & x & t & k' & ge & pu & H)]; destruct H.
      + left. exists (S i), x, (fun st => ge (snd st)), (fun st o => (fst st, pu (snd st) o)).
        constructor; intros; cbn [nth_error written fs_of anys_insert anys_contains anys_remove fst snd];
          auto.
        * apply (ssa_get0 (snd st)).
        * pose proof (ssa_put0 (snd st) b) as P. unfold svals, AnyCodeFacts.svals in *.
          cbn [vals put fst snd]. now rewrite P.
        * now rewrite ssa_insert0.
        * now rewrite ssa_remove0.
      + right. exists (S i), x, t, k', (fun st => ge (snd st)), (fun st s => (fst st, pu (snd st) s)).
        constructor; intros; cbn [nth_error written fs_of anys_insert anys_contains anys_remove fst snd];
          auto.
        * apply (sta_get0 (snd st)).
        * pose proof (sta_put0 (snd st) s) as P. unfold svals, AnyCodeFacts.svals in *.
          cbn [vals put fst snd]. now rewrite P.
        * rewrite sta_insert0. now destruct (ss_insert _ _ _).
        * rewrite sta_remove0. now destruct (ss_remove _ _ _).
    - left. destruct k. exists 0, x0, fst, (fun st s => (s, snd st)). constructor; reflexivity.
    - destruct (IH k) as [(i & x & ge & pu & H)|(i & x & t & k' & ge & pu & H)]; destruct H.
      + left. exists (S i), x, (fun st => ge (snd st)), (fun st o => (fst st, pu (snd st) o)).
        constructor; intros; cbn [nth_error written fs_of anys_insert anys_contains anys_remove fst snd];
          auto.
        * apply (ssa_get0 (snd st)).
        * pose proof (ssa_put0 (snd st) b) as P. unfold svals, AnyCodeFacts.svals in *.
          cbn [vals put fst snd]. now rewrite P.
        * now rewrite ssa_insert0.
        * now rewrite ssa_remove0.
      + right. exists (S i), x, t, k', (fun st => ge (snd st)), (fun st s => (fst st, pu (snd st) s)).
        constructor; intros; cbn [nth_error written fs_of anys_insert anys_contains anys_remove fst snd];
          auto.
        * apply (sta_get0 (snd st)).
        * pose proof (sta_put0 (snd st) s) as P. unfold svals, AnyCodeFacts.svals in *.
          cbn [vals put fst snd]. now rewrite P.
        * rewrite sta_insert0. now destruct (ss_insert _ _ _).
        * rewrite sta_remove0. now destruct (ss_remove _ _ _).
  Qed.

  (** * References *)

  Definition mself (flds : vfields T) (st : any_map V (fs flds)) : val := strct [] (mvals flds st).

  (** The same reference, in the model and in the generated code. *)
  Definition same_place (flds : vfields T) (r : ref) (p : list step) : Prop :=
    forall st : any_map V (fs flds),
    load_at impl (mself flds st) p = any_load V (fs flds) st r /\
    forall v, store_at impl (mself flds st) p v =
      option_map (mself flds) (any_store V (fs flds) st r v).

  Lemma any_store_tuple x t r (st : any_map V (fs ((x, Some t) :: r))) i p v :
    any_store V (fs ((x, Some t) :: r)) st (S i :: p) v =
    option_map (fun s : any_map V (fs r) => (fst st, s)) (any_store V (fs r) (snd st) (i :: p) v).
  Proof. reflexivity. Qed.
  Lemma any_store_simple x r (st : any_map V (fs ((x, None) :: r))) i p v :
    any_store V (fs ((x, None) :: r)) st (S i :: p) v =
    option_map (fun s : any_map V (fs r) => (fst st, s)) (any_store V (fs r) (snd st) (i :: p) v).
  Proof. reflexivity. Qed.

  (** By number of a field. *)
  Lemma load_field (vs : list val) i q : load_at impl (strct [] vs) (SField (field_name i) :: q) =
    match nth_error vs i with Some x => load_at impl x q | None => None end.
  Proof.
    unfold strct. cbn [app]. cbn [load_at]. rewrite lookup_numbered0.
    now destruct q.
  Qed.

  Lemma store_field (vs : list val) i q v : store_at impl (strct [] vs) (SField (field_name i) :: q) v =
    match nth_error vs i with
    | Some x => match store_at impl x q v with
                | Some y => option_map (strct []) (put i y vs)
                | None => None end
    | None => None end.
  Proof.
    unfold strct. cbn [app]. cbn [store_at]. rewrite lookup_numbered0.
    destruct (nth_error vs i) as [x|]; [|now destruct q].
    destruct q as [|a q].
    - destruct (store_at impl x [] v); [|reflexivity].
      rewrite assign_numbered0. now destruct (put _ _ _).
    - destruct (store_at impl x (a :: q) v); [|reflexivity].
      rewrite assign_numbered0. now destruct (put _ _ _).
  Qed.

  Lemma place_simple flds : forall i x, nth_error flds i = Some (x, None) ->
    same_place flds [i] [SField (field_name i); SPayload].
  Proof.
    assert (G : forall flds i x, nth_error flds i = Some (x, None) -> forall st,
      match nth_error (mvals flds st) i with
      | Some y => load_at impl y [SPayload] = any_load V (fs flds) st [i] /\
          forall v,
          match store_at impl y [SPayload] v with
          | Some z => put i z (mvals flds st) = option_map (mvals flds) (any_store V (fs flds) st [i] v) /\
                      any_store V (fs flds) st [i] v <> None
          | None => any_store V (fs flds) st [i] v = None end
      | None => False
      end).
    { clear flds. induction flds as [|[x0 o] r IH]; intros i x H st; [now destruct i|].
      destruct i as [|i].
      - cbn in H. injection H as -> ->. cbn. destruct st as [[v0|] st]; cbn.
        + split; [reflexivity|]. intros v. split; [reflexivity|discriminate].
        + split; [reflexivity|]. intros v. reflexivity.
      - cbn [nth_error] in H. destruct o as [t|].
        + specialize (IH i x H (snd st)).
          change (mvals ((x0, Some t) :: r) st) with (VForeign (XMap t (fst st)) :: mvals r (snd st)).
          cbn [nth_error]. destruct (nth_error (mvals r (snd st)) i) as [y|]; [|exact IH].
          destruct IH as [IH1 IH2]. split; [exact IH1|]. intros v. specialize (IH2 v).
          rewrite any_store_tuple.
          destruct (store_at impl y [SPayload] v) as [z|].
          * destruct IH2 as [IH2 IH3]. cbn [put]. rewrite IH2.
            destruct (any_store V (fs r) (snd st) [i] v) as [st'|]; [|congruence].
            cbn. split; [reflexivity|discriminate].
          * rewrite IH2. reflexivity.
        + specialize (IH i x H (snd st)).
          change (mvals ((x0, None) :: r) st) with (vopt (fst st) :: mvals r (snd st)).
          cbn [nth_error]. destruct (nth_error (mvals r (snd st)) i) as [y|]; [|exact IH].
          destruct IH as [IH1 IH2]. split; [exact IH1|]. intros v. specialize (IH2 v).
          rewrite any_store_simple.
          destruct (store_at impl y [SPayload] v) as [z|].
          * destruct IH2 as [IH2 IH3]. cbn [put]. rewrite IH2.
            destruct (any_store V (fs r) (snd st) [i] v) as [st'|]; [|congruence].
            cbn. split; [reflexivity|discriminate].
          * rewrite IH2. reflexivity. }
    intros i x H st. specialize (G flds i x H st). unfold mself.
    rewrite load_field. destruct (nth_error (mvals flds st) i) as [y|] eqn:En; [|contradiction].
    destruct G as [G1 G2]. split; [exact G1|]. intros v. rewrite store_field, En. specialize (G2 v).
    destruct (store_at impl y [SPayload] v).
    - destruct G2 as [-> _]. now destruct (any_store _ _ _ _ _).
    - now rewrite G2.
  Qed.

  Lemma place_tuple flds : forall i x t r, nth_error flds i = Some (x, Some t) ->
    same_place flds (i :: r) [SField (field_name i); SInto r].
  Proof.
    assert (G : forall flds i x t p, nth_error flds i = Some (x, Some t) -> forall st,
      match nth_error (mvals flds st) i with
      | Some y => load_at impl y [SInto p] = any_load V (fs flds) st (i :: p) /\
          forall v,
          match store_at impl y [SInto p] v with
          | Some z => put i z (mvals flds st) =
                        option_map (mvals flds) (any_store V (fs flds) st (i :: p) v) /\
                      any_store V (fs flds) st (i :: p) v <> None
          | None => any_store V (fs flds) st (i :: p) v = None end
      | None => False
      end).
    { clear flds. induction flds as [|[x0 o] r IH]; intros i x t p H st; [now destruct i|].
      destruct i as [|i].
      - cbn in H. injection H as -> ->.
        destruct st as [s0 st'].
        change (mvals ((x, Some t) :: r) (s0, st')) with (VForeign (XMap t s0) :: mvals r st').
        cbn [nth_error load_at store_at fs_of any_load any_store put fst snd]. split; [reflexivity|].
        intros v. unfold AnyRun.M.
        destruct (ms_store (ki_map (impl t) V) s0 p v) as [s|]; cbn.
        + split; [reflexivity|discriminate].
        + reflexivity.
      - cbn [nth_error] in H. destruct o as [t0|].
        + specialize (IH i x t p H (snd st)).
          change (mvals ((x0, Some t0) :: r) st) with (VForeign (XMap t0 (fst st)) :: mvals r (snd st)).
          cbn [nth_error]. destruct (nth_error (mvals r (snd st)) i) as [y|]; [|exact IH].
          destruct IH as [IH1 IH2]. split; [exact IH1|]. intros v. specialize (IH2 v).
          rewrite any_store_tuple.
          destruct (store_at impl y [SInto p] v) as [z|].
          * destruct IH2 as [IH2 IH3]. cbn [put]. rewrite IH2.
            destruct (any_store V (fs r) (snd st) (i :: p) v) as [st'|]; [|congruence].
            cbn. split; [reflexivity|discriminate].
          * rewrite IH2. reflexivity.
        + specialize (IH i x t p H (snd st)).
          change (mvals ((x0, None) :: r) st) with (vopt (fst st) :: mvals r (snd st)).
          cbn [nth_error]. destruct (nth_error (mvals r (snd st)) i) as [y|]; [|exact IH].
          destruct IH as [IH1 IH2]. split; [exact IH1|]. intros v. specialize (IH2 v).
          rewrite any_store_simple.
          destruct (store_at impl y [SInto p] v) as [z|].
          * destruct IH2 as [IH2 IH3]. cbn [put]. rewrite IH2.
            destruct (any_store V (fs r) (snd st) (i :: p) v) as [st'|]; [|congruence].
            cbn. split; [reflexivity|discriminate].
          * rewrite IH2. reflexivity. }
    intros i x t r H st. specialize (G flds i x t r H st). unfold mself.
    rewrite load_field. destruct (nth_error (mvals flds st) i) as [y|] eqn:En; [|contradiction].
    destruct G as [G1 G2]. split; [exact G1|]. intros v. rewrite store_field, En. specialize (G2 v).
    destruct (store_at impl y [SInto r] v).
    - destruct G2 as [-> _]. now destruct (any_store _ _ _ _ _).
    - now rewrite G2.
  Qed.
End Keys.
