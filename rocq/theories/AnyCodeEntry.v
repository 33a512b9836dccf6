(** The entries of the map storages generated for enums with tuple variants. *)
Require Import List Arith NArith Bool String Lia.
Import ListNotations.
From Verif Require Import Std Traits OptionBucket MapStorages SetStorages Names Rust UnitCode RustFacts CodeSpec DeriveAny
  UnitCodeProofs AnyCode AnyRun AnyCodeSpec AnyCodeFacts AnyCodeKeys AnyCodeMap.
Open Scope string_scope.

Section Map.
  Context {T : Type} {T_dec : forall a b : T, {a = b} + {a <> b}}
          {K : T -> Type} {impl : forall t, KeyImpl (K t)} {V S : Type}.
  Notation val := (val V (foreign impl V)).
  Notation M := (M impl (V := V)).
  Notation fs flds := (fs_of impl flds).
  Variable U : auser K V S.
  Variable flds : vfields T.
  Hypothesis names : NoDup (List.map fst flds).
  Notation w := (fun (_ : list nat) (_ : nat) => @nil nat).
  Notation E := (alinked T_dec impl U flds w).
  Notation C := (any_map_code flds).
  Notation m := (any_map_storage V (fs flds)).
  Notation ms := (mself (impl := impl) (V := V) flds).
  Notation step := (do_task T_dec impl U flds).
  Notation model := (model_task impl U flds).


  Ltac open_simple :=
    erewrite on_simple by reflexivity;
    unfold eval_in; cbn [xs_of cd_helpers any_entry_code]; rewrite ?ev_ecall;
    repeat (rewrite ?evl_cons, ?evl_nil; run);
    cbn [List.rev app]; unfold by_name; cbn [simple_entry_fns lookup String.eqb Ascii.eqb Bool.eqb];
    unfold run_fn; cbn [fst snd List.length Nat.eqb List.combine];
    repeat (run; cbn [run_prim]).


  Lemma put_same {A} (a : A) l : forall i, nth_error l i = Some a -> put i a l = Some l.
  Proof.
    induction l as [|b l IH]; intros [|i] G; cbn in *; try discriminate.
    - congruence.
    - now rewrite IH.
  Qed.

  Section Bucket.
    Context {k : R_of (K := K) flds} {i : nat} {x : string} {ge : any_map V (fs flds) -> option V}
            {pu : any_map V (fs flds) -> option V -> any_map V (fs flds)}.
    Hypothesis H : simple_at (impl := impl) (V := V) flds k i x ge pu.
    Notation cs := (any_cells V (fs flds)).

    Lemma cell_read_at st : cell_read cs st [i] = Ok (ge st).
    Proof. unfold cell_read. cbn [cell_get any_cells]. now rewrite (sa_cell _ _ _ _ _ _ H). Qed.
    Lemma cell_write_at st o : cell_write cs st [i] o = Ok (pu st o).
    Proof. unfold cell_write. cbn [cell_set any_cells]. now rewrite (sa_cell_set _ _ _ _ _ _ H). Qed.

    Lemma b_ref st v : ge st = Some v -> some_as_ref cs st (MkSomeBucket [i]) = Ok v.
    Proof. intros G. unfold some_as_ref. cbn [sb_outer]. now rewrite cell_read_at, G. Qed.
    Lemma b_mut st v : ge st = Some v -> some_as_mut cs st (MkSomeBucket [i]) = Ok [i].
    Proof. intros G. unfold some_as_mut. cbn [sb_outer]. now rewrite cell_read_at, G. Qed.
    Lemma b_replace st v n : ge st = Some v ->
      some_replace cs st (MkSomeBucket [i]) n = Ok (v, pu st (Some n)).
    Proof.
      intros G. unfold some_replace. rewrite (b_mut st v G). cbn [res_bind].
      rewrite cell_read_at, G. cbn [res_bind unwrap_unchecked]. now rewrite cell_write_at.
    Qed.
    Lemma b_take st v : ge st = Some v ->
      some_take cs st (MkSomeBucket [i]) = Ok (v, pu st None).
    Proof.
      intros G. unfold some_take. cbn [sb_outer]. rewrite cell_read_at, G. cbn [res_bind].
      rewrite cell_write_at. reflexivity.
    Qed.
    Lemma b_insert st v : ge st = None ->
      none_insert cs st (MkNoneBucket [i]) v = Ok ([i], pu st (Some v)).
    Proof.
      intros G. unfold none_insert. cbn [nb_outer]. rewrite cell_read_at, G. cbn [res_bind].
      rewrite cell_write_at. cbn [res_bind]. rewrite cell_read_at, (sa_same _ _ _ _ _ _ H).
      reflexivity.
    Qed.

    Lemma read_some loc o e (s : S) st v : ge st = Some v ->
      read (MkRt loc (ms st) o e s) (field i) = Some (VSome (VUser v)).
    Proof.
      intros G. unfold mself. rewrite read_field by apply plains_nil.
      rewrite (sa_get _ _ _ _ _ _ H), G. reflexivity.
    Qed.
    Lemma read_none loc o e (s : S) st : ge st = None ->
      read (MkRt loc (ms st) o e s) (field i) = Some VNone.
    Proof.
      intros G. unfold mself. rewrite read_field by apply plains_nil.
      rewrite (sa_get _ _ _ _ _ _ H), G. reflexivity.
    Qed.
    Lemma write_cell loc o e (s : S) st a :
      write (MkRt loc (ms st) o e s) (field i) (vopt impl a) = Some (MkRt loc (ms (pu st a)) o e s).
    Proof.
      unfold mself. apply write_field; [apply plains_nil|apply (sa_put _ _ _ _ _ _ H)].
    Qed.
    Lemma swap_cell loc o e (s : S) st v n : ge st = Some v ->
      swap (MkRt loc (ms st) o e s) (inside (field i) SPayload) (VUser n) =
      (CVal (VUser v), MkRt loc (ms (pu st (Some n))) o e s).
    Proof.
      intros G. unfold swap. rewrite inside_field. unfold mself.
      assert (G2 : nth_error (mvals flds st) i = Some (VSome (VUser v))).
      { rewrite (sa_get _ _ _ _ _ _ H), G. reflexivity. }
      rewrite (read_payload _ _ _ _ _ _ _ _ plains_nil G2).
      rewrite (write_payload _ _ _ _ _ _ _ _ _ (VUser n) plains_nil G2
                 (sa_put _ _ _ _ _ _ H st (Some n))). reflexivity.
    Qed.
  End Bucket.

  Lemma entry_agrees k a : agrees (T_dec := T_dec) (impl := impl) U flds (TEntry k a).
  Proof.
    intros s st. unfold do_task, model_task, do_entry, of_entry. cbn [ms_entry any_map_storage].
    destruct (map_key (impl := impl) (V := V) flds k) as
      [(i & x & ge & pu & H)|(i & x & t & k' & ge & pu & occ & vac & inj & H)].
    - erewrite bucket_get by exact H.
      erewrite entry_simple by eassumption.
      pose proof (fun v => assigned_same flds [i] _ st v
        (place_simple (impl := impl) flds i x (sa_fld _ _ _ _ _ _ H))) as AS.
      destruct (ge st) as [v0|] eqn:Eg; cbn [is_some]; destruct a as [| |v|v|v|]; try reflexivity;
        open_simple; cbn [ms_occ_key ms_occ_get ms_occ_get_mut ms_occ_into_mut ms_occ_insert
          ms_occ_remove ms_vac_key ms_vac_insert any_map_storage any_occ_key any_occ_get
          any_occ_get_mut any_occ_into_mut any_occ_insert any_occ_remove any_vac_key any_vac_insert
          kb_inner kb_key].
      + cbn. rewrite (sa_key _ _ _ _ _ _ H). reflexivity.
      + rewrite (read_some H _ _ _ _ _ _ Eg), (b_ref H _ _ Eg).
        unfold out, its_value, value_of, field, inside. cbn [fst snd pl_base pl_steps app rt_self rt_user].
        rewrite (load_simple flds k i x ge pu st H), Eg. reflexivity.
      + rewrite (read_some H _ _ _ _ _ _ Eg), (b_mut H _ _ Eg).
        unfold out, field, inside. cbn [fst snd pl_base pl_steps app rt_self rt_user if_Ok].
        rewrite AS. now destruct (put_at _ _ _ _ _).
      + rewrite (read_some H _ _ _ _ _ _ Eg). change (@some_into_mut) with (@some_as_mut).
        rewrite (b_mut H _ _ Eg).
        unfold out, field, inside. cbn [fst snd pl_base pl_steps app rt_self rt_user if_Ok].
        rewrite AS. now destruct (put_at _ _ _ _ _).
      + rewrite (read_some H _ _ _ _ _ _ Eg), (swap_cell H _ _ _ _ _ _ _ Eg), (b_replace H _ _ _ Eg).
        reflexivity.
      + rewrite (read_some H _ _ _ _ _ _ Eg).
        pose proof (fun l o e => write_cell H l o e s st None) as W. cbn [vopt] in W. rewrite W.
        rewrite (b_take H _ _ Eg). reflexivity.
      + cbn. rewrite (sa_key _ _ _ _ _ _ H). reflexivity.
      + rewrite (read_none H _ _ _ _ _ Eg).
        pose proof (fun l o e => write_cell H l o e s st (Some v)) as W. cbn [vopt] in W. rewrite W.
        rewrite (b_insert H _ _ Eg). cbn [ms_load any_map_storage if_Ok fst snd].
        rewrite (any_load_simple flds k i x ge pu _ H).
        unfold as_body, out, its_value, value_of, field, inside. cbn [fst snd pl_base pl_steps app rt_self rt_user with_loc].
        rewrite (load_simple flds k i x ge pu _ H), (sa_same _ _ _ _ _ _ H). reflexivity.
    - unfold any_entry. rewrite (ta_entry _ _ _ _ _ _ _ _ _ _ _ H).
      erewrite entry_tuple by eassumption.
      pose proof (fun r v => assigned_same flds (i :: r) _ st v
        (place_tuple (impl := impl) flds i x t r (ta_fld _ _ _ _ _ _ _ _ _ _ _ H))) as AS.
      assert (RD : forall l o e (f : ms_St (M t) -> ctl V (foreign impl V)),
        with_map T_dec impl t (field i) (MkRt l (ms st) o e s) f = (f (ge st), MkRt l (ms st) o e s)).
      { intros. apply with_map_at; [apply plains_nil|apply (ta_get _ _ _ _ _ _ _ _ _ _ _ H)]. }
      assert (WR : forall l o e (f : ms_St (M t) -> ctl V (foreign impl V) * ms_St (M t)),
        on_map T_dec impl t (field i) (MkRt l (ms st) o e s) f =
        (fst (f (ge st)), MkRt l (ms (pu st (snd (f (ge st))))) o e s)).
      { intros. apply on_map_at with (a := ge st); [apply plains_nil|apply (ta_get _ _ _ _ _ _ _ _ _ _ _ H)|].
        apply (ta_put _ _ _ _ _ _ _ _ _ _ _ H). }
      assert (SAME : ms (pu st (ge st)) = ms st).
      { unfold mself. f_equal. pose proof (ta_put _ _ _ _ _ _ _ _ _ _ _ H st (ge st)) as P.
        rewrite (put_same _ _ _ (ta_get _ _ _ _ _ _ _ _ _ _ _ H st)) in P. congruence. }
      Ltac bad SAME := cbn; rewrite SAME; reflexivity.
      destruct (ms_entry (M t) (ge st) k') as [[e|e]| | |]; try reflexivity;
        destruct a as [| |v|v|v|]; try reflexivity; unfold res_map, res_bind;
        (erewrite on_tuple; [|exact (ta_fld _ _ _ _ _ _ _ _ _ _ _ H)|reflexivity|reflexivity]);
        unfold eval_in; rewrite ?ev_variantof; run; 
        try (rewrite (cast_same (fun t => ms_Occ (M t)))); try (rewrite (cast_same (fun t => ms_Vac (M t))));
        rewrite ?RD, ?WR;
        cbn [ms_occ_key ms_occ_get ms_occ_get_mut ms_occ_into_mut ms_occ_insert
          ms_occ_remove ms_vac_key ms_vac_insert any_map_storage any_occ_key any_occ_get
          any_occ_get_mut any_occ_into_mut any_occ_insert any_occ_remove any_vac_key any_vac_insert].
      + rewrite (ta_occ_key _ _ _ _ _ _ _ _ _ _ _ H).
        destruct (ms_occ_key (M t) (ge st) e); try reflexivity.
        cbn. rewrite (ta_inj _ _ _ _ _ _ _ _ _ _ _ H). reflexivity.
      + rewrite (ta_occ_get _ _ _ _ _ _ _ _ _ _ _ H).
        now destruct (ms_occ_get (M t) (ge st) e).
      + rewrite (ta_occ_get_mut _ _ _ _ _ _ _ _ _ _ _ H).
        destruct (ms_occ_get_mut (M t) (ge st) e); try reflexivity.
        unfold out, if_ok, if_Ok, res_map, res_bind, vref, field, inside. cbn [fst snd pl_base pl_steps app rt_self rt_user].
        rewrite AS. now destruct (put_at _ _ _ _ _).
      + rewrite (ta_occ_into_mut _ _ _ _ _ _ _ _ _ _ _ H).
        destruct (ms_occ_into_mut (M t) (ge st) e); try reflexivity.
        unfold out, if_ok, if_Ok, res_map, res_bind, vref, field, inside. cbn [fst snd pl_base pl_steps app rt_self rt_user].
        rewrite AS. now destruct (put_at _ _ _ _ _).
      + rewrite (ta_occ_insert _ _ _ _ _ _ _ _ _ _ _ H).
        destruct (ms_occ_insert (M t) (ge st) e v) as [[o s']| | |]; try reflexivity; bad SAME.
      + rewrite (ta_occ_remove _ _ _ _ _ _ _ _ _ _ _ H).
        destruct (ms_occ_remove (M t) (ge st) e) as [[o s']| | |]; try reflexivity; bad SAME.
      + rewrite (ta_vac_key _ _ _ _ _ _ _ _ _ _ _ H).
        cbn. rewrite (ta_inj _ _ _ _ _ _ _ _ _ _ _ H). reflexivity.
      + rewrite (ta_vac_insert _ _ _ _ _ _ _ _ _ _ _ H).
        destruct (ms_vac_insert (M t) (ge st) e v) as [[r s']| | |]; try bad SAME.
        unfold if_Ok, res_map, res_bind. cbn [fst snd ms_load any_map_storage].
        destruct (place_tuple (impl := impl) (V := V) flds i x t r (ta_fld _ _ _ _ _ _ _ _ _ _ _ H)
                    (pu st s')) as [PL _]. rewrite <- PL.
        unfold if_ok2, vref, out, its_value, value_of, field, inside.
        cbn [fst snd pl_base pl_steps app rt_self rt_user].
        now destruct (load_at impl (ms (pu st s')) [SField (field_name i); SInto r]).
  Qed.
End Map.
