(** The methods of the map storages generated for enums with tuple variants that do
    not make iterators. *)
Require Import List Arith NArith Bool String Lia.
Import ListNotations.
From Verif Require Import Std Traits OptionBucket MapStorages SetStorages Names Rust UnitCode RustFacts CodeSpec DeriveAny
  UnitCodeProofs AnyCode AnyRun AnyCodeSpec AnyCodeFacts AnyCodeKeys.
Open Scope string_scope.

Section Eval.
  Context {T : Type} {T_dec : forall a b : T, {a = b} + {a <> b}}
          {K : T -> Type} {impl : forall t, KeyImpl (K t)} {V S : Type}.
  Notation val := (val V (foreign impl V)).
  Notation rt := (rt V (foreign impl V) S).
  Notation M := (M impl (V := V)).
  Notation fs flds := (fs_of impl flds).
  Variable U : auser K V S.
  Variable flds0 : vfields T.
  Variable w : world.
  Variable call : string -> list val -> rt -> ctl V (foreign impl V) * rt.
  Variable fuel : nat.
  Notation E := (alinked T_dec impl U flds0 w).
  Notation ev := (eval (en_func E) (en_func2 E) (en_dropped E) (en_ext E) (en_ext_retain E) call fuel).
  Notation evl := (eval_list (en_func E) (en_func2 E) (en_dropped E) (en_ext E) (en_ext_retain E) call fuel).
  Notation eva := (eval_arms (en_func E) (en_func2 E) (en_dropped E) (en_ext E) (en_ext_retain E) call fuel).
  Notation XC := (ext_call T_dec impl (a_values U) w).
  Notation vopt := (vopt impl (V := V)).

  Lemma ev_by_simple x flds simple complex st i n :
    NoDup (List.map fst flds) -> nth_error flds i = Some (n, None) ->
    lookup x (rt_loc st) = Some (VEnum n) ->
    ev (by_variant x flds simple complex) st = ev (simple i) st.
  Proof.
    intros Hn Hi Hx. unfold by_variant. rewrite ev_match, ev_var, Hx. cbn [answer_of andthen].
    now rewrite (arm_simple U flds0 w call fuel (fun i _ => simple i) (fun i _ t => complex i t)
               "v" flds 0 i n st Hn Hi).
  Qed.

  Lemma ev_by_tuple x flds simple complex st i n t k :
    NoDup (List.map fst flds) -> nth_error flds i = Some (n, Some t) ->
    lookup x (rt_loc st) = Some (VEnumOf n k) ->
    ev (by_variant x flds simple complex) st = scoped [("v", k)] (ev (complex i t)) st.
  Proof.
    intros Hn Hi Hx. unfold by_variant. rewrite ev_match, ev_var, Hx. cbn [answer_of andthen].
    now rewrite (arm_tuple U flds0 w call fuel (fun i _ => simple i) (fun i _ t => complex i t)
               "v" flds 0 i n t k st Hn Hi).
  Qed.

  (** ** Pieces of code on options *)
  Lemma plains_nil {A} : plains (@nil (string * A)).
  Proof. constructor. Qed.
  Hint Resolve plains_nil : core.

  Lemma prim_is_some loc pre vs o e (s : S) i a : plains pre -> nth_error vs i = Some (vopt a) ->
    run_prim OptIsSome [VRef (field i)] (MkRt loc (strct pre vs) o e s) =
    (CVal (VBool (is_some a)), MkRt loc (strct pre vs) o e s).
  Proof. intros Hp H. cbn [run_prim]. rewrite read_field, H by exact Hp. now destruct a. Qed.

  Lemma prim_is_none loc pre vs o e (s : S) i a : plains pre -> nth_error vs i = Some (vopt a) ->
    run_prim OptIsNone [VRef (field i)] (MkRt loc (strct pre vs) o e s) =
    (CVal (VBool (is_none a)), MkRt loc (strct pre vs) o e s).
  Proof. intros Hp H. cbn [run_prim]. rewrite read_field, H by exact Hp. now destruct a. Qed.

  Definition ref_to (i : nat) (a : option V) : val :=
    match a with Some _ => VSome (VRef (payload i)) | None => VNone end.

  Lemma prim_as_ref loc pre vs o e (s : S) i a : plains pre -> nth_error vs i = Some (vopt a) ->
    run_prim OptAsRef [VRef (field i)] (MkRt loc (strct pre vs) o e s) =
    (CVal (ref_to i a), MkRt loc (strct pre vs) o e s).
  Proof.
    intros Hp H. cbn [run_prim]. unfold opt_ref. rewrite read_field, H by exact Hp.
    now destruct a.
  Qed.

  Lemma prim_as_mut loc pre vs o e (s : S) i a : plains pre -> nth_error vs i = Some (vopt a) ->
    run_prim OptAsMut [VRef (field i)] (MkRt loc (strct pre vs) o e s) =
    (CVal (ref_to i a), MkRt loc (strct pre vs) o e s).
  Proof. exact (prim_as_ref loc pre vs o e s i a). Qed.

  Lemma swap_field loc pre (vs : list val) vs' o e (s : S) i a b : plains pre -> nth_error vs i = Some a ->
    put i b vs = Some vs' ->
    swap (MkRt loc (strct pre vs) o e s) (field i) b = (CVal a, MkRt loc (strct pre vs') o e s).
  Proof.
    intros Hp H P. unfold swap. rewrite read_field, H by exact Hp.
    rewrite (write_field _ _ _ vs') by assumption. reflexivity.
  Qed.

  (** ** Calls of the storages of tuple variants *)

  Lemma with_map_at loc pre (vs : list val) o e (s : S) i t a f : plains pre ->
    nth_error vs i = Some (VForeign (XMap t a)) ->
    with_map T_dec impl t (field i) (MkRt loc (strct pre vs) o e s) f =
    (f a, MkRt loc (strct pre vs) o e s).
  Proof.
    intros Hp H. unfold with_map. rewrite read_field, H by exact Hp.
    now rewrite as_map_same.
  Qed.

  Lemma on_map_at loc pre (vs : list val) vs' o e (s : S) i t a f : plains pre ->
    nth_error vs i = Some (VForeign (XMap t a)) ->
    put i (VForeign (XMap t (snd (f a)))) vs = Some vs' ->
    on_map T_dec impl t (field i) (MkRt loc (strct pre vs) o e s) f =
    (fst (f a), MkRt loc (strct pre vs') o e s).
  Proof.
    intros Hp H P. unfold on_map. rewrite read_field, H by exact Hp.
    rewrite as_map_same. destruct (f a) as [c b]. cbn [fst snd] in *.
    now rewrite (write_field _ _ _ vs') by assumption.
  Qed.

  Lemma with_key_same t k (st : rt) f :
    with_key T_dec impl t (VForeign (XKey t k)) st f = f k.
  Proof. unfold with_key. now rewrite as_key_same. Qed.
End Eval.

Ltac plains_tac := first [apply plains_nil | assumption].

(** Evaluates straight-line code. *)
Ltac run :=
  repeat (rewrite ?out_body, ?out_scoped, ?with_loc_mk, ?ev_call1, ?ev_call2, ?ev_my, ?ev_var,
            ?ev_ext0, ?ev_ext1, ?ev_ext2, ?ev_ext3;
          cbn [andthen answer_of rt_loc rt_self rt_other rt_lent rt_user app lookup List.combine
               String.eqb Ascii.eqb Bool.eqb ext_call]).

Section Map.
  Context {T : Type} {T_dec : forall a b : T, {a = b} + {a <> b}}
          {K : T -> Type} {impl : forall t, KeyImpl (K t)} {V S : Type}.
  Notation val := (val V (foreign impl V)).
  Notation M := (M impl (V := V)).
  Notation fs flds := (fs_of impl flds).
  Variable U : auser K V S.
  Variable flds : vfields T.
  Hypothesis names : NoDup (List.map fst flds).
  Notation w := (fun (_ : list nat) (_ : nat) => @nil nat).
  Notation E := (alinked T_dec impl U flds w).
  Notation C := (any_map_code flds).
  Notation m := (any_map_storage V (fs flds)).
  Notation ms := (mself (impl := impl) (V := V) flds).
  Notation step := (do_task T_dec impl U flds).
  Notation model := (model_task impl U flds).

  Definition agrees (q : task (R_of flds) (skey K) V) : Prop := forall s st,
    step q s (ms st) = let '(s', st', a) := model q s st in (s', ms st', a).

  Lemma out_mk c l a b d (s : S) :
    out (V := V) (X := foreign impl V) (c, MkRt l a b d s) = (c, a, s).
  Proof. reflexivity. Qed.

  Ltac start k :=
    intros s st; unfold do_task, model_task, call_on;
    erewrite invoke_eq by reflexivity; unfold eval_in;
    destruct (map_key (impl := impl) (V := V) flds k) as
      [(i & x & ge & pu & H)|(i & x & t & k' & ge & pu & occ & vac & inj & H)];
    [rewrite (sa_key _ _ _ _ _ _ H) in * | rewrite (ta_key _ _ _ _ _ _ _ _ _ _ _ H) in *];
    cbn [kval List.combine];
    [erewrite ev_by_simple by (try exact names; try (exact (sa_fld _ _ _ _ _ _ H)); reflexivity)
    |erewrite ev_by_tuple by
       (try exact names; try (exact (ta_fld _ _ _ _ _ _ _ _ _ _ _ H)); reflexivity)];
    run; try rewrite with_key_same; unfold mself.

  Lemma insert_agrees k v : agrees (TInsert k v).
  Proof.
    start k.
    - cbn [run_prim]. erewrite swap_field;
        [|plains_tac|apply (sa_get _ _ _ _ _ _ H)|apply (sa_put _ _ _ _ _ _ H st (Some v))].
      rewrite out_mk. cbn [ms_insert any_map_storage]. rewrite (sa_insert _ _ _ _ _ _ H).
      now destruct (ge st).
    - erewrite on_map_at;
        [|plains_tac|apply (ta_get _ _ _ _ _ _ _ _ _ _ _ H)|apply (ta_put _ _ _ _ _ _ _ _ _ _ _ H)].
      cbn [ms_insert any_map_storage]. rewrite (ta_insert _ _ _ _ _ _ _ _ _ _ _ H).
      destruct (ms_insert (M t) (ge st) k' v) as [[o|] s']; reflexivity.
  Qed.

  Lemma load_payload (vs : list val) i v : nth_error vs i = Some (VSome (VUser v)) ->
    load_at impl (strct [] vs) [SField (field_name i); SPayload] = Some v.
  Proof. intros H. rewrite load_field, H. reflexivity. Qed.

  Lemma reply_ref (self : val) i a :
    (forall v, a = Some v -> load_at impl self [SField (field_name i); SPayload] = Some v) ->
    reply_of impl self (CVal (ref_to i a)) = ROpt a.
  Proof.
    intros H. destruct a as [v|]; [|reflexivity]. unfold ref_to, payload, reply_of, value_of. now rewrite (H v).
  Qed.

  Lemma reply_vopt (self : val) a : reply_of impl self (CVal (vopt impl a)) = ROpt a.
  Proof. now destruct a. Qed.

  Lemma assigned_same r p st v : same_place (impl := impl) (V := V) flds r p ->
    assigned impl v (ms st) (VRef (MkPlace BSelf p)) =
    let '(st', a) := put_at impl flds st r v in (ms st', a).
  Proof.
    intros H. destruct (H st) as [_ H2]. unfold assigned. rewrite H2. unfold put_at.
    cbn [ms_store any_map_storage]. now destruct (any_store V (fs flds) st r v).
  Qed.

  Lemma contains_agrees k : agrees (TContains k).
  Proof.
    start k.
    - erewrite prim_is_some; [|plains_tac|apply (sa_get _ _ _ _ _ _ H)].
      rewrite out_mk. cbn [ms_contains_key any_map_storage]. now rewrite (sa_contains _ _ _ _ _ _ H).
    - erewrite with_map_at; [|plains_tac|apply (ta_get _ _ _ _ _ _ _ _ _ _ _ H)].
      rewrite out_mk. cbn [ms_contains_key any_map_storage].
      now rewrite (ta_contains _ _ _ _ _ _ _ _ _ _ _ H).
  Qed.

  Lemma get_agrees k : agrees (TGet k).
  Proof.
    start k.
    - erewrite prim_as_ref; [|plains_tac|apply (sa_get _ _ _ _ _ _ H)].
      rewrite out_mk. cbn [ms_get any_map_storage]. rewrite (sa_any_get _ _ _ _ _ _ H).
      assert (G : reply_of impl (strct [] (mvals flds st)) (CVal (ref_to i (ge st))) = ROpt (ge st)).
      { apply reply_ref. intros v Hv. apply load_payload. rewrite (sa_get _ _ _ _ _ _ H), Hv.
        reflexivity. }
      destruct (ge st); cbn [ref_to] in *; now rewrite G.
    - erewrite with_map_at; [|plains_tac|apply (ta_get _ _ _ _ _ _ _ _ _ _ _ H)].
      rewrite out_mk. cbn [ms_get any_map_storage]. rewrite (ta_any_get _ _ _ _ _ _ _ _ _ _ _ H).
      now destruct (ms_get (M t) (ge st) k').
  Qed.

  Lemma remove_agrees k : agrees (TRemove k).
  Proof.
    start k.
    - cbn [run_prim]. erewrite swap_field;
        [|plains_tac|apply (sa_get _ _ _ _ _ _ H)|apply (sa_put _ _ _ _ _ _ H st None)].
      rewrite out_mk. cbn [ms_remove any_map_storage]. rewrite (sa_remove _ _ _ _ _ _ H).
      now destruct (ge st).
    - erewrite on_map_at;
        [|plains_tac|apply (ta_get _ _ _ _ _ _ _ _ _ _ _ H)|apply (ta_put _ _ _ _ _ _ _ _ _ _ _ H)].
      cbn [ms_remove any_map_storage]. rewrite (ta_remove _ _ _ _ _ _ _ _ _ _ _ H).
      destruct (ms_remove (M t) (ge st) k') as [[o|] s']; reflexivity.
  Qed.

  Lemma set_agrees k v : agrees (TSet k v).
  Proof.
    start k.
    - erewrite prim_as_mut; [|plains_tac|apply (sa_get _ _ _ _ _ _ H)].
      rewrite out_mk. cbn [ms_get_mut any_map_storage]. rewrite (sa_get_mut _ _ _ _ _ _ H).
      pose proof (assigned_same [i] _ st v
        (place_simple (impl := impl) flds i x (sa_fld _ _ _ _ _ _ H))) as A. unfold mself in A.
      destruct (ge st); cbn [ref_to opt_as_mut]; [|reflexivity].
      unfold payload. rewrite A. now destruct (put_at impl flds st [i] v).
    - erewrite with_map_at; [|plains_tac|apply (ta_get _ _ _ _ _ _ _ _ _ _ _ H)].
      rewrite out_mk. cbn [ms_get_mut any_map_storage]. rewrite (ta_get_mut _ _ _ _ _ _ _ _ _ _ _ H).
      destruct (ms_get_mut (M t) (ge st) k') as [r|]; [|reflexivity]. cbn [option_map].
      pose proof (assigned_same (i :: r) _ st v
        (place_tuple (impl := impl) flds i x t r (ta_fld _ _ _ _ _ _ _ _ _ _ _ H))) as A.
      unfold mself in A. unfold vref, inside, field. cbn [pl_base pl_steps app].
      rewrite A. now destruct (put_at impl flds st (i :: r) v).
  Qed.

  (** ** Entries *)

  Lemma invoke_entry_eq {Meth} (En : env V (foreign impl V) S Meth) Co n ps body args e self s :
    lookup n (cd_methods Co) = Some (ps, body) -> List.length ps = List.length args ->
    invoke_entry En Co n args e self s =
    out (as_body (eval_in En (cd_helpers Co) body (MkRt (List.combine ps args) self VUnit e s))).
  Proof.
    intros H L. unfold invoke_entry, by_name. rewrite H. unfold run_fn. cbn [fst snd].
    apply Nat.eqb_eq in L. rewrite L. cbn [with_loc rt_self rt_other rt_lent rt_user].
    destruct (eval_in _ _ _ _) as [[] st]; reflexivity.
  Qed.

  Definition simple_entry (x : string) (i : nat) : val :=
    VEnumOf "Simple" (VStruct [("key", VEnum x); ("inner", VRef (field i))]).

  Lemma entry_simple k i x ge pu s st : simple_at (impl := impl) (V := V) flds k i x ge pu ->
    invoke E C "entry" [kval impl (written flds k)] (ms st) VUnit s =
    (CVal (VEnumOf (if is_some (ge st) then "Occupied" else "Vacant") (simple_entry x i)),
     ms st, s).
  Proof.
    intros H. erewrite invoke_eq by reflexivity. unfold eval_in. rewrite (sa_key _ _ _ _ _ _ H).
    cbn [kval List.combine]. rewrite ev_match. run.
    rewrite (arm_simple _ _ _ _ _ _ _ "key" flds 0 i x _ names (sa_fld _ _ _ _ _ _ H)).
    cbn [Nat.add xs_of]. rewrite ev_ecall, evl_cons. run. rewrite evl_cons. run. rewrite evl_nil.
    cbn [List.rev app]. unfold by_name. cbn [any_map_code cd_helpers lookup String.eqb Ascii.eqb Bool.eqb].
    unfold run_fn, any_option_to_entry_fn. cbn [fst snd List.length Nat.eqb List.combine].
    rewrite ev_match. run. cbn [run_prim]. unfold mself.
    rewrite read_field by apply plains_nil. rewrite (sa_get _ _ _ _ _ _ H).
    destruct (ge st) as [v|]; cbn; reflexivity.
  Qed.

  Lemma entry_tuple k i x t k' ge pu occ vac inj s st :
    tuple_at (impl := impl) (V := V) flds k i x t k' ge pu occ vac inj ->
    invoke E C "entry" [kval impl (written flds k)] (ms st) VUnit s =
    (match ms_entry (M t) (ge st) k' with
     | Ok (Occupied o) => CVal (VEnumOf "Occupied" (VEnumOf (field_name i) (VForeign (XOcc t (field i) o))))
     | Ok (Vacant o) => CVal (VEnumOf "Vacant" (VEnumOf (field_name i) (VForeign (XVac t (field i) o))))
     | _ => CStuck
     end, ms st, s).
  Proof.
    intros H. erewrite invoke_eq by reflexivity. unfold eval_in.
    rewrite (ta_key _ _ _ _ _ _ _ _ _ _ _ H).
    cbn [kval List.combine]. rewrite ev_match. run.
    rewrite (arm_tuple _ _ _ _ _ _ _ "key" flds 0 i x t _ _ names (ta_fld _ _ _ _ _ _ _ _ _ _ _ H)).
    cbn [Nat.add]. run. rewrite ev_match. run. rewrite with_key_same. unfold mself.
    erewrite with_map_at; [|plains_tac|apply (ta_get _ _ _ _ _ _ _ _ _ _ _ H)].
    destruct (ms_entry (M t) (ge st) k') as [[o|o]| | |]; reflexivity.
  Qed.

  Lemma arm_entry fuel' cl (c : nat -> string -> T -> expr (meth T)) fl : forall j i n t v st,
    nth_error fl i = Some (n, Some t) ->
    eval_arms (en_func E) (en_func2 E) (en_dropped E) (en_ext E) (en_ext_retain E) cl fuel'
      (arms_of (List.concat (each (fun _ _ => [])
         (fun i n t => [(PVariantOf (field_name i) "entry", c i n t)]) j fl)))
      (VEnumOf (field_name (j + i)) v) st =
    scoped [("entry", v)]
      (eval (en_func E) (en_func2 E) (en_dropped E) (en_ext E) (en_ext_retain E) cl fuel'
         (c (j + i)%nat n t)) st.
  Proof.
    induction fl as [|[n0 [t0|]] r IH]; intros j i n t v st H; [now destruct i| |].
    - destruct i as [|i].
      + cbn in H. injection H as -> ->. cbn [each List.concat app arms_of].
        rewrite eva_cons. cbn [match_pat]. rewrite Nat.add_0_r, String.eqb_refl. reflexivity.
      + cbn [nth_error] in H. cbn [each List.concat app arms_of]. rewrite eva_cons. cbn [match_pat].
        destruct (String.eqb_spec (field_name j) (field_name (j + Datatypes.S i))) as [Ef|_].
        * apply field_name_inj in Ef. lia.
        * replace (j + Datatypes.S i)%nat with (Datatypes.S j + i)%nat by lia. now apply IH.
    - destruct i as [|i]; [discriminate|].
      cbn [nth_error] in H. cbn [each List.concat app arms_of].
      replace (j + Datatypes.S i)%nat with (Datatypes.S j + i)%nat by lia. now apply IH.
  Qed.

  Lemma ev_base' (f1 : S -> val -> S * option bool) f2 f3 f4 f5 cl fu b st :
    eval f1 f2 f3 f4 f5 cl fu (EBase (Meth := meth T) b) st = (CVal (base_of st b), st).
  Proof. reflexivity. Qed.

  (** An entry of a unit variant. *)
  Lemma on_simple n args ps sb cb x i s self cont : 
    lookup n (cd_methods (any_entry_code flds)) = Some (ps, match_entry flds sb cb) ->
    List.length ps = List.length args ->
    on_entry T_dec impl U flds n args (simple_entry x i) cont s self =
    match out (as_body (eval_in E (cd_helpers (any_entry_code flds)) sb
            (MkRt (("entry", VStruct [("key", VEnum x); ("inner", VRef (field i))])
                   :: List.combine ps args) self VUnit (simple_entry x i) s))) with
    | (CVal v, self', s') => let '(self2, a) := cont self' v in (s', self2, a)
    | (_, self', s') => (s', self', RBad)
    end.
  Proof.
    intros H L. unfold on_entry. erewrite invoke_entry_eq by eassumption. unfold eval_in.
    unfold match_entry. rewrite ev_match, ev_base'. cbn [andthen base_of rt_lent arms_of].
    rewrite eva_cons. unfold simple_entry at 1. cbn [match_pat].
    change (String.eqb "Simple" "Simple") with true. cbn iota.
    rewrite out_body, out_scoped, with_loc_mk. cbn [rt_loc app]. rewrite out_body. reflexivity.
  Qed.

  (** An entry of a tuple variant. *)
  Lemma on_tuple n args ps sb cb x t i e s self cont :
    nth_error flds i = Some (x, Some t) ->
    lookup n (cd_methods (any_entry_code flds)) = Some (ps, match_entry flds sb cb) ->
    List.length ps = List.length args ->
    on_entry T_dec impl U flds n args (VEnumOf (field_name i) e) cont s self =
    match out (as_body (eval_in E (cd_helpers (any_entry_code flds)) (cb i x t)
            (MkRt (("entry", e) :: List.combine ps args) self VUnit (VEnumOf (field_name i) e) s))) with
    | (CVal v, self', s') => let '(self2, a) := cont self' v in (s', self2, a)
    | (_, self', s') => (s', self', RBad)
    end.
  Proof.
    intros Hi H L. unfold on_entry. erewrite invoke_entry_eq by eassumption. unfold eval_in.
    unfold match_entry. rewrite ev_match, ev_base'. cbn [andthen base_of rt_lent arms_of].
    rewrite eva_cons. cbn [match_pat]. rewrite plain_field by reflexivity.
    unfold each_tuple.
    rewrite (arm_entry _ _ cb flds 0 i x t e _ Hi).
    rewrite out_body, out_scoped, with_loc_mk. cbn [rt_loc app]. rewrite out_body. reflexivity.
  Qed.

  Lemma bucket_get k i x ge pu st : simple_at (impl := impl) (V := V) flds k i x ge pu ->
    any_entry V (fs flds) st k =
    Ok (if is_some (ge st) then Occupied (inl (MkKeyed k (MkSomeBucket [i])))
        else Vacant (inl (MkKeyed k (MkNoneBucket [i])))).
  Proof.
    intros H. unfold any_entry. rewrite (sa_entry _ _ _ _ _ _ H). cbn [Nat.add].
    unfold any_option_to_entry, option_bucket_new, some_new_unchecked, none_new_unchecked, cell_read.
    cbn [cell_get any_cells]. rewrite (sa_cell _ _ _ _ _ _ H).
    destruct (ge st); cbn; reflexivity.
  Qed.

  Lemma load_simple k i x ge pu st : simple_at (impl := impl) (V := V) flds k i x ge pu ->
    load_at impl (ms st) [SField (field_name i); SPayload] = ge st.
  Proof.
    intros H. unfold mself. rewrite load_field, (sa_get _ _ _ _ _ _ H). now destruct (ge st).
  Qed.

  Lemma any_load_simple k i x ge pu st : simple_at (impl := impl) (V := V) flds k i x ge pu ->
    any_load V (fs flds) st [i] = ge st.
  Proof.
    intros H. destruct (place_simple (impl := impl) (V := V) flds i x (sa_fld _ _ _ _ _ _ H) st) as [<- _].
    now apply (load_simple k i x ge pu).
  Qed.
End Map.
