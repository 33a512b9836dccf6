(** The methods of the set storages generated for enums with tuple variants. *)
Require Import List Arith NArith Bool String Lia.
Import ListNotations.
From Verif Require Import Std Traits OptionBucket MapStorages SetStorages Names Rust UnitCode RustFacts CodeSpec DeriveAny
  UnitCodeProofs AnyCode AnyRun AnyCodeSpec AnyCodeFacts AnyCodeKeys AnyCodeMap AnyCodeOps AnyCodeIter
  AnyCodeArms AnyCodeViews.
Open Scope string_scope.

Section Eval.
  Context {T : Type} {T_dec : forall a b : T, {a = b} + {a <> b}}
          {K : T -> Type} {impl : forall t, KeyImpl (K t)} {V S : Type}.
  Notation val := (val V (foreign impl V)).
  Notation rt := (rt V (foreign impl V) S).
  Notation N := (N impl).
  Notation fs flds := (fs_of impl flds).
  Notation svals := (svals (impl := impl) (V := V)).
  Variable U : auser K V S.
  Variable flds0 : vfields T.
  Variable w : world.
  Variable call : string -> list val -> rt -> ctl V (foreign impl V) * rt.
  Variable fuel : nat.
  Notation E := (alinked T_dec impl U flds0 w).
  Notation ev := (eval (en_func E) (en_func2 E) (en_dropped E) (en_ext E) (en_ext_retain E) call fuel).
  Notation evl := (eval_list (en_func E) (en_func2 E) (en_dropped E) (en_ext E) (en_ext_retain E) call fuel).

  Lemma with_set_at loc (vs : list val) o e (s : S) i t a f :
    nth_error vs i = Some (VForeign (XSet t a)) ->
    with_set T_dec impl t (field i) (MkRt loc (strct [] vs) o e s) f =
    (f a, MkRt loc (strct [] vs) o e s).
  Proof.
    intros H. unfold with_set. rewrite read_field, H by apply plains_nil.
    now rewrite as_set_same.
  Qed.

  Lemma on_set_at loc (vs : list val) vs' o e (s : S) i t a f :
    nth_error vs i = Some (VForeign (XSet t a)) ->
    put i (VForeign (XSet t (snd (f a)))) vs = Some vs' ->
    on_set T_dec impl t (field i) (MkRt loc (strct [] vs) o e s) f =
    (fst (f a), MkRt loc (strct [] vs') o e s).
  Proof.
    intros H P. unfold on_set. rewrite read_field, H by apply plains_nil.
    rewrite as_set_same. destruct (f a) as [c b]. cbn [fst snd] in *.
    now rewrite (write_field _ _ _ vs') by (try apply plains_nil; assumption).
  Qed.

  Lemma ev_field_at loc (vs : list val) o e (s : S) i a : nth_error vs i = Some a ->
    ev (EField BSelf (field_name i)) (MkRt loc (strct [] vs) o e s) =
    (CVal a, MkRt loc (strct [] vs) o e s).
  Proof.
    intros H. rewrite ev_field. fold (field i). rewrite read_field by apply plains_nil. now rewrite H.
  Qed.

  Variable loc : list (string * val).
  Variable o e : val.
  Notation R pvs flds st s := (MkRt loc (strct [] (pvs ++ svals flds st)%list) o e s).

  Lemma svals_simple x r st : svals ((x, None) :: r) st = VBool (fst st) :: svals r (snd st).
  Proof. reflexivity. Qed.
  Lemma svals_tuple x t r st :
    svals ((x, Some t) :: r) st = VForeign (XSet t (fst st)) :: svals r (snd st).
  Proof. reflexivity. Qed.

  Lemma sev_len flds : forall st (pvs : list val) s e0 n0,
    ev e0 (R pvs flds st s) = (CVal (VUsize n0), R pvs flds st s) ->
    ev (List.fold_left (call2 Add)
         (each (fun i _ => call1 UsizeFrom (EField BSelf (field_name i)))
               (fun i _ t => ext (SLen t) [my i]) (List.length pvs) flds) e0) (R pvs flds st s) =
    (CVal (VUsize (anys_len_from (fs flds) n0 st)), R pvs flds st s).
  Proof.
    induction flds as [|[x [t|]] r IH]; intros st pvs s e0 n0 H0; [exact H0| |].
    - cbn [each List.fold_left fs_of anys_len_from]. rewrite svals_tuple in *. rewrite <- snoc_app in *.
      rewrite <- (snoc_len (VForeign (XSet t (fst st)))).
      apply (IH (snd st)). rewrite ev_call2, H0. run.
      erewrite with_set_at; [reflexivity|rewrite snoc_app; apply nth_app].
    - cbn [each List.fold_left fs_of anys_len_from]. rewrite svals_simple in *. rewrite <- snoc_app in *.
      rewrite <- (snoc_len (VBool (fst st))).
      apply (IH (snd st)). rewrite ev_call2, H0. run.
      erewrite ev_field_at by (rewrite snoc_app; apply nth_app). reflexivity.
  Qed.

  Lemma sev_is_empty flds : forall st (pvs : list val) s e0 b0,
    ev e0 (R pvs flds st s) = (CVal (VBool b0), R pvs flds st s) ->
    ev (List.fold_left EAnd
         (each (fun i _ => call1 Not (EField BSelf (field_name i)))
               (fun i _ t => ext (SIsEmpty t) [my i]) (List.length pvs) flds) e0) (R pvs flds st s) =
    (CVal (VBool (anys_is_empty_from (fs flds) b0 st)), R pvs flds st s).
  Proof.
    induction flds as [|[x [t|]] r IH]; intros st pvs s e0 b0 H0; [exact H0| |].
    - cbn [each List.fold_left fs_of anys_is_empty_from]. rewrite svals_tuple in *. rewrite <- snoc_app in *.
      rewrite <- (snoc_len (VForeign (XSet t (fst st)))).
      apply (IH (snd st)). rewrite ev_and, H0. cbn [andthen]. destruct b0; [|reflexivity]. run.
      erewrite with_set_at; [reflexivity|rewrite snoc_app; apply nth_app].
    - cbn [each List.fold_left fs_of anys_is_empty_from]. rewrite svals_simple in *. rewrite <- snoc_app in *.
      rewrite <- (snoc_len (VBool (fst st))).
      apply (IH (snd st)). rewrite ev_and, H0. cbn [andthen]. destruct b0; [|reflexivity]. run.
      erewrite ev_field_at by (rewrite snoc_app; apply nth_app). reflexivity.
  Qed.

  Lemma store_flag (pvs : list val) a b rest s :
    store (en_dropped E) (field (List.length pvs)) (VBool b)
      (MkRt loc (strct [] (pvs ++ VBool a :: rest)%list) o e s) =
    (CVal VUnit, MkRt loc (strct [] (pvs ++ VBool b :: rest)%list) o e s).
  Proof.
    unfold store. rewrite read_field, nth_app by plains_tac.
    rewrite (write_field _ _ _ (pvs ++ VBool b :: rest)%list); [|plains_tac|apply put_app].
    reflexivity.
  Qed.

  Lemma sev_clear flds : forall st (pvs : list val) s,
    ev (seq_of (each (fun i _ => EAssignTo (my i) (EBool false))
                     (fun i _ t => ext (SClear t) [my i]) (List.length pvs) flds)) (R pvs flds st s) =
    (CVal VUnit, R pvs flds (anys_clear (fs flds) st) s).
  Proof.
    induction flds as [|[x [t|]] r IH]; intros st pvs s; [reflexivity| |]; destruct st as [a0 st].
    - cbn [each seq_of fs_of anys_clear]. rewrite ev_seq, svals_tuple. cbn [fst snd]. run.
      erewrite on_set_at; [|apply nth_app|apply put_app]. cbn [fst snd andthen].
      rewrite <- snoc_app, <- (snoc_len (VForeign (XSet t (ss_clear (N t) a0))) pvs), IH.
      rewrite svals_tuple. cbn [fst snd]. now rewrite snoc_app.
    - cbn [each seq_of fs_of anys_clear]. rewrite ev_seq, svals_simple, ev_assignto. cbn [fst snd].
      change (ev (EBool false)) with (fun st : rt => (CVal (VBool false : val), st)). cbn beta. run.
      rewrite store_flag. cbn [andthen].
      rewrite <- snoc_app, <- (snoc_len (VBool false) pvs), IH.
      rewrite svals_simple. cbn [fst snd]. now rewrite snoc_app.
  Qed.

  (** [retain]; [inj] are the keys of the fields. *)
  Hypothesis rets : forall t, retains (impl t).
  Notation keep := (a_keep_fn U flds0).

  Lemma func_at k s : en_func E s (kval impl k) = a_keep U s k.
  Proof. destruct k as [x|x t k]; reflexivity. Qed.

  Lemma set_closure x t (k : R_of flds0) k' st0 u :
    written (K := K) flds0 k = Holding x t k' ->
    match (fun ks st => if Nat.eqb (List.length ["k"]) (List.length ks)
        then as_body (scoped (List.combine ["k"] ks)
               (ev (EFunc (EVariantOf x (EVar "k")))) st)
        else (CStuck, st)) [VForeign (XKey t k')] (with_user st0 u) with
    | (CVal (VBool true), st') => (rt_user st', Keep)
    | (CVal (VBool false), st') => (rt_user st', Discard)
    | (_, st') => (rt_user st', Unwind)
    end = keep u k.
  Proof.
    intros H. unfold a_keep_fn. rewrite H. cbn [List.length Nat.eqb List.combine].
    unfold scoped. rewrite ev_func, ev_variantof. unfold with_user. run.
    change (VEnumOf x (VForeign (XKey t k'))) with (kval impl (Holding x t k') (V := V)).
    cbn [rt_user]. rewrite func_at.
    destruct (a_keep U u (Holding x t k')) as [u' [[|]|]]; reflexivity.
  Qed.

  Lemma anys_retain_tuple x t r (inj : R_of ((x, Some t) :: r) -> R_of flds0) s
    (a0 : ss_St (N t)) (st : any_set (fs r)) :
    anys_retain keep (fs ((x, Some t) :: r)) inj s (a0, st) =
    let '(s1, m1, oc) := ss_retain (N t) (fun s k => keep s (inj (inl k))) s a0 in
    match oc with
    | Unwound => (s1, (m1, st), Unwound)
    | Done =>
        let '(s2, r2, oc) := anys_retain keep (fs r) (fun k => inj (inr k)) s1 st in
        (s2, (m1, r2), oc)
    end.
  Proof.
    transitivity (
      match ss_retain (N t) (fun s k => keep s (inj (inl k))) s a0 with
      | (s1, o1, Unwound) => (s1, (o1, st), Unwound)
      | (s1, o1, Done) =>
          let '(s2, r, o) := anys_retain keep (fs r) (fun k => inj (inr k)) s1 st in
          (s2, (o1, r), o)
      end); [reflexivity|].
    now destruct (ss_retain (N t) (fun s k => keep s (inj (inl k))) s a0) as [[s1 m1] []].
  Qed.
  Lemma anys_retain_simple x r (inj : R_of ((x, None) :: r) -> R_of flds0) s
    (a0 : bool) (st : any_set (fs r)) :
    anys_retain keep (fs ((x, None) :: r)) inj s (a0, st) =
    let '(s1, m1, oc) := retain_flag keep s (inj (inl tt)) a0 in
    match oc with
    | Unwound => (s1, (m1, st), Unwound)
    | Done =>
        let '(s2, r2, oc) := anys_retain keep (fs r) (fun k => inj (inr k)) s1 st in
        (s2, (m1, r2), oc)
    end.
  Proof.
    transitivity (
      match retain_flag keep s (inj (inl tt)) a0 with
      | (s1, o1, Unwound) => (s1, (o1, st), Unwound)
      | (s1, o1, Done) =>
          let '(s2, r, o) := anys_retain keep (fs r) (fun k => inj (inr k)) s1 st in
          (s2, (o1, r), o)
      end); [reflexivity|].
    now destruct (retain_flag keep s (inj (inl tt)) a0) as [[s1 m1] []].
  Qed.

  Lemma sev_retain flds : forall (inj : R_of flds -> R_of flds0) st (pvs : list val) s,
    (forall k, written (K := K) flds0 (inj k) = written flds k) ->
    ev (seq_of (each
         (fun i n => EIf (EField BSelf (field_name i))
            (EAssignTo (my i) (EFunc (EVariant n))) EUnit)
         (fun i n t => EExtRetain (SRetain t) (my i) ["k"]
            (EFunc (EVariantOf n (EVar "k")))) (List.length pvs) flds))
       (R pvs flds st s) =
    let '(s', st', oc) := anys_retain keep (fs flds) inj s st in
    (ending oc, R pvs flds st' s').
  Proof.
    induction flds as [|[x [t|]] r IH]; intros inj st pvs s Hw; [reflexivity| |]; destruct st as [a0 st].
    - rewrite anys_retain_tuple. cbn [each seq_of]. rewrite ev_seq, svals_tuple, ev_extretain. cbn [fst snd]. run.
      unfold ext_retain.
      rewrite read_field, nth_app, as_set_same by plains_tac.
      unfold AnyRun.N at 1. rewrite (proj2 (rets t) S _ (fun s k => keep s (inj (inl k))));
        [|intros; apply (set_closure x t); apply (Hw (inl k))].
      cbn [rt_user]. change (ki_set (impl t)) with (N t).
      destruct (ss_retain (N t) (fun s k => keep s (inj (inl k))) s a0) as [[s1 m1] oc] eqn:Ec.
      rewrite (write_field _ _ _ (pvs ++ VForeign (XSet t m1) :: svals r st)%list);
        [|plains_tac|apply put_app].
      unfold with_user; destruct oc; cbn [andthen rt_loc rt_self rt_other rt_lent]; [|reflexivity].
      rewrite <- snoc_app, <- (snoc_len (VForeign (XSet t m1)) pvs).
      rewrite (IH (fun k => inj (inr k))) by (intros; apply (Hw (inr k))).
      destruct (anys_retain keep (fs r) (fun k => inj (inr k)) s1 st) as [[s2 st2] oc].
      rewrite svals_tuple. cbn [fst snd]. now rewrite snoc_app.
    - rewrite anys_retain_simple. cbn [each seq_of]. rewrite ev_seq, svals_simple, ev_if. cbn [fst snd].
      erewrite ev_field_at by apply nth_app. cbn [andthen].
      assert (G : (if a0 then ev (EAssignTo (my (List.length pvs)) (EFunc (EVariant x)))
            (MkRt loc (strct [] (pvs ++ VBool a0 :: svals r st)%list) o e s)
          else ev EUnit (MkRt loc (strct [] (pvs ++ VBool a0 :: svals r st)%list) o e s)) =
        let '(s1, a1, oc) := retain_flag keep s (inj (inl tt)) a0 in
        (ending oc, MkRt loc (strct [] (pvs ++ VBool a1 :: svals r st)%list) o e s1)).
      { destruct a0; [|reflexivity]. cbn [retain_flag].
        rewrite ev_assignto. run. rewrite ev_func.
        change (ev (EVariant x)) with (fun st : rt => (CVal (VEnum x : val), st)). cbn beta. run.
        change (VEnum x) with (kval impl (V := V) (Plain (K := K) x)).
        rewrite func_at. unfold a_keep_fn. rewrite (Hw (inl tt)). cbn [written].
        destruct (a_keep U s (Plain x)) as [s1 [[|]|]]; unfold with_user;
          cbn [andthen rt_loc rt_self rt_other rt_lent]; rewrite ?ev_my; cbn [andthen]; rewrite ?store_flag; reflexivity. }
      rewrite G. clear G.
      destruct (retain_flag keep s (inj (inl tt)) a0) as [[s1 a1] oc].
      destruct oc; cbn [andthen ending]; [|reflexivity].
      rewrite <- snoc_app, <- (snoc_len (VBool a1) pvs).
      rewrite (IH (fun k => inj (inr k))) by (intros; apply (Hw (inr k))).
      destruct (anys_retain keep (fs r) (fun k => inj (inr k)) s1 st) as [[s2 st2] oc].
      rewrite svals_simple. cbn [fst snd]. now rewrite snoc_app.
  Qed.

  Lemma sevl_empty flds : forall i acc k st,
    evl (xs_of (each (fun _ _ => EBool false) (fun i _ t => ext (SEmpty i t) []) i flds)) acc k st =
    k (List.rev acc ++ svals flds (anys_empty (fs flds) i w))%list st.
  Proof.
    induction flds as [|[x [t|]] r IH]; intros i acc k st.
    - cbn [each xs_of]. rewrite evl_nil. cbn. now rewrite app_nil_r.
    - cbn [each xs_of fs_of anys_empty]. rewrite evl_cons, ev_ext0.
      cbn [andthen ext_call]. rewrite IH. cbn [List.rev]. now rewrite snoc_app.
    - cbn [each xs_of fs_of anys_empty]. rewrite evl_cons.
      change (ev (EBool false) st) with (CVal (VBool false : val), st).
      cbn [andthen]. rewrite IH. cbn [List.rev]. now rewrite snoc_app.
  Qed.

  Lemma sevl_clone flds : forall st (pvs : list val) s acc k,
    evl (xs_of (List.map (fun f => ext MClone [ERefTo BSelf f])
          (List.map field_name (List.seq (List.length pvs) (List.length flds))))) acc k
      (R pvs flds st s) =
    k (List.rev acc ++ svals flds (anys_clone (fs flds) st))%list (R pvs flds st s).
  Proof.
    induction flds as [|[x [t|]] r IH]; intros st pvs s acc k.
    - change (k (List.rev acc) (R pvs [] st s) = k (List.rev acc ++ [])%list (R pvs [] st s)).
      now rewrite (app_nil_r (List.rev acc)).
    - destruct st as [a0 st].
      cbn [List.length List.seq List.map xs_of fs_of anys_clone].
      rewrite evl_cons, ev_ext1, ev_refto, !svals_tuple.
      cbn [andthen ext_call fst snd]. fold (field (List.length pvs)).
      rewrite read_field, nth_app by plains_tac. cbn [clone_val andthen].
      rewrite <- snoc_app, <- (snoc_len (VForeign (XSet t a0)) pvs).
      rewrite IH. cbn [List.rev]. now rewrite snoc_app.
    - destruct st as [a0 st].
      cbn [List.length List.seq List.map xs_of fs_of anys_clone].
      rewrite evl_cons, ev_ext1, ev_refto, !svals_simple.
      cbn [andthen ext_call fst snd]. fold (field (List.length pvs)).
      rewrite read_field, nth_app by plains_tac. cbn [clone_val andthen].
      rewrite <- snoc_app, <- (snoc_len (VBool a0) pvs).
      rewrite IH. cbn [List.rev]. now rewrite snoc_app.
  Qed.

  Lemma sev_eq flds : forall a b (pvs pws : list val) s, List.length pvs = List.length pws ->
    let R s := MkRt loc (strct [] (pvs ++ svals flds a)%list)
                 (strct [] (pws ++ svals flds b)%list) e s in
    ev (seq_of (List.map (fun f =>
          EIf (ext MNe [ERefTo BSelf f; ERefTo BOther f]) (EReturn (EBool false)) EUnit)
          (List.map field_name (List.seq (List.length pvs) (List.length flds))))) (R s) =
    (compared (Some (anys_eq (fs flds) a b)), R s).
  Proof.
    induction flds as [|[x [t|]] r IH]; intros a b pvs pws s L; [reflexivity| |];
      destruct a as [a0 a], b as [b0 b]; intros R.
    - cbn [List.length List.seq List.map seq_of fs_of anys_eq].
      rewrite ev_seq, ev_if, ev_ext2, ev_refto. cbn [andthen]. rewrite ev_refto.
      unfold R. rewrite !svals_tuple. cbn [andthen ext_call fst snd].
      fold (field (List.length pvs)). fold (other (List.length pvs)).
      rewrite read_field, nth_app by plains_tac. rewrite L, read_other, nth_app, <- L.
      cbn [ne_val]. rewrite as_set_same. cbn [andthen].
      change (ki_set (impl t)) with (N t).
      destruct (ss_eq (N t) a0 b0); cbn [negb]; [|reflexivity].
      change (ev EUnit) with (fun st : rt => (CVal (VUnit : val), st)). cbn [andthen].
      specialize (IH a b (pvs ++ [VForeign (XSet t a0)])%list (pws ++ [VForeign (XSet t b0)])%list s).
      rewrite !snoc_app, !snoc_len in IH. apply IH. lia.
    - cbn [List.length List.seq List.map seq_of fs_of anys_eq].
      rewrite ev_seq, ev_if, ev_ext2, ev_refto. cbn [andthen]. rewrite ev_refto.
      unfold R. rewrite !svals_simple. cbn [andthen ext_call fst snd].
      fold (field (List.length pvs)). fold (other (List.length pvs)).
      rewrite read_field, nth_app by plains_tac. rewrite L, read_other, nth_app, <- L.
      cbn [ne_val andthen].
      destruct (Bool.eqb a0 b0); cbn [negb]; [|reflexivity].
      change (ev EUnit) with (fun st : rt => (CVal (VUnit : val), st)). cbn [andthen].
      specialize (IH a b (pvs ++ [VBool a0])%list (pws ++ [VBool b0])%list s).
      rewrite !snoc_app, !snoc_len in IH. apply IH. lia.
  Qed.
End Eval.

Section Sets.
  Context {T : Type} {T_dec : forall a b : T, {a = b} + {a <> b}}
          {K : T -> Type} {impl : forall t, KeyImpl (K t)} {V S : Type}.
  Notation val := (val V (foreign impl V)).
  Notation N := (N impl).
  Notation fs flds := (fs_of impl flds).
  Variable U : auser K V S.
  Variable flds : vfields T.
  Notation E := (alinked T_dec impl U flds (fun _ _ => [])).
  Notation C := (any_set_code flds).
  Notation ss := (any_set_storage (fs flds)).
  Notation step := (do_set_task T_dec impl U flds).
  Notation model := (model_set_task impl U flds).
  Notation svals := (svals (impl := impl) (V := V)).
  Notation R0 := (R_of (K := K) flds).

  Definition sself (st : any_set (fs flds)) : val := strct [] (svals flds st).

  Definition set_agrees_on (q : set_task (R_of flds)) : Prop := forall s st,
    step q s (sself st) = let '(s', st', a) := model q s st in (s', sself st', a).
  Notation agrees := set_agrees_on.

  Section Keyed.
  Hypothesis names : NoDup (List.map fst flds).

  Ltac start k :=
    intros s st; unfold do_set_task, model_set_task, call_on;
    erewrite invoke_eq by reflexivity; unfold eval_in;
    destruct (set_key (impl := impl) (V := V) flds k) as
      [(i & x & ge & pu & H)|(i & x & t & k' & ge & pu & H)];
    [rewrite (ssa_key _ _ _ _ _ _ H) in * | rewrite (sta_key _ _ _ _ _ _ _ _ H) in *];
    cbn [kval List.combine];
    [erewrite ev_by_simple by (try exact names; try (exact (ssa_fld _ _ _ _ _ _ H)); reflexivity)
    |erewrite ev_by_tuple by
       (try exact names; try (exact (sta_fld _ _ _ _ _ _ _ _ H)); reflexivity)];
    run; try rewrite with_key_same; unfold sself.

  Lemma sinsert_agrees k : agrees (UInsert k).
  Proof.
    start k.
    - match goal with |- context [eval ?a ?b ?c ?d ?e ?f ?g (EBool true)] =>
        change (eval a b c d e f g (EBool true)) with
          (fun st : rt V (foreign impl V) S => (CVal (VBool true : val), st)) end. cbn beta. run.
      cbn [run_prim]. erewrite swap_field;
        [|plains_tac|apply (ssa_get _ _ _ _ _ _ H)|apply (ssa_put _ _ _ _ _ _ H st true)].
      cbn [andthen]. cbn [ss_insert any_set_storage]. rewrite (ssa_insert _ _ _ _ _ _ H). reflexivity.
    - erewrite on_set_at; [|apply (sta_get _ _ _ _ _ _ _ _ H)|apply (sta_put _ _ _ _ _ _ _ _ H)].
      cbn [ss_insert any_set_storage]. rewrite (sta_insert _ _ _ _ _ _ _ _ H).
      destruct (ss_insert (N t) (ge st) k') as [b s']; reflexivity.
  Qed.

  Lemma sremove_agrees k : agrees (URemove k).
  Proof.
    start k.
    - match goal with |- context [eval ?a ?b ?c ?d ?e ?f ?g (EBool false)] =>
        change (eval a b c d e f g (EBool false)) with
          (fun st : rt V (foreign impl V) S => (CVal (VBool false : val), st)) end. cbn beta. run.
      cbn [run_prim]. erewrite swap_field;
        [|plains_tac|apply (ssa_get _ _ _ _ _ _ H)|apply (ssa_put _ _ _ _ _ _ H st false)].
      cbn [andthen]. cbn [ss_remove any_set_storage]. rewrite (ssa_remove _ _ _ _ _ _ H). reflexivity.
    - erewrite on_set_at; [|apply (sta_get _ _ _ _ _ _ _ _ H)|apply (sta_put _ _ _ _ _ _ _ _ H)].
      cbn [ss_remove any_set_storage]. rewrite (sta_remove _ _ _ _ _ _ _ _ H).
      destruct (ss_remove (N t) (ge st) k') as [b s']; reflexivity.
  Qed.

  Lemma scontains_agrees k : agrees (UContains k).
  Proof.
    start k.
    - erewrite ev_field_at by apply (ssa_get _ _ _ _ _ _ H).
      cbn [ss_contains any_set_storage]. rewrite (ssa_contains _ _ _ _ _ _ H). reflexivity.
    - erewrite with_set_at by apply (sta_get _ _ _ _ _ _ _ _ H).
      cbn [ss_contains any_set_storage]. rewrite (sta_contains _ _ _ _ _ _ _ _ H). reflexivity.
  Qed.
  End Keyed.

  Lemma slen_agrees : agrees ULen.
  Proof.
    intros s st. unfold do_set_task, model_set_task, call_on. unfold sself.
    erewrite invoke_run; [|reflexivity|].
    2:{ intros. apply (sev_len U flds _ call fuel [] VUnit VUnit flds st [] s (EUsize 0) 0). reflexivity. }
    reflexivity.
  Qed.

  Lemma sis_empty_agrees : agrees UIsEmpty.
  Proof.
    intros s st. unfold do_set_task, model_set_task, call_on. unfold sself.
    erewrite invoke_run; [|reflexivity|].
    2:{ intros. apply (sev_is_empty U flds _ call fuel [] VUnit VUnit flds st [] s (EBool true) true).
        reflexivity. }
    reflexivity.
  Qed.

  Lemma sclear_agrees : agrees UClear.
  Proof.
    intros s st. unfold do_set_task, model_set_task, call_on. unfold sself.
    erewrite invoke_run; [|reflexivity|].
    2:{ intros. apply (sev_clear U flds _ call fuel [] VUnit VUnit flds st [] s). }
    reflexivity.
  Qed.

  Lemma sretain_agrees : (forall t, retains (impl t)) -> agrees URetain.
  Proof.
    intros rets s st. unfold do_set_task, model_set_task, call_on. unfold sself.
    erewrite invoke_run; [|reflexivity|].
    2:{ intros. apply (sev_retain U flds _ call fuel [] VUnit VUnit rets flds (fun k => k) st [] s).
        reflexivity. }
    cbn [ss_retain any_set_storage].
    now destruct (anys_retain (a_keep_fn U flds) (fs flds) (fun k => k) s st) as [[s' st'] []].
  Qed.

  Lemma svals_length st : List.length (svals flds st) = List.length flds.
  Proof. apply vals_length. Qed.

  Lemma sempty_agrees w s :
    invoke (alinked T_dec impl U flds w) C "empty" [] VUnit VUnit s =
    (CVal (sself (ss_empty ss w)), VUnit, s).
  Proof.
    erewrite invoke_run; [|reflexivity|].
    2:{ intros. rewrite ev_struct, sevl_empty. cbn [List.rev app].
        rewrite anames_length, svals_length, Nat.eqb_refl, strct_of by apply svals_length.
        reflexivity. }
    reflexivity.
  Qed.

  Lemma sclone_agrees : agrees UClone.
  Proof.
    intros s st. unfold do_set_task, model_set_task, reclone. unfold sself.
    erewrite invoke_run; [|reflexivity|].
    2:{ intros. rewrite ev_struct.
        apply (sevl_clone U flds _ call fuel [] VUnit VUnit flds st [] s []). }
    cbn [List.rev app].
    rewrite anames_length, svals_length, Nat.eqb_refl, strct_of by apply svals_length.
    reflexivity.
  Qed.

  Lemma seq_agrees a b s :
    (let '(c, a', s') := invoke E C "eq" [] (sself a) (sself b) s in
     (s', reply_of impl a' c)) = (s, RBool (ss_eq ss a b)).
  Proof.
    unfold sself.
    erewrite invoke_run; [|reflexivity|].
    2:{ intros. rewrite ev_seq. unfold anames, field_names.
        rewrite (sev_eq U flds _ call fuel [] VUnit flds a b [] [] s) by reflexivity.
        match goal with |- context [eval ?a ?b ?c ?d ?e ?f ?g (EBool true)] =>
          change (eval a b c d e f g (EBool true)) with
            (fun st : rt V (foreign impl V) S => (CVal (VBool true : val), st)) end. reflexivity. }
    cbn [ss_eq any_set_storage].
    now destruct (anys_eq (fs flds) a b).
  Qed.

  (** ** Iterators *)
  Variable st0 : any_set (fs flds).
  Notation self0 := (sself st0).
  Notation vs0 := (svals flds st0).
  Notation item := (fun k : R0 => (Some (written flds k), None)).

  Lemma start_flag i x (k : R0) (a : bool) : nth_error flds i = Some (x, None) ->
    nth_error vs0 i = Some (VBool a) ->
    exists v, flagrel (impl := impl) a v /\ forall call fuel loc o e u,
      eval (en_func E) (en_func2 E) (en_dropped E) (en_ext E) (en_ext_retain E) call fuel
        (EField BSelf (field_name i)) (MkRt loc self0 o e u) = (CVal v, MkRt loc self0 o e u).
  Proof.
    intros Hf H. exists (VBool a). split; [reflexivity|]. intros. unfold sself.
    now apply ev_field_at.
  Qed.

  Lemma set_iter_sound l s : exists it vs,
    invoke E C "iter" [] self0 VUnit s = (CVal it, self0, s) /\
    run_turns T_dec impl U flds KSetIter l it s = Some (vs, s) /\
    Forall2 (item_rel (shows self0 item))
      (take_turns (ss_Iter ss) true l (anys_iter (fs flds) st0)) vs.
  Proof.
    eapply (iterate_sound U flds _ KSetIter (siter_simple (T := R0)) siter_cx
      (fun i k => flagrel) (fun i t inj => itrel KSetIter t (field i))
      true) with (Cx := cx_set) (rsv := VBool) (rcv := fun t s => VForeign (XSet t s))
      (se := fun i _ => EField BSelf (field_name i)) (ce := fun i _ t => ext (MStart KSetIter t) [my i]).
    - intros i x k Hf Hk.
      assert (G : shows self0 item k (VEnum x)) by (unfold shows, show; cbn; now rewrite Hk).
      split; [|split].
      + apply (flag_arm_sound U flds _ k i x G).
      + intros b [= <-]. apply (flag_arm_sound U flds _ k i x G).
      + intros _ a v ->. exists (VBool a). split; reflexivity.
    - intros i x t inj Hf Hk.
      assert (G : forall e, shows self0 item (inj e) (out_val KSetIter x t (field i) e)).
      { intros e. unfold shows, show. cbn. now rewrite Hk. }
      split; [|split].
      + apply (complex_arm_sound U flds _ MNext KSetIter t (field i)
          (it_next (ss_Iter (N t))) i x inj); [left; auto|reflexivity|exact G].
      + intros b Hb. destruct (map_backs _ _ _ Hb) as (b0 & Hb0 & ->).
        apply (complex_arm_sound U flds _ MNextBack KSetIter t (field i) b0 i x inj);
          [right; auto|reflexivity|exact G].
      + intros _. apply (it_clone_sound U KSetIter t (field i)). intros a v ->. now exists a.
    - discriminate.
    - intros. apply map_back.
    - intros. now apply (start_flag i x k a).
    - intros i x t inj a Hf H. eexists. split; [reflexivity|].
      intros. rewrite ev_ext1, ev_my. cbn [andthen ext_call].
      rewrite read_field by apply plains_nil. rewrite H. cbn [start]. now rewrite as_set_same.
    - reflexivity.
    - reflexivity.
    - reflexivity.
  Qed.

  Lemma set_into_iter_sound l s : exists it vs,
    invoke E C "into_iter" [] self0 VUnit s = (CVal it, self0, s) /\
    run_turns T_dec impl U flds KSetIntoIter l it s = Some (vs, s) /\
    Forall2 (item_rel (shows self0 item))
      (take_turns (ss_IntoIter ss) true l (anys_into_iter (fs flds) st0)) vs.
  Proof.
    eapply (iterate_sound U flds _ KSetIntoIter (siter_simple (T := R0)) sinto_cx
      (fun i k => flagrel) (fun i t inj => itrel KSetIntoIter t (MkPlace BLent []))
      true) with (Cx := cx_set) (rsv := VBool) (rcv := fun t s => VForeign (XSet t s))
      (se := fun i _ => EField BSelf (field_name i))
      (ce := fun i _ t => ext (MStart KSetIntoIter t) [EField BSelf (field_name i)]).
    - intros i x k Hf Hk.
      assert (G : shows self0 item k (VEnum x)) by (unfold shows, show; cbn; now rewrite Hk).
      split; [|split].
      + apply (flag_arm_sound U flds _ k i x G).
      + intros b [= <-]. apply (flag_arm_sound U flds _ k i x G).
      + intros _ a v ->. exists (VBool a). split; reflexivity.
    - intros i x t inj Hf Hk.
      assert (G : forall e, shows self0 item (inj e) (out_val KSetIntoIter x t (MkPlace BLent []) e)).
      { intros e. unfold shows, show. cbn. now rewrite Hk. }
      split; [|split].
      + apply (complex_arm_sound U flds _ MNext KSetIntoIter t (MkPlace BLent [])
          (it_next (ss_IntoIter (N t))) i x inj); [left; auto|reflexivity|exact G].
      + intros b Hb. destruct (map_backs _ _ _ Hb) as (b0 & Hb0 & ->).
        apply (complex_arm_sound U flds _ MNextBack KSetIntoIter t (MkPlace BLent []) b0 i x inj);
          [right; auto|reflexivity|exact G].
      + intros _. apply (it_clone_sound U KSetIntoIter t (MkPlace BLent [])).
        intros a v ->. now exists a.
    - discriminate.
    - intros. apply map_back.
    - intros. now apply (start_flag i x k a).
    - intros i x t inj a Hf H. eexists. split; [reflexivity|].
      intros. rewrite ev_ext1. erewrite ev_field_at by exact H. cbn [andthen ext_call start].
      now rewrite as_set_same.
    - reflexivity.
    - reflexivity.
    - reflexivity.
  Qed.
End Sets.

Section Agree.
  Context {T : Type} {T_dec : forall a b : T, {a = b} + {a <> b}}
          {K : T -> Type} {impl : forall t, KeyImpl (K t)} {V S : Type}.
  Variable U : auser K V S.
  Variable flds : vfields T.

  Lemma siter_agrees b l : set_agrees_on (T_dec := T_dec) (impl := impl) U flds (UIter b l).
  Proof.
    intros s st. destruct b; cbn [do_set_task model_set_task].
    - destruct (set_into_iter_sound (T_dec := T_dec) U flds st l s) as (it & vs & H1 & H2 & H3).
      exact (iterate_shown U flds _ _ _ l s _ _ s it vs _ _ H1 H2 H3).
    - destruct (set_iter_sound (T_dec := T_dec) U flds st l s) as (it & vs & H1 & H2 & H3).
      exact (iterate_shown U flds _ _ _ l s _ _ s it vs _ _ H1 H2 H3).
  Qed.
End Agree.
