(** The methods of the map storages generated for enums with tuple variants that go
    through all the fields. *)
Require Import List Arith NArith Bool String Lia.
Import ListNotations.
From Verif Require Import Std Traits OptionBucket MapStorages SetStorages Names Rust UnitCode RustFacts CodeSpec DeriveAny
  UnitCodeProofs AnyCode AnyRun AnyCodeSpec AnyCodeFacts AnyCodeKeys AnyCodeMap.
Open Scope string_scope.

Section Fields.
  Context {T : Type} {T_dec : forall a b : T, {a = b} + {a <> b}}
          {K : T -> Type} {impl : forall t, KeyImpl (K t)} {V S : Type}.
  Notation val := (val V (foreign impl V)).
  Notation rt := (rt V (foreign impl V) S).
  Notation M := (M impl (V := V)).
  Notation fs flds := (fs_of impl flds).
  Notation mvals := (mvals (impl := impl) (V := V)).
  Notation vopt := (vopt impl (V := V)).
  Variable U : auser K V S.
  Variable flds0 : vfields T.
  Variable w : world.
  Variable call : string -> list val -> rt -> ctl V (foreign impl V) * rt.
  Variable fuel : nat.
  Notation E := (alinked T_dec impl U flds0 w).
  Notation ev := (eval (en_func E) (en_func2 E) (en_dropped E) (en_ext E) (en_ext_retain E) call fuel).
  Notation evl := (eval_list (en_func E) (en_func2 E) (en_dropped E) (en_ext E) (en_ext_retain E) call fuel).

  Variable loc : list (string * val).
  Variable o e : val.

  (** A state whose [self] has the fields [pvs] and those of [st]. *)
  Notation R pvs flds st s := (MkRt loc (strct [] (pvs ++ mvals flds st)%list) o e s).

  Lemma mvals_simple x r st : mvals ((x, None) :: r) st = vopt (fst st) :: mvals r (snd st).
  Proof. reflexivity. Qed.
  Lemma mvals_tuple x t r st :
    mvals ((x, Some t) :: r) st = VForeign (XMap t (fst st)) :: mvals r (snd st).
  Proof. reflexivity. Qed.

  Lemma ev_len flds : forall st (pvs : list val) s e0 n0,
    ev e0 (R pvs flds st s) = (CVal (VUsize n0), R pvs flds st s) ->
    ev (List.fold_left (call2 Add)
         (each (fun i _ => call1 UsizeFrom (call1 OptIsSome (my i)))
               (fun i _ t => ext (MLen t) [my i]) (List.length pvs) flds) e0) (R pvs flds st s) =
    (CVal (VUsize (any_len_from V (fs flds) n0 st)), R pvs flds st s).
  Proof.
    induction flds as [|[x [t|]] r IH]; intros st pvs s e0 n0 H0; [exact H0| |].
    - cbn [each List.fold_left fs_of any_len_from]. rewrite mvals_tuple in *. rewrite <- snoc_app in *.
      rewrite <- (snoc_len (VForeign (XMap t (fst st)))).
      apply (IH (snd st)). rewrite ev_call2, H0. run.
      erewrite with_map_at; [reflexivity|plains_tac|rewrite snoc_app; apply nth_app].
    - cbn [each List.fold_left fs_of any_len_from]. rewrite mvals_simple in *. rewrite <- snoc_app in *.
      rewrite <- (snoc_len (vopt (fst st))).
      apply (IH (snd st)). rewrite ev_call2, H0. run.
      erewrite prim_is_some; [reflexivity|plains_tac|rewrite snoc_app; apply nth_app].
  Qed.

  Lemma ev_is_empty flds : forall st (pvs : list val) s e0 b0,
    ev e0 (R pvs flds st s) = (CVal (VBool b0), R pvs flds st s) ->
    ev (List.fold_left EAnd
         (each (fun i _ => call1 OptIsNone (my i))
               (fun i _ t => ext (MIsEmpty t) [my i]) (List.length pvs) flds) e0) (R pvs flds st s) =
    (CVal (VBool (any_is_empty_from V (fs flds) b0 st)), R pvs flds st s).
  Proof.
    induction flds as [|[x [t|]] r IH]; intros st pvs s e0 b0 H0; [exact H0| |].
    - cbn [each List.fold_left fs_of any_is_empty_from]. rewrite mvals_tuple in *. rewrite <- snoc_app in *.
      rewrite <- (snoc_len (VForeign (XMap t (fst st)))).
      apply (IH (snd st)). rewrite ev_and, H0. cbn [andthen]. destruct b0; [|reflexivity]. run.
      erewrite with_map_at; [reflexivity|plains_tac|rewrite snoc_app; apply nth_app].
    - cbn [each List.fold_left fs_of any_is_empty_from]. rewrite mvals_simple in *. rewrite <- snoc_app in *.
      rewrite <- (snoc_len (vopt (fst st))).
      apply (IH (snd st)). rewrite ev_and, H0. cbn [andthen]. destruct b0; [|reflexivity]. run.
      erewrite prim_is_none; [reflexivity|plains_tac|rewrite snoc_app; apply nth_app].
  Qed.

  Definition ending (oc : outcome) : ctl V (foreign impl V) :=
    match oc with Done => CVal VUnit | Unwound => CUnwound end.

  Lemma store_cell (pvs : list val) a rest s :
    store (en_dropped E) (field (List.length pvs)) VNone
      (MkRt loc (strct [] (pvs ++ vopt a :: rest)%list) o e s) =
    let '(s', a', oc) := drop_cell (vf_drop (a_values U)) s a in
    (ending oc, MkRt loc (strct [] (pvs ++ vopt a' :: rest)%list) o e s').
  Proof.
    unfold store. rewrite read_field, nth_app by plains_tac.
    rewrite (write_field _ _ _ (pvs ++ VNone :: rest)%list); [|plains_tac|apply put_app].
    cbn [rt_user en_dropped alinked].
    destruct a as [v|]; cbn; [|reflexivity].
    destruct (vf_drop (a_values U) s v) as [s' []]; reflexivity.
  Qed.

  Lemma ev_clear flds : forall st (pvs : list val) s,
    ev (seq_of (each (fun i _ => EAssignTo (my i) ENone)
                     (fun i _ t => ext (MClear t) [my i]) (List.length pvs) flds)) (R pvs flds st s) =
    let '(s', st', oc) := any_clear_drop V (vf_drop (a_values U)) (fs flds) s st in
    (ending oc, R pvs flds st' s').
  Proof.
    induction flds as [|[x [t|]] r IH]; intros st pvs s; [reflexivity| |]; destruct st as [a0 st].
    - cbn [each seq_of fs_of any_clear_drop]. rewrite ev_seq, mvals_tuple. cbn [fst snd]. run.
      rewrite read_field, nth_app, as_map_same by plains_tac.
      change (ki_map (impl t) V) with (M t).
      destruct (ms_clear_drop (M t) (vf_drop (a_values U)) s a0) as [[s1 m1] oc] eqn:Ec.
      rewrite (write_field _ _ _ (pvs ++ VForeign (XMap t m1) :: mvals r st)%list);
        [|plains_tac|apply put_app].
      unfold with_user; destruct oc; cbn [andthen rt_loc rt_self rt_other rt_lent]; [|reflexivity].
      rewrite <- snoc_app, <- (snoc_len (VForeign (XMap t m1)) pvs), IH.
      destruct (any_clear_drop V (vf_drop (a_values U)) (fs r) s1 st) as [[s2 st2] oc].
      rewrite mvals_tuple. cbn [fst snd]. now rewrite snoc_app.
    - cbn [each seq_of fs_of any_clear_drop]. rewrite ev_seq, mvals_simple, ev_assignto. cbn [fst snd].
      change (ev ENone) with (fun st : rt => (CVal (VNone : val), st)). cbn beta. run.
      rewrite store_cell.
      destruct (drop_cell (vf_drop (a_values U)) s a0) as [[s1 a1] oc] eqn:Ec.
      destruct oc; cbn [andthen ending]; [|reflexivity].
      rewrite <- snoc_app, <- (snoc_len (vopt a1) pvs), IH.
      destruct (any_clear_drop V (vf_drop (a_values U)) (fs r) s1 st) as [[s2 st2] oc].
      rewrite mvals_simple. cbn [fst snd]. now rewrite snoc_app.
  Qed.

  (** [retain]; [inj] are the keys of the fields. *)
  Hypothesis rets : forall t, retains (impl t).
  Notation keep := (a_keep2_fn U flds0).

  Lemma func2_at k v s : en_func2 E s (kval impl k) v = a_keep2 U s k v.
  Proof. destruct k as [x|x t k]; reflexivity. Qed.

  Lemma retain_closure x t (k : R_of flds0) k' st0 u v :
    written (K := K) flds0 k = Holding x t k' ->
    answer_in impl (a_values U) st0 v
      ((fun ks st => if Nat.eqb (List.length ["k"; "v"]) (List.length ks)
        then as_body (scoped (List.combine ["k"; "v"] ks)
               (ev (EFunc2 (EVariantOf x (EVar "k")) (EVar "v"))) st)
        else (CStuck, st))
       [VForeign (XKey t k'); VRef (MkPlace BLent [])]
       (MkRt (rt_loc st0) (rt_self st0) (rt_other st0) (VUser v) u)) =
    keep u k v.
  Proof.
    intros H. unfold a_keep2_fn. rewrite H. cbn [List.length Nat.eqb List.combine].
    unfold scoped. rewrite ev_func2, ev_variantof. run.
    cbn [read base_of pl_base pl_steps read_in rt_lent rt_user].
    change (VEnumOf x (VForeign (XKey t k'))) with (kval impl (Holding x t k') (V := V)).
    rewrite func2_at.
    destruct (a_keep2 U u (Holding x t k') v) as [[u' v'] [[|]|]]; cbn.
    - reflexivity.
    - reflexivity.
    - reflexivity.
  Qed.

  Lemma any_retain_tuple x t r (inj : R_of ((x, Some t) :: r) -> R_of flds0) s
    (a0 : ms_St (M t)) (st : any_map V (fs r)) :
    any_retain V keep (fs ((x, Some t) :: r)) inj s (a0, st) =
    let '(s1, m1, oc) := ms_retain (M t) (fun s k v => keep s (inj (inl k)) v) s a0 in
    match oc with
    | Unwound => (s1, (m1, st), Unwound)
    | Done =>
        let '(s2, r2, oc) := any_retain V keep (fs r) (fun k => inj (inr k)) s1 st in
        (s2, (m1, r2), oc)
    end.
  Proof.
    transitivity (
      match ms_retain (M t) (fun s k v => keep s (inj (inl k)) v) s a0 with
      | (s1, o1, Unwound) => (s1, (o1, st), Unwound)
      | (s1, o1, Done) =>
          let '(s2, r, o) := any_retain V keep (fs r) (fun k => inj (inr k)) s1 st in
          (s2, (o1, r), o)
      end); [reflexivity|].
    now destruct (ms_retain (M t) (fun s k v => keep s (inj (inl k)) v) s a0) as [[s1 m1] []].
  Qed.
  Lemma any_retain_simple x r (inj : R_of ((x, None) :: r) -> R_of flds0) s
    (a0 : option V) (st : any_map V (fs r)) :
    any_retain V keep (fs ((x, None) :: r)) inj s (a0, st) =
    let '(s1, m1, oc) := retain_cell keep s (inj (inl tt)) a0 in
    match oc with
    | Unwound => (s1, (m1, st), Unwound)
    | Done =>
        let '(s2, r2, oc) := any_retain V keep (fs r) (fun k => inj (inr k)) s1 st in
        (s2, (m1, r2), oc)
    end.
  Proof.
    transitivity (
      match retain_cell keep s (inj (inl tt)) a0 with
      | (s1, o1, Unwound) => (s1, (o1, st), Unwound)
      | (s1, o1, Done) =>
          let '(s2, r, o) := any_retain V keep (fs r) (fun k => inj (inr k)) s1 st in
          (s2, (o1, r), o)
      end); [reflexivity|].
    now destruct (retain_cell keep s (inj (inl tt)) a0) as [[s1 m1] []].
  Qed.

  Lemma ev_retain flds : forall (inj : R_of flds -> R_of flds0) st (pvs : list val) s,
    (forall k, written (K := K) flds0 (inj k) = written flds k) ->
    ev (seq_of (each
         (fun i n => EIfLet (BVar "val") (call1 OptAsMut (my i))
            (EIf (call1 Not (EFunc2 (EVariant n) (EVar "val")))
                 (EAssignTo (my i) ENone) EUnit))
         (fun i n t => EExtRetain (MRetain t) (my i) ["k"; "v"]
            (EFunc2 (EVariantOf n (EVar "k")) (EVar "v"))) (List.length pvs) flds))
       (R pvs flds st s) =
    let '(s', st', oc) := any_retain V keep (fs flds) inj s st in
    (ending oc, R pvs flds st' s').
  Proof.
    induction flds as [|[x [t|]] r IH]; intros inj st pvs s Hw; [reflexivity| |]; destruct st as [a0 st].
    - rewrite any_retain_tuple. cbn [each seq_of]. rewrite ev_seq, mvals_tuple, ev_extretain. cbn [fst snd]. run.
      unfold ext_retain.
      rewrite read_field, nth_app, as_map_same by plains_tac.
      change (ki_map (impl t) V) with (M t).
      unfold AnyRun.M at 1. rewrite (proj1 (rets t) V S _ (fun s k v => keep s (inj (inl k)) v));
        [|intros; apply (retain_closure x t); apply (Hw (inl k))].
      cbn [rt_user]. change (ki_map (impl t) V) with (M t).
      destruct (ms_retain (M t) (fun s k v => keep s (inj (inl k)) v) s a0) as [[s1 m1] oc] eqn:Ec.
      rewrite (write_field _ _ _ (pvs ++ VForeign (XMap t m1) :: mvals r st)%list);
        [|plains_tac|apply put_app].
      unfold with_user; destruct oc; cbn [andthen rt_loc rt_self rt_other rt_lent]; [|reflexivity].
      rewrite <- snoc_app, <- (snoc_len (VForeign (XMap t m1)) pvs).
      rewrite (IH (fun k => inj (inr k))) by (intros; apply (Hw (inr k))).
      destruct (any_retain V keep (fs r) (fun k => inj (inr k)) s1 st) as [[s2 st2] oc].
      rewrite mvals_tuple. cbn [fst snd]. now rewrite snoc_app.
    - rewrite any_retain_simple. cbn [each seq_of]. rewrite ev_seq, mvals_simple, ev_iflet. cbn [fst snd]. run.
      rewrite (prim_as_mut _ _ _ _ _ _ _ a0); [|plains_tac|apply nth_app].
      cbn [andthen].
      assert (G : (match ref_to (List.length pvs) a0 with
          | VSome y => match match_bind (BVar "val") y with
                       | Some bs => scoped bs (ev (EIf (call1 Not (EFunc2 (EVariant x) (EVar "val")))
                           (EAssignTo (my (List.length pvs)) ENone) EUnit))
                           (MkRt loc (strct [] (pvs ++ vopt a0 :: mvals r st)%list) o e s)
                       | None => (CStuck, MkRt loc (strct [] (pvs ++ vopt a0 :: mvals r st)%list) o e s)
                       end
          | VNone => (CVal VUnit, MkRt loc (strct [] (pvs ++ vopt a0 :: mvals r st)%list) o e s)
          | _ => (CStuck, MkRt loc (strct [] (pvs ++ vopt a0 :: mvals r st)%list) o e s)
          end) =
        let '(s1, a1, oc) := retain_cell keep s (inj (inl tt)) a0 in
        (ending oc, MkRt loc (strct [] (pvs ++ vopt a1 :: mvals r st)%list) o e s1)).
      { destruct a0 as [v|]; [|reflexivity]. cbn [ref_to match_bind retain_cell].
        unfold scoped. rewrite ev_if. run. rewrite ev_func2.
        change (ev (EVariant x)) with (fun st : rt => (CVal (VEnum x : val), st)). cbn beta. run.
        rewrite (read_payload _ _ _ _ _ _ _ (VUser v)); [|plains_tac|apply nth_app].
        cbn [rt_user]. change (VEnum x) with (kval impl (V := V) (Plain (K := K) x)).
        rewrite func2_at. unfold a_keep2_fn. rewrite (Hw (inl tt)). cbn [written].
        destruct (a_keep2 U s (Plain x) v) as [[s1 v1] b].
        rewrite (write_payload _ _ _ (pvs ++ vopt (Some v1) :: mvals r st)%list _ _ _ _ (VUser v));
          [|plains_tac|apply nth_app|apply put_app].
        destruct b as [[|]|]; cbn [andthen with_user run_prim negb]; unfold with_user;
          cbn [rt_loc rt_self rt_other rt_lent List.skipn List.length];
          rewrite ?with_loc_mk; try reflexivity.
        rewrite ev_assignto. change (ev ENone) with (fun st : rt => (CVal (VNone : val), st)). cbn beta. run.
        pose proof (store_cell pvs (Some v1) (mvals r st) s1) as ST.
        unfold store in *. rewrite read_field, nth_app in * by plains_tac.
        rewrite (write_field _ _ _ (pvs ++ VNone :: mvals r st)%list) in *; try apply plains_nil; try apply put_app.
        cbn [rt_user vopt en_dropped alinked drop_val drop_cell] in *.
        destruct (vf_drop (a_values U) s1 v1) as [s2 []]; reflexivity. }
      rewrite G. clear G.
      destruct (retain_cell keep s (inj (inl tt)) a0) as [[s1 a1] oc].
      destruct oc; cbn [andthen ending]; [|reflexivity].
      rewrite <- snoc_app, <- (snoc_len (vopt a1) pvs).
      rewrite (IH (fun k => inj (inr k))) by (intros; apply (Hw (inr k))).
      destruct (any_retain V keep (fs r) (fun k => inj (inr k)) s1 st) as [[s2 st2] oc].
      rewrite mvals_simple. cbn [fst snd]. now rewrite snoc_app.
  Qed.

  (** [empty]. *)
  Lemma evl_empty flds : forall i acc k st,
    evl (xs_of (each (fun _ _ => ENone) (fun i _ t => ext (MEmpty i t) []) i flds)) acc k st =
    k (List.rev acc ++ mvals flds (any_empty V (fs flds) i w))%list st.
  Proof.
    induction flds as [|[x [t|]] r IH]; intros i acc k st.
    - cbn [each xs_of]. rewrite evl_nil. cbn. now rewrite app_nil_r.
    - cbn [each xs_of fs_of any_empty]. rewrite evl_cons, ev_ext0.
      cbn [andthen ext_call]. rewrite IH. cbn [List.rev]. now rewrite snoc_app.
    - cbn [each xs_of fs_of any_empty]. rewrite evl_cons.
      change (ev ENone st) with (CVal (VNone : val), st).
      cbn [andthen]. rewrite IH. cbn [List.rev]. now rewrite snoc_app.
  Qed.

  (** [clone]. *)
  Lemma clone_vopt a (st : rt) :
    clone_val impl (a_values U) (vopt a) st =
    let '(u, r) := clone_cell (vf_clone (a_values U)) (rt_user st) a in
    or_unwound impl st u r vopt.
  Proof. now destruct a. Qed.

  Lemma evl_clone flds : forall st (pvs : list val) s acc k,
    evl (xs_of (List.map (fun f => ext MClone [ERefTo BSelf f])
          (List.map field_name (List.seq (List.length pvs) (List.length flds))))) acc k
      (R pvs flds st s) =
    match any_clone_with V (vf_clone (a_values U)) (fs flds) s st with
    | (s', Some st') => k (List.rev acc ++ mvals flds st')%list (R pvs flds st s')
    | (s', None) => (CUnwound, R pvs flds st s')
    end.
  Proof.
    induction flds as [|[x [t|]] r IH]; intros st pvs s acc k.
    - change (k (List.rev acc) (R pvs [] st s) = k (List.rev acc ++ [])%list (R pvs [] st s)).
      now rewrite (app_nil_r (List.rev acc)).
    - destruct st as [a0 st].
      transitivity (
        match ms_clone_with (M t) (vf_clone (a_values U)) s a0 with
        | (s1, None) => (CUnwound, R pvs ((x, Some t) :: r) (a0, st) s1)
        | (s1, Some m1) =>
            match any_clone_with V (vf_clone (a_values U)) (fs r) s1 st with
            | (s2, None) => (CUnwound, R pvs ((x, Some t) :: r) (a0, st) s2)
            | (s2, Some st') =>
                k (List.rev acc ++ mvals ((x, Some t) :: r) (m1, st'))%list
                  (R pvs ((x, Some t) :: r) (a0, st) s2)
            end
        end).
      + cbn [List.length List.seq List.map xs_of]. rewrite evl_cons, ev_ext1, ev_refto, mvals_tuple.
        cbn [andthen ext_call fst snd]. fold (field (List.length pvs)).
        rewrite read_field, nth_app by plains_tac. cbn [clone_val rt_user].
        destruct (ms_clone_with (M t) (vf_clone (a_values U)) s a0) as [s1 [m1|]];
          unfold or_unwound, with_user; cbn [andthen rt_loc rt_self rt_other rt_lent]; [|reflexivity].
        rewrite <- snoc_app, <- (snoc_len (VForeign (XMap t a0)) pvs).
        rewrite IH. destruct (any_clone_with V (vf_clone (a_values U)) (fs r) s1 st) as [s2 [st'|]];
          [|reflexivity]. cbn [List.rev]. now rewrite snoc_app.
      + change (any_clone_with V (vf_clone (a_values U)) (fs ((x, Some t) :: r)) s (a0, st)) with
          (match ms_clone_with (M t) (vf_clone (a_values U)) s a0 with
           | (s1, None) => (s1, None)
           | (s1, Some o1) =>
               let '(s2, r') := any_clone_with V (vf_clone (a_values U)) (fs r) s1 st in
               (s2, option_map (fun r' => (o1, r') : any_map V (fs ((x, Some t) :: r))) r')
           end).
        destruct (ms_clone_with (M t) (vf_clone (a_values U)) s a0) as [s1 [m1|]]; [|reflexivity].
        now destruct (any_clone_with V (vf_clone (a_values U)) (fs r) s1 st) as [s2 [st'|]].
    - destruct st as [a0 st].
      transitivity (
        match clone_cell (vf_clone (a_values U)) s a0 with
        | (s1, None) => (CUnwound, R pvs ((x, None) :: r) (a0, st) s1)
        | (s1, Some m1) =>
            match any_clone_with V (vf_clone (a_values U)) (fs r) s1 st with
            | (s2, None) => (CUnwound, R pvs ((x, None) :: r) (a0, st) s2)
            | (s2, Some st') =>
                k (List.rev acc ++ mvals ((x, None) :: r) (m1, st'))%list
                  (R pvs ((x, None) :: r) (a0, st) s2)
            end
        end).
      + cbn [List.length List.seq List.map xs_of]. rewrite evl_cons, ev_ext1, ev_refto, mvals_simple.
        cbn [andthen ext_call fst snd]. fold (field (List.length pvs)).
        rewrite read_field, nth_app by plains_tac. rewrite clone_vopt. cbn [rt_user].
        destruct (clone_cell (vf_clone (a_values U)) s a0) as [s1 [m1|]];
          unfold or_unwound, with_user; cbn [andthen rt_loc rt_self rt_other rt_lent]; [|reflexivity].
        rewrite <- snoc_app, <- (snoc_len (vopt a0) pvs).
        rewrite IH. destruct (any_clone_with V (vf_clone (a_values U)) (fs r) s1 st) as [s2 [st'|]];
          [|reflexivity]. cbn [List.rev]. now rewrite snoc_app.
      + change (any_clone_with V (vf_clone (a_values U)) (fs ((x, None) :: r)) s (a0, st)) with
          (match clone_cell (vf_clone (a_values U)) s a0 with
           | (s1, None) => (s1, None)
           | (s1, Some o1) =>
               let '(s2, r') := any_clone_with V (vf_clone (a_values U)) (fs r) s1 st in
               (s2, option_map (fun r' => (o1, r') : any_map V (fs ((x, None) :: r))) r')
           end).
        destruct (clone_cell (vf_clone (a_values U)) s a0) as [s1 [m1|]]; [|reflexivity].
        now destruct (any_clone_with V (vf_clone (a_values U)) (fs r) s1 st) as [s2 [st'|]].
  Qed.
End Fields.

Section Eq.
  Context {T : Type} {T_dec : forall a b : T, {a = b} + {a <> b}}
          {K : T -> Type} {impl : forall t, KeyImpl (K t)} {V S : Type}.
  Notation val := (val V (foreign impl V)).
  Notation rt := (rt V (foreign impl V) S).
  Notation M := (M impl (V := V)).
  Notation fs flds := (fs_of impl flds).
  Notation mvals := (mvals (impl := impl) (V := V)).
  Notation vopt := (vopt impl (V := V)).
  Variable U : auser K V S.
  Variable flds0 : vfields T.
  Variable w : world.
  Variable call : string -> list val -> rt -> ctl V (foreign impl V) * rt.
  Variable fuel : nat.
  Notation E := (alinked T_dec impl U flds0 w).
  Notation ev := (eval (en_func E) (en_func2 E) (en_dropped E) (en_ext E) (en_ext_retain E) call fuel).
  Variable loc : list (string * val).
  Variable e : val.

  Definition other (i : nat) : place := MkPlace BOther [SField (field_name i)].

  Lemma read_other l a (vs : list val) d (s : S) i :
    read (MkRt l a (strct [] vs) d s) (other i) = nth_error vs i.
  Proof.
    transitivity (read (MkRt l (strct [] vs) a d s) (field i)); [reflexivity|].
    apply read_field. constructor.
  Qed.

  Lemma ne_vopt a b (st : rt) :
    ne_val T_dec impl (a_values U) (vopt a) (vopt b) st =
    let '(u, r) := eq_cell (vf_eq (a_values U)) (rt_user st) a b in
    or_unwound impl st u r (fun b => VBool (negb b)).
  Proof. now destruct a, b. Qed.

  Definition compared (o : option bool) : ctl V (foreign impl V) :=
    match o with
    | Some true => CVal VUnit
    | Some false => CReturn (VBool false)
    | None => CUnwound
    end.

  Lemma ev_eq flds : forall a b (pvs pws : list val) s, List.length pvs = List.length pws ->
    let R s := MkRt loc (strct [] (pvs ++ mvals flds a)%list)
                 (strct [] (pws ++ mvals flds b)%list) e s in
    ev (seq_of (List.map (fun f =>
          EIf (ext MNe [ERefTo BSelf f; ERefTo BOther f]) (EReturn (EBool false)) EUnit)
          (List.map field_name (List.seq (List.length pvs) (List.length flds))))) (R s) =
    let '(s', o) := any_eq_with V (vf_eq (a_values U)) (fs flds) s a b in (compared o, R s').
  Proof.
    induction flds as [|[x [t|]] r IH]; intros a b pvs pws s L; [reflexivity| |];
      destruct a as [a0 a], b as [b0 b]; intros R.
    - change (any_eq_with V (vf_eq (a_values U)) (fs ((x, Some t) :: r)) s (a0, a) (b0, b)) with
        (eq_and (ms_eq_with (M t) (vf_eq (a_values U)) s a0 b0)
           (fun s1 => any_eq_with V (vf_eq (a_values U)) (fs r) s1 a b)).
      cbn [List.length List.seq List.map seq_of]. rewrite ev_seq, ev_if, ev_ext2, ev_refto. cbn [andthen]. rewrite ev_refto.
      unfold R. rewrite !mvals_tuple. cbn [andthen ext_call fst snd].
      fold (field (List.length pvs)). fold (other (List.length pvs)).
      rewrite read_field, nth_app by plains_tac. rewrite L, read_other, nth_app, <- L.
      cbn [ne_val rt_user]. rewrite as_map_same.
      destruct (ms_eq_with (M t) (vf_eq (a_values U)) s a0 b0) as [s1 [[|]|]];
        unfold or_unwound, with_user; cbn [andthen negb rt_loc rt_self rt_other rt_lent eq_and]; try reflexivity.
      change (ev EUnit) with (fun st : rt => (CVal (VUnit : val), st)). cbn [andthen].
      specialize (IH a b (pvs ++ [VForeign (XMap t a0)])%list (pws ++ [VForeign (XMap t b0)])%list s1).
      rewrite !snoc_app, !snoc_len in IH. apply IH. lia.
    - change (any_eq_with V (vf_eq (a_values U)) (fs ((x, None) :: r)) s (a0, a) (b0, b)) with
        (eq_and (eq_cell (vf_eq (a_values U)) s a0 b0)
           (fun s1 => any_eq_with V (vf_eq (a_values U)) (fs r) s1 a b)).
      cbn [List.length List.seq List.map seq_of]. rewrite ev_seq, ev_if, ev_ext2, ev_refto. cbn [andthen]. rewrite ev_refto.
      unfold R. rewrite !mvals_simple. cbn [andthen ext_call fst snd].
      fold (field (List.length pvs)). fold (other (List.length pvs)).
      rewrite read_field, nth_app by plains_tac. rewrite L, read_other, nth_app, <- L.
      rewrite ne_vopt. cbn [rt_user].
      destruct (eq_cell (vf_eq (a_values U)) s a0 b0) as [s1 [[|]|]];
        unfold or_unwound, with_user; cbn [andthen negb rt_loc rt_self rt_other rt_lent eq_and]; try reflexivity.
      change (ev EUnit) with (fun st : rt => (CVal (VUnit : val), st)). cbn [andthen].
      specialize (IH a b (pvs ++ [vopt a0])%list (pws ++ [vopt b0])%list s1).
      rewrite !snoc_app, !snoc_len in IH. apply IH. lia.
  Qed.
End Eq.

(** The methods. *)
Section Wrap.
  Context {T : Type} {T_dec : forall a b : T, {a = b} + {a <> b}}
          {K : T -> Type} {impl : forall t, KeyImpl (K t)} {V S : Type}.
  Notation val := (val V (foreign impl V)).
  Notation fs flds := (fs_of impl flds).
  Variable U : auser K V S.
  Variable flds : vfields T.
  Notation C := (any_map_code flds).
  Notation m := (any_map_storage V (fs flds)).
  Notation ms := (mself (impl := impl) (V := V) flds).
  Notation agrees := (agrees (T_dec := T_dec) (impl := impl) U flds).

  Notation E := (alinked T_dec impl U flds).

  Lemma invoke_run w Co n body self oth s r :
    lookup n (cd_methods Co) = Some ([], body) ->
    (forall call fuel, eval (en_func (E w)) (en_func2 (E w)) (en_dropped (E w)) (en_ext (E w))
       (en_ext_retain (E w)) call fuel body (MkRt [] self oth VUnit s) = r) ->
    invoke (E w) Co n [] self oth s = out (as_body r).
  Proof.
    intros H R. rewrite (invoke_eq _ _ _ [] body) by (try exact H; reflexivity).
    unfold eval_in. cbn [List.combine]. now rewrite R.
  Qed.

  Lemma len_agrees : agrees TLen.
  Proof.
    intros s st. unfold do_task, model_task, call_on. unfold mself.
    erewrite invoke_run; [|reflexivity|].
    2:{ intros. apply (ev_len U flds _ call fuel [] VUnit VUnit flds st [] s (EUsize 0) 0). reflexivity. }
    reflexivity.
  Qed.

  Lemma is_empty_agrees : agrees TIsEmpty.
  Proof.
    intros s st. unfold do_task, model_task, call_on. unfold mself.
    erewrite invoke_run; [|reflexivity|].
    2:{ intros. apply (ev_is_empty U flds _ call fuel [] VUnit VUnit flds st [] s (EBool true) true).
        reflexivity. }
    reflexivity.
  Qed.

  Lemma clear_agrees : agrees TClear.
  Proof.
    intros s st. unfold do_task, model_task, call_on. unfold mself.
    erewrite invoke_run; [|reflexivity|].
    2:{ intros. apply (ev_clear U flds _ call fuel [] VUnit VUnit flds st [] s). }
    cbn [ms_clear_drop any_map_storage].
    now destruct (any_clear_drop V (vf_drop (a_values U)) (fs flds) s st) as [[s' st'] []].
  Qed.

  Lemma retain_agrees : (forall t, retains (impl t)) -> agrees TRetain.
  Proof.
    intros rets s st. unfold do_task, model_task, call_on. unfold mself.
    erewrite invoke_run; [|reflexivity|].
    2:{ intros. apply (ev_retain U flds _ call fuel [] VUnit VUnit rets flds (fun k => k) st [] s).
        reflexivity. }
    cbn [ms_retain any_map_storage].
    now destruct (any_retain V (a_keep2_fn U flds) (fs flds) (fun k => k) s st) as [[s' st'] []].
  Qed.

  Lemma strct_of (vs : list val) : List.length vs = List.length flds ->
    VStruct (List.combine (anames flds) vs) = strct [] vs.
  Proof.
    intros H. unfold strct, numbered, anames, field_names. now rewrite H.
  Qed.

  Lemma anames_length : List.length (anames flds) = List.length flds.
  Proof. apply field_names_length. Qed.

  Lemma mvals_length st : List.length (mvals (impl := impl) (V := V) flds st) = List.length flds.
  Proof. apply vals_length. Qed.

  Lemma empty_agrees w s :
    invoke (E w) C "empty" [] VUnit VUnit s = (CVal (ms (ms_empty m w)), VUnit, s).
  Proof.
    erewrite invoke_run; [|reflexivity|].
    2:{ intros. rewrite ev_struct, evl_empty. cbn [List.rev app].
        rewrite anames_length, mvals_length, Nat.eqb_refl, strct_of by apply mvals_length.
        reflexivity. }
    reflexivity.
  Qed.

  Lemma clone_agrees : agrees TClone.
  Proof.
    intros s st. unfold do_task, model_task, reclone. unfold mself.
    erewrite invoke_run; [|reflexivity|].
    2:{ intros. rewrite ev_struct.
        apply (evl_clone U flds _ call fuel [] VUnit VUnit flds st [] s []). }
    cbn [ms_clone_with any_map_storage].
    destruct (any_clone_with V (vf_clone (a_values U)) (fs flds) s st) as [s' [st'|]]; [|reflexivity].
    cbn [List.rev app].
    rewrite anames_length, mvals_length, Nat.eqb_refl, strct_of by apply mvals_length.
    reflexivity.
  Qed.

  Lemma eq_agrees a b s :
    (let '(c, a', s') := invoke (E (fun _ _ => [])) C "eq" [] (ms a) (ms b) s in
     (s', reply_of impl a' c)) = model_eq impl U flds a b s.
  Proof.
    unfold model_eq. unfold mself.
    erewrite invoke_run; [|reflexivity|].
    2:{ intros. rewrite ev_seq. unfold anames, field_names.
        rewrite (ev_eq U flds _ call fuel [] VUnit flds a b [] [] s) by reflexivity.
        change (eval (en_func (E (fun _ _ => []))) (en_func2 (E (fun _ _ => [])))
          (en_dropped (E (fun _ _ => []))) (en_ext (E (fun _ _ => [])))
          (en_ext_retain (E (fun _ _ => []))) call fuel (EBool true)) with
          (fun st : rt V (foreign impl V) S => (CVal (VBool true : val), st)). reflexivity. }
    cbn [ms_eq_with any_map_storage].
    now destruct (any_eq_with V (vf_eq (a_values U)) (fs flds) s a b) as [s' [[|]|]].
  Qed.
End Wrap.
