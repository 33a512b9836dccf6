(** Proofs about the code generated for enums of unit variants. *)
Require Import List Arith NArith Bool String Lia.
Import ListNotations.
From Verif Require Import Std DeriveUnit Names Rust UnitCode CodeSpec RustFacts BitLaws.
Open Scope string_scope.

(** What a call shows to its caller. *)
Definition out {V X S} (m : ctl V X * rt V X S) : ctl V X * val V X * S :=
  (fst m, rt_self (snd m), rt_user (snd m)).

Lemma out_scoped {V X S} bs (f : rt V X S -> ctl V X * rt V X S) st :
  out (scoped bs f st) = out (f (with_loc st (bs ++ rt_loc st)%list)).
Proof. unfold scoped, out. now destruct (f _). Qed.

Lemma out_body {V X S} (m : ctl V X * rt V X S) :
  out (as_body m) =
  match out m with (CReturn v, self, s) => (CVal v, self, s) | o => o end.
Proof. destruct m as [[] st]; reflexivity. Qed.

Lemma with_loc_mk {V X S} a b c d (e : S) l :
  with_loc (V := V) (X := X) (MkRt a b c d e) l = MkRt l b c d e.
Proof. reflexivity. Qed.

Lemma invoke_eq {V X S Meth} (E : env V X S Meth) C m ps body args self oth s :
  lookup m (cd_methods C) = Some (ps, body) -> List.length ps = List.length args ->
  invoke E C m args self oth s =
  out (as_body (eval_in E (cd_helpers C) body (MkRt (List.combine ps args) self oth VUnit s))).
Proof.
  intros H L. unfold invoke, by_name. rewrite H. unfold run_fn. cbn [fst snd].
  apply Nat.eqb_eq in L. rewrite L. cbn [with_loc rt_self rt_other rt_lent rt_user].
  destruct (eval_in _ _ _ _) as [[] st]; reflexivity.
Qed.

Section Unit.
  Context {S V : Type}.
  Notation val := (val V Empty_set).
  Notation rt := (rt V Empty_set S).
  Variable func : S -> val -> S * option bool.
  Variable func2 : S -> val -> V -> S * V * option bool.
  Variable dropped : S -> val -> S * bool.
  Variable ext : Empty_set -> list val -> rt -> ctl V Empty_set * rt.
  Variable ext_retain : Empty_set -> val ->
    (list val -> rt -> ctl V Empty_set * rt) -> rt -> ctl V Empty_set * rt.
  Variable call : string -> list val -> rt -> ctl V Empty_set * rt.
  Variable fuel : nat.
  Notation ev := (eval func func2 dropped ext ext_retain call fuel).
  Notation evl := (eval_list func func2 dropped ext ext_retain call fuel).
  Notation eva := (eval_arms func func2 dropped ext ext_retain call fuel).

  Definition self_of (l : list val) : val := VStruct [("data", VArr l)].
  Definition slot (i : nat) : place := MkPlace BSelf [SField "data"; SIndex i].
  Definition slots (vs : list string) : list (string * val) :=
    List.map (fun i => (field_name i, VRef (slot i))) (List.seq 0 (List.length vs)).

  Lemma read_slot loc l o e s i :
    read (S := S) (MkRt loc (self_of l) o e s) (slot i) = nth_error l i.
  Proof. cbn. now destruct (nth_error l i). Qed.

  Lemma write_slot loc l o e s i n l' : put i n l = Some l' ->
    write (S := S) (MkRt loc (self_of l) o e s) (slot i) n =
    Some (MkRt loc (self_of l') o e s).
  Proof.
    intros H. unfold write, slot. cbn.
    destruct (nth_error l i) as [x|] eqn:E.
    - cbn. rewrite H. reflexivity.
    - exfalso. clear -H E. revert i l' H E.
      induction l as [|a r IH]; intros [|i] l' H E; cbn in *; try discriminate.
      destruct (put i n r) eqn:P; [|discriminate]. eapply IH; eauto.
  Qed.

  Lemma lookup_slot vs loc i : i < List.length vs ->
    lookup (field_name i) (slots vs ++ loc)%list = Some (VRef (slot i)).
  Proof.
    intros H. unfold slots.
    assert (G : forall k n, k <= i < k + n ->
      lookup (field_name i)
        (List.map (fun i => (field_name i, VRef (slot i))) (List.seq k n) ++ loc)%list =
      Some (VRef (slot i))).
    { intros k n. revert k. induction n as [|n IH]; intros k Hk; [lia|].
      cbn [List.seq List.map app lookup].
      destruct (String.eqb_spec (field_name i) (field_name k)) as [E|E].
      - apply field_name_inj in E. now subst.
      - apply IH. destruct (Nat.eq_dec i k); [subst; congruence|lia]. }
    apply G. lia.
  Qed.

  Lemma lookup_plain vs loc x : plain x = true ->
    lookup x (slots vs ++ loc)%list = lookup x loc.
  Proof.
    intros H. unfold slots. induction (List.seq 0 (List.length vs)) as [|i r IH]; [reflexivity|].
    cbn [List.map app lookup]. now rewrite plain_field.
  Qed.

  Lemma ev_names vs body loc l o e s : List.length l = List.length vs ->
    ev (let_names vs body) (MkRt loc (self_of l) o e s) =
    scoped (slots vs) (ev body) (MkRt loc (self_of l) o e s).
  Proof.
    intros H. unfold let_names. rewrite ev_letarr, ev_refto. cbn [andthen].
    unfold read. cbn [pl_base pl_steps base_of rt_self read_in self_of lookup].
    change (String.eqb "data" "data") with true. cbn [read_in].
    unfold names. rewrite field_names_length, map_length, seq_length, H, Nat.eqb_refl.
    unfold field_names. rewrite combine_map. reflexivity.
  Qed.

  (** The pairs of a variant and the name of its element. *)
  Definition named (vs : list string) : list (string * string) := List.combine vs (names vs).

  Lemma named_in vs : forall x n, In (x, n) (named vs) <->
    exists i, nth_error vs i = Some x /\ n = field_name i.
  Proof.
    intros x n. unfold named, names, field_names.
    assert (G : forall k, In (x, n)
      (List.combine vs (List.map field_name (List.seq k (List.length vs)))) <->
      exists i, nth_error vs i = Some x /\ n = field_name (k + i)).
    { induction vs as [|v r IH]; intros k.
      - cbn. split; [contradiction|]. intros ([|i] & H & _); discriminate.
      - cbn [List.length List.seq List.map List.combine In]. rewrite IH. split.
        + intros [E|(i & H & ->)].
          * injection E as <- <-. exists 0. now rewrite Nat.add_0_r.
          * exists (Datatypes.S i). split; [exact H|]. f_equal. lia.
        + intros ([|i] & H & ->).
          * left. cbn in H. injection H as <-. now rewrite Nat.add_0_r.
          * right. exists i. split; [exact H|]. f_equal. lia. }
    apply (G 0).
  Qed.

  Lemma named_fst vs : List.map fst (named vs) = vs.
  Proof.
    unfold named, names. assert (H := field_names_length (List.length vs)). revert H.
    generalize (field_names (List.length vs)). induction vs as [|v r IH]; intros [|n l] H;
      cbn in *; try discriminate; auto. f_equal. apply IH. lia.
  Qed.

  Lemma ev_match_key x vs arm st v i : NoDup vs -> nth_error vs i = Some v ->
    lookup x (rt_loc st) = Some (VEnum v) ->
    ev (match_key x vs arm) st = ev (arm (field_name i)) st.
  Proof.
    intros Hn Hi Hx. unfold match_key. rewrite ev_match, ev_var, Hx. cbn [answer_of andthen].
    apply (eva_variant func func2 dropped ext ext_retain call fuel fst
             (fun e => arm (snd e)) (named vs) (v, field_name i)).
    - rewrite named_fst. exact Hn.
    - apply named_in. now exists i.
  Qed.
End Unit.

(** * Maps *)
Section Map.
  Context {S V : Type} (U : user S V) (vs : list string).
  Hypothesis distinct : NoDup vs.
  Notation val := (val V Empty_set).
  Notation rt := (rt V Empty_set S).
  Notation C := (map_code vs).
  Definition calls_m : string -> list val -> rt -> ctl V Empty_set * rt :=
    by_name (eval (en_func (linked U)) (en_func2 (linked U)) (en_dropped (linked U))
                  (en_ext (linked U)) (en_ext_retain (linked U))
                  (fun _ _ st => (CStuck, st)) (en_fuel (linked U))) (cd_helpers C).
  Notation ev := (eval (en_func (linked U)) (en_func2 (linked U)) (en_dropped (linked U))
                       (en_ext (linked U)) (en_ext_retain (linked U)) calls_m
                       (en_fuel (linked U))).

  Definition cell (o : option V) : val :=
    match o with Some v => VSome (VUser v) | None => VNone end.
  Definition self_m (m : string -> option V) : val :=
    self_of (List.map (fun x => cell (m x)) vs).

  Lemma self_m_nth m i x : nth_error vs i = Some x ->
    nth_error (List.map (fun x => cell (m x)) vs) i = Some (cell (m x)).
  Proof. intros H. now apply (map_nth_error (fun x => cell (m x))). Qed.

  Lemma self_m_put m i x o : nth_error vs i = Some x ->
    put i (cell o) (List.map (fun x => cell (m x)) vs) =
    Some (List.map (fun y => cell (upd m x o y)) vs).
  Proof.
    intros H.
    replace (cell o) with ((fun y => cell (upd m x o y)) x)
      by (unfold upd; now rewrite String.eqb_refl).
    apply (put_map (fun x => cell (m x)) (fun y => cell (upd m x o y))); auto.
    intros y Hy. unfold upd.
    now destruct (String.eqb_spec y x).
  Qed.

  Lemma index_of_name x : In x vs -> exists i, nth_error vs i = Some x.
  Proof. apply In_nth_error. Qed.

  Lemma index_lt i (x : string) : nth_error vs i = Some x -> i < List.length vs.
  Proof. intros H. apply nth_error_Some. congruence. Qed.

  Lemma self_m_ext m m' : (forall x, In x vs -> m x = m' x) -> self_m m = self_m m'.
  Proof. intros H. unfold self_m. f_equal. apply map_ext_in. intros. now rewrite H. Qed.

  (** A method that matches on a key. *)
  Lemma keyed_call meth ps kx arm args m s i x :
    lookup meth (cd_methods C) = Some (ps, let_names vs (match_key kx vs arm)) ->
    List.length ps = List.length args -> plain kx = true ->
    lookup kx (List.combine ps args) = Some (VEnum x) -> nth_error vs i = Some x ->
    invoke (linked U) C meth args (self_m m) VUnit s =
    out (as_body (ev (arm (field_name i))
      (MkRt (slots vs ++ List.combine ps args) (self_m m) VUnit VUnit s))).
  Proof.
    intros H L P K I. rewrite (invoke_eq _ _ _ _ _ _ _ _ _ H L), !out_body.
    unfold eval_in, self_m. fold calls_m. rewrite ev_names by apply map_length.
    rewrite out_scoped. rewrite with_loc_mk. cbn [rt_loc].
    rewrite (ev_match_key _ _ _ _ _ _ _ kx vs arm _ x i); auto.
    cbn [rt_loc with_loc]. now rewrite lookup_plain.
  Qed.

  (** A method that binds the names and goes on. *)
  Lemma named_call meth body m s :
    lookup meth (cd_methods C) = Some ([], let_names vs body) ->
    invoke (linked U) C meth [] (self_m m) VUnit s =
    out (as_body (ev body (MkRt (slots vs ++ []) (self_m m) VUnit VUnit s))).
  Proof.
    intros H. rewrite (invoke_eq _ _ _ _ _ [] _ _ _ H eq_refl), !out_body.
    unfold eval_in, self_m. fold calls_m. rewrite ev_names by apply map_length.
    now rewrite out_scoped.
  Qed.

  Lemma ev_name loc m s i x oth lent : nth_error vs i = Some x ->
    ev (EVar (field_name i)) (MkRt (slots vs ++ loc) (self_m m) oth lent s) =
    (CVal (VRef (slot i)), MkRt (slots vs ++ loc) (self_m m) oth lent s).
  Proof.
    intros H. rewrite ev_var. cbn [rt_loc].
    rewrite lookup_slot by now apply (index_lt i x). reflexivity.
  Qed.

  Lemma read_m loc m s i x oth lent : nth_error vs i = Some x ->
    read (S := S) (MkRt loc (self_m m) oth lent s) (slot i) = Some (cell (m x)).
  Proof. intros H. unfold self_m. rewrite read_slot. now apply self_m_nth. Qed.

  Lemma write_m loc m s i x o oth lent : nth_error vs i = Some x ->
    write (S := S) (MkRt loc (self_m m) oth lent s) (slot i) (cell o) =
    Some (MkRt loc (self_m (upd m x o)) oth lent s).
  Proof. intros H. unfold self_m. apply write_slot. now apply self_m_put. Qed.

  Lemma target_payload m i x v : nth_error vs i = Some x -> m x = Some v ->
    as_value (self_m m) (VRef (inside (slot i) SPayload)) = Some v.
  Proof.
    intros H E. unfold as_value. cbn.
    rewrite (self_m_nth m i x H), E. reflexivity.
  Qed.

  Ltac enter x i :=
    cbn [map_step]; unfold ask;
    erewrite (keyed_call _ _ _ _ _ _ _ i x) by (reflexivity || assumption);
    rewrite out_body; cbn beta.

  Lemma step_contains x m s : In x vs ->
    map_step U C (QContains x) s (self_m m) = (s, self_m m, ABool (has m x)).
  Proof.
    intros Hx. destruct (index_of_name x Hx) as [i Hi]. enter x i.
    rewrite ev_call1, (ev_name _ _ _ _ x) by auto. cbn [andthen run_prim].
    rewrite (read_m _ _ _ _ x) by auto. unfold has. destruct (m x); reflexivity.
  Qed.

  Lemma step_get x m s : In x vs ->
    map_step U C (QGet x) s (self_m m) = (s, self_m m, AOpt (m x)).
  Proof.
    intros Hx. destruct (index_of_name x Hx) as [i Hi]. enter x i.
    rewrite ev_call1, (ev_name _ _ _ _ x) by auto. cbn [andthen run_prim]. unfold opt_ref.
    rewrite (read_m _ _ _ _ x) by auto. destruct (m x) eqn:E; [|reflexivity].
    cbn [cell answer_of out fst snd rt_self rt_user decode].
    now rewrite (target_payload m i x v).
  Qed.

  Lemma cell_some v : VSome (VUser v) = cell (Some v).
  Proof. reflexivity. Qed.

  Lemma decode_cell self o : decode self (CVal (cell o)) = AOpt o.
  Proof. now destruct o. Qed.

  Lemma step_insert x v m s : In x vs ->
    map_step U C (QInsert x v) s (self_m m) = (s, self_m (upd m x (Some v)), AOpt (m x)).
  Proof.
    intros Hx. destruct (index_of_name x Hx) as [i Hi]. enter x i.
    rewrite ev_call2, (ev_name _ _ _ _ x) by auto. cbn [andthen].
    rewrite ev_var. cbn [rt_loc]. rewrite lookup_plain by reflexivity.
    cbn [List.combine lookup]. change (String.eqb "value" "key") with false.
    change (String.eqb "value" "value") with true. cbn [answer_of andthen run_prim].
    rewrite cell_some. unfold swap.
    rewrite (read_m _ _ _ _ x), (write_m _ _ _ _ x) by auto.
    cbn [out fst snd rt_self rt_user]. now rewrite decode_cell.
  Qed.

  Lemma step_remove x m s : In x vs ->
    map_step U C (QRemove x) s (self_m m) = (s, self_m (upd m x None), AOpt (m x)).
  Proof.
    intros Hx. destruct (index_of_name x Hx) as [i Hi]. enter x i.
    rewrite ev_call1, (ev_name _ _ _ _ x) by auto. cbn [andthen run_prim].
    change (@VNone V Empty_set) with (cell None). unfold swap.
    rewrite (read_m _ _ _ _ x), (write_m _ _ _ _ x) by auto.
    destruct (m x); reflexivity.
  Qed.

  Lemma step_set x v m s : In x vs ->
    map_step U C (QSet x v) s (self_m m) =
    match m x with
    | Some _ => (s, self_m (upd m x (Some v)), AUnit)
    | None => (s, self_m m, AUnit)
    end.
  Proof.
    intros Hx. destruct (index_of_name x Hx) as [i Hi]. enter x i.
    rewrite ev_call1, (ev_name _ _ _ _ x) by auto. cbn [andthen run_prim]. unfold opt_ref.
    rewrite (read_m _ _ _ _ x) by auto. destruct (m x) eqn:E; [|reflexivity].
    cbn [cell answer_of out fst snd rt_self rt_user].
    unfold slot, inside. cbn [pl_base pl_steps app].
    cbn [self_m self_of write_in lookup]. unfold self_m, self_of. cbn [write_in lookup].
    change (String.eqb "data" "data") with true. cbn [write_in].
    rewrite (self_m_nth m i x Hi), E. cbn [cell write_in option_map].
    rewrite (cell_some v), (self_m_put m i x (Some v) Hi). reflexivity.
  Qed.

  Lemma in_vs_nth x : In x vs -> exists i, nth_error vs i = Some x.
  Proof. apply In_nth_error. Qed.

  (** The names, as one per variant. *)
  Lemma names_map : names vs = List.map snd (named vs).
  Proof.
    unfold named, names. assert (H := field_names_length (List.length vs)). revert H.
    generalize (field_names (List.length vs)). clear. induction vs as [|v r IH]; intros [|n l] H;
      cbn in *; try discriminate; auto. f_equal. apply IH. lia.
  Qed.

  Lemma fold_named {A} (f : A -> string -> A) a :
    List.fold_left (fun b e => f b (fst e)) (named vs) a = List.fold_left f vs a.
  Proof.
    rewrite <- (named_fst vs) at 2. generalize (named vs). intros l. revert a.
    induction l; intros; cbn; auto.
  Qed.

  Lemma map_named {A} (f : string -> A) :
    List.map (fun e => f (fst e)) (named vs) = List.map f vs.
  Proof. rewrite <- (named_fst vs) at 2. now rewrite map_map. Qed.

  Lemma len_entries (m : string -> option V) l n :
    List.fold_left (fun a x => a + usize_from (has m x)) l n =
    n + List.length (flat_map (fun x => match m x with Some v => [(x, v)] | None => [] end) l).
  Proof.
    revert n. induction l as [|x r IH]; intros n; cbn; [lia|].
    rewrite IH, app_length. unfold has. destruct (m x); cbn; lia.
  Qed.

  Lemma empty_entries (m : string -> option V) l b :
    List.fold_left (fun a x => a && negb (has m x)) l b =
    b && Nat.eqb (List.length (flat_map (fun x => match m x with Some v => [(x, v)] | None => [] end) l)) 0.
  Proof.
    revert b. induction l as [|x r IH]; intros b; cbn; [now rewrite andb_true_r|].
    rewrite IH, app_length. unfold has. destruct (m x); cbn.
    - now rewrite andb_false_r.
    - now rewrite andb_true_r.
  Qed.

  Lemma ev_is_some e loc m s oth lent : In e (named vs) ->
    ev (call1 OptIsSome (EVar (snd e))) (MkRt (slots vs ++ loc) (self_m m) oth lent s) =
    (CVal (VBool (has m (fst e))), MkRt (slots vs ++ loc) (self_m m) oth lent s).
  Proof.
    destruct e as [x n]. intros H. apply named_in in H as (i & Hi & ->). cbn [fst snd].
    rewrite ev_call1, (ev_name _ _ _ _ x) by auto. cbn [andthen run_prim].
    rewrite (read_m _ _ _ _ x) by auto. unfold has. now destruct (m x).
  Qed.

  Lemma step_len m s : map_step U C QLen s (self_m m) =
    (s, self_m m, ANat (List.length (entries vs m))).
  Proof.
    cbn [map_step]. unfold ask. erewrite named_call by reflexivity. rewrite out_body.
    unfold sum_of. rewrite names_map, map_map.
    rewrite (ev_sum _ _ _ _ _ _ _ _ (fun e => usize_from (has m (fst e)))
               (named vs) _ _ 0); [|reflexivity|].
    - cbn. rewrite (fold_named (fun n x => n + usize_from (has m x))).
      now rewrite len_entries.
    - intros e He. rewrite ev_call1, ev_is_some by auto. reflexivity.
  Qed.

  Lemma step_is_empty m s : map_step U C QIsEmpty s (self_m m) =
    (s, self_m m, ABool (Nat.eqb (List.length (entries vs m)) 0)).
  Proof.
    cbn [map_step]. unfold ask. erewrite named_call by reflexivity. rewrite out_body.
    unfold all_of. rewrite names_map, map_map.
    rewrite (ev_all _ _ _ _ _ _ _ _ (fun e => negb (has m (fst e)))
               (named vs) _ _ true); [|reflexivity|].
    - cbn. rewrite (fold_named (fun b x => b && negb (has m x))).
      now rewrite empty_entries.
    - intros [x n] H. apply named_in in H as (i & Hi & ->). cbn [fst snd].
      rewrite ev_call1, (ev_name _ _ _ _ x) by auto. cbn [andthen run_prim].
      rewrite (read_m _ _ _ _ x) by auto. unfold has. now destruct (m x).
  Qed.
  Lemma write_payload loc m s i x v v' oth lent : nth_error vs i = Some x -> m x = Some v ->
    write (S := S) (MkRt loc (self_m m) oth lent s) (inside (slot i) SPayload) (VUser v') =
    Some (MkRt loc (self_m (upd m x (Some v'))) oth lent s).
  Proof.
    intros H E. unfold write, slot, inside, self_m, self_of.
    cbn [pl_base pl_steps app base_of rt_self write_in lookup].
    change (String.eqb "data" "data") with true. cbn [write_in].
    rewrite (self_m_nth m i x H), E. cbn [cell write_in option_map].
    rewrite (cell_some v'), (self_m_put m i x (Some v') H). reflexivity.
  Qed.

  Lemma read_payload loc m s i x v oth lent : nth_error vs i = Some x -> m x = Some v ->
    read (S := S) (MkRt loc (self_m m) oth lent s) (inside (slot i) SPayload) =
    Some (VUser v).
  Proof.
    intros H E. unfold read. cbn. now rewrite (self_m_nth m i x H), E.
  Qed.

  Definition ended (a : response V) : ctl V Empty_set :=
    match a with AUnwound => CUnwound | _ => CVal VUnit end.

  Lemma ref_retain_ends l : forall s m,
    snd (ref_retain U l s m) = AUnit \/ snd (ref_retain U l s m) = AUnwound.
  Proof.
    induction l as [|x r IH]; intros s m; cbn; auto.
    destruct (m x); auto. destruct (keep2 U s x v) as [[s1 v1] [[]|]]; auto.
    destruct (drop U s1 v1) as [s2 []]; auto.
  Qed.

  Lemma upd_upd {A} (m : string -> A) x a b y : upd (upd m x a) x b y = upd m x b y.
  Proof. unfold upd. now destruct (String.eqb y x). Qed.

  Lemma upd_same {A} (m : string -> A) x a : upd m x a x = a.
  Proof. unfold upd. now rewrite String.eqb_refl. Qed.

  Definition retain_stmt (e : string * string) : Expr :=
    EIfLet (BVar "val") (call1 OptAsMut (EVar (snd e)))
      (EIf (call1 Not (EFunc2 (EVariant (fst e)) (EVar "val")))
           (EAssignTo (EVar (snd e)) ENone)
           EUnit).

  Lemma ev_retain l loc oth lent : incl l (named vs) -> forall s m,
    ev (seq_of (List.map retain_stmt l))
       (MkRt (slots vs ++ loc) (self_m m) oth lent s) =
    let '(s', m', a) := ref_retain U (List.map fst l) s m in
    (ended a, MkRt (slots vs ++ loc) (self_m m') oth lent s').
  Proof.
    induction l as [|[x n] r IH]; intros Hl s m; [reflexivity|].
    assert (Hr : incl r (named vs)) by (intros y Hy; apply Hl; now right).
    assert (H : In (x, n) (named vs)) by (apply Hl; now left).
    apply named_in in H as (i & Hi & ->).
    cbn [List.map seq_of fst ref_retain]. rewrite ev_seq. unfold retain_stmt at 1.
    cbn [fst snd]. rewrite ev_iflet, ev_call1, (ev_name _ _ _ _ x) by auto.
    cbn [andthen run_prim]. unfold opt_ref. rewrite (read_m _ _ _ _ x) by auto.
    destruct (m x) as [v|] eqn:E; cbn [cell answer_of andthen].
    2:{ apply IH. exact Hr. }
    cbn [match_bind]. unfold scoped. rewrite with_loc_mk.
    cbn [rt_loc List.app List.length List.skipn].
    rewrite ev_if, ev_call1, ev_func2.
    match goal with |- context [ev (EVariant x) ?st] =>
      change (ev (EVariant x) st) with (@CVal V Empty_set (VEnum x), st) end.
    cbn [andthen]. rewrite ev_var. cbn [rt_loc lookup].
    change (String.eqb "val" "val") with true. cbn [answer_of andthen].
    rewrite (read_payload _ _ _ _ x v) by auto.
    change (en_func2 (linked U) (rt_user (MkRt ((("val", VRef (inside (slot i) SPayload)) :: slots vs ++ loc)%list) (self_m m) oth lent s)) (VEnum x) v)
      with (keep2 U s x v).
    destruct (keep2 U s x v) as [[s1 v1] a].
    rewrite (write_payload _ _ _ _ x v) by auto.
    unfold with_user. cbn [rt_loc rt_self rt_other rt_lent rt_user].
    destruct a as [[]|].
    - cbn [andthen run_prim negb]. 
      match goal with |- context [ev EUnit ?st] =>
        change (ev EUnit st) with (@CVal V Empty_set VUnit, st) end.
      cbn [andthen rt_loc List.skipn]. rewrite with_loc_mk. now apply IH.
    - cbn [andthen run_prim negb]. rewrite ev_assignto.
      match goal with |- context [ev ENone ?st] =>
        change (ev ENone st) with (@CVal V Empty_set VNone, st) end.
      cbn [andthen]. rewrite ev_var. cbn [rt_loc lookup].
      replace (String.eqb (field_name i) "val") with false by reflexivity.
      rewrite lookup_slot by now apply (index_lt i x). cbn [answer_of andthen].
      unfold store. rewrite (read_m _ _ _ _ x) by auto.
      change (@VNone V Empty_set) with (cell None). rewrite (write_m _ _ _ _ x) by auto.
      rewrite upd_same. cbn [rt_user].
      change (en_dropped (linked U) s1 (cell (Some v1))) with (drop U s1 v1).
      destruct (drop U s1 v1) as [s2 []].
      + cbn [andthen with_user rt_loc List.skipn ended]. unfold with_user. rewrite with_loc_mk.
        cbn [rt_loc rt_self rt_other rt_lent rt_user List.skipn].
        rewrite (self_m_ext _ (upd m x None)) by (intros; apply upd_upd). reflexivity.
      + cbn [andthen]. unfold with_user. rewrite with_loc_mk.
        cbn [rt_loc rt_self rt_other rt_lent rt_user List.skipn].
        rewrite (self_m_ext _ (upd m x None)) by (intros; apply upd_upd). now apply IH.
    - reflexivity.
  Qed.

  Lemma step_retain m s : map_step U C QRetain s (self_m m) =
    let '(s', m', a) := ref_retain U vs s m in (s', self_m m', a).
  Proof.
    cbn [map_step]. unfold ask. erewrite named_call by reflexivity. rewrite out_body.
    pose proof (ev_retain (named vs) [] VUnit VUnit (fun y H => H) s m) as H.
    unfold retain_stmt, named in H. unfold named in H. rewrite H. clear H.
    fold (named vs). rewrite named_fst.
    pose proof (ref_retain_ends vs s m) as He.
    destruct (ref_retain U vs s m) as [[s' m'] a]. cbn [snd] in He.
    destruct He as [->| ->]; reflexivity.
  Qed.

  Lemma ref_drop_eq l m : forall s,
    drop_val (drop U) (fun s (x : Empty_set) => match x with end)
      (VArr (List.map (fun x => cell (m x)) l)) s = ref_drop U l s m.
  Proof.
    induction l as [|x r IH]; intros s; [reflexivity|].
    cbn [List.map ref_drop].
    transitivity
      (let '(s1, u1) := drop_val (drop U) (fun s (x : Empty_set) => match x with end)
                                 (cell (m x)) s in
       let '(s2, u2) := drop_val (drop U) (fun s (x : Empty_set) => match x with end)
                          (VArr (List.map (fun x => cell (m x)) r)) s1 in
       (s2, u1 || u2)); [reflexivity|].
    destruct (m x) as [v|]; cbn [cell].
    - match goal with |- context [drop_val ?a ?b (VSome (VUser v)) s] =>
        change (drop_val a b (VSome (VUser v)) s) with (drop U s v) end.
      destruct (drop U s v) as [s1 u1]. now rewrite IH.
    - match goal with |- context [drop_val ?a ?b VNone s] =>
        change (drop_val a b VNone s) with (s, false) end.
      cbv beta iota. rewrite IH. now destruct (ref_drop U r s m).
  Qed.

  Lemma write_data l l' loc o e s :
    write (S := S) (MkRt loc (self_of l) o e s) (MkPlace BSelf [SField "data"]) (VArr l') =
    Some (MkRt (V := V) loc (self_of l') o e s).
  Proof. reflexivity. Qed.

  Lemma step_clear m s : map_step U C QClear s (self_m m) =
    let '(s', u) := ref_drop U vs s m in
    (s', self_m (fun _ => None), if u then AUnwound else AUnit).
  Proof.
    cbn [map_step]. unfold ask.
    erewrite (invoke_eq _ _ _ _ _ []) by reflexivity.
    rewrite out_body. unfold eval_in. fold calls_m. rewrite ev_assignto, ev_arr.
    rewrite (evl_pure _ _ _ _ _ _ _ _ (fun _ => cell None)) by reflexivity.
    cbn [andthen List.rev app]. rewrite ev_refto. cbn [andthen]. unfold store, self_m.
    rewrite write_data.
    change (read (S := S) (MkRt (List.combine [] []) (self_of (List.map (fun x => cell (m x)) vs)) VUnit VUnit s)
      (MkPlace BSelf [SField "data"])) with (Some (VArr (List.map (fun x => cell (m x)) vs))).
    cbn [rt_user]. change (en_dropped (linked U) s) with
      (fun v => drop_val (drop U) (fun s (x : Empty_set) => match x with end) v s).
    cbn beta. rewrite ref_drop_eq. destruct (ref_drop U vs s m) as [s' []]; reflexivity.
  Qed.

  (** Iterators. *)
  Definition nm (i : nat) : string := List.nth i vs "".
  Definition idx : list nat := List.seq 0 (List.length vs).

  Lemma nm_nth i : In i idx -> nth_error vs i = Some (nm i).
  Proof. intros H. apply in_seq in H. apply nth_error_nth'. lia. Qed.

  Lemma idx_names : List.map nm idx = vs.
  Proof. apply map_nth_seq. Qed.

  Lemma named_idx : List.combine vs (names vs) = List.map (fun i => (nm i, field_name i)) idx.
  Proof.
    rewrite <- combine_map, idx_names. reflexivity.
  Qed.

  Definition payload (i : nat) : val := VRef (inside (slot i) SPayload).

  (** The item of the [i]-th element. *)
  Definition item (m : string -> option V) (f : nat -> V -> val) (i : nat) : val :=
    match m (nm i) with Some v => VSome (f i v) | None => VNone end.

  Lemma item_opt m f i : item m f i = VNone \/ exists y, item m f i = VSome y.
  Proof. unfold item. destruct (m (nm i)); eauto. Qed.

  Lemma decode_idx m f g :
    (forall i v r, In i idx -> m (nm i) = Some v ->
       decode_items (self_m m) (VSome (f i v) :: r) =
       option_map (cons (g (nm i) v)) (decode_items (self_m m) r)) ->
    decode_items (self_m m) (List.map (item m f) idx) =
    Some (List.map (fun e => g (fst e) (snd e)) (entries vs m)).
  Proof.
    intros H. unfold entries. rewrite <- idx_names.
    assert (G : forall l, incl l idx ->
      decode_items (self_m m) (List.map (item m f) l) =
      Some (List.map (fun e => g (fst e) (snd e))
        (flat_map (fun x => match m x with Some v => [(x, v)] | None => [] end)
                  (List.map nm l)))).
    { induction l as [|i r IH]; intros Hl; [reflexivity|].
      cbn [List.map flat_map]. unfold item at 1.
      destruct (m (nm i)) as [v|] eqn:E.
      - rewrite H by (auto; apply Hl; now left). rewrite IH by (intros y Hy; apply Hl; now right).
        reflexivity.
      - cbn [decode_items app]. apply IH. intros y Hy. apply Hl. now right. }
    apply G. intros y Hy. exact Hy.
  Qed.
  Lemma as_value_payload m i v : In i idx -> m (nm i) = Some v ->
    as_value (self_m m) (payload i) = Some v.
  Proof. intros Hi E. apply (target_payload m i (nm i)); auto. now apply nm_nth. Qed.

  Lemma decode_some m o r : decode_items (self_m m) (VSome (VUser o) :: r) =
    option_map (cons (None, Some o)) (decode_items (self_m m) r).
  Proof. cbn. now destruct (decode_items (self_m m) r). Qed.

  Lemma items_iter m : decode_items (self_m m)
    (List.map (item m (fun i _ => VPair (VEnum (nm i)) (payload i))) idx) =
    Some (List.map (fun e => (Some (fst e), Some (snd e))) (entries vs m)).
  Proof.
    apply (decode_idx m _ (fun x v => (Some x, Some v))). intros i v r Hi E.
    cbn [decode_items]. rewrite (as_value_payload m i v) by auto.
    now destruct (decode_items (self_m m) r).
  Qed.

  Lemma items_into m : decode_items (self_m m)
    (List.map (item m (fun i v => VPair (VEnum (nm i)) (VUser v))) idx) =
    Some (List.map (fun e => (Some (fst e), Some (snd e))) (entries vs m)).
  Proof.
    apply (decode_idx m _ (fun x v => (Some x, Some v))). intros i v r Hi E.
    cbn. now destruct (decode_items (self_m m) r).
  Qed.

  Lemma items_keys m : decode_items (self_m m)
    (List.map (item m (fun i _ => VEnum (nm i))) idx) =
    Some (List.map (fun e => (Some (fst e), None)) (entries vs m)).
  Proof.
    apply (decode_idx m _ (fun x v => (Some x, None))). intros i v r Hi E. reflexivity.
  Qed.

  Lemma items_values m : decode_items (self_m m)
    (List.map (item m (fun i _ => payload i)) idx) =
    Some (List.map (fun e => (None, Some (snd e))) (entries vs m)).
  Proof.
    apply (decode_idx m _ (fun x v => (None, Some v))). intros i v r Hi E.
    unfold payload at 1. cbn [decode_items]. fold (payload i).
    rewrite (as_value_payload m i v) by auto.
    now destruct (decode_items (self_m m) r).
  Qed.

  Definition pairs_of (l : list (string * string)) : Expr :=
    call1 IntoIter (EArr (xs_of (List.map (fun e =>
      EPair (EVariant (fst e)) (EVar (snd e))) l))).

  Lemma ev_pairs loc self oth lent s (w : nat -> val) :
    (forall i, In i idx -> lookup (field_name i) loc = Some (w i)) ->
    ev (pairs_of (List.combine vs (names vs))) (MkRt loc self oth lent s) =
    (CVal (VIter (List.map (fun i => VPair (VEnum (nm i)) (w i)) idx)),
     MkRt loc self oth lent s).
  Proof.
    intros H. unfold pairs_of. rewrite named_idx, map_map.
    rewrite ev_call1, ev_arr.
    rewrite (evl_pure _ _ _ _ _ _ _ _ (fun i => VPair (VEnum (nm i)) (w i))).
    - reflexivity.
    - intros i Hi. cbn [fst snd]. rewrite ev_pair.
      match goal with |- context [ev (EVariant ?x) ?st] =>
        change (ev (EVariant x) st) with (@CVal V Empty_set (VEnum x), st) end.
      cbn [andthen]. rewrite ev_var. cbn [rt_loc]. rewrite H by auto. reflexivity.
  Qed.

  Lemma ev_flat_refs p loc oth lent m s : p = OptAsRef \/ p = OptAsMut ->
    ev (EFlatMap (pairs_of (List.combine vs (names vs))) "k" "v"
         (ESome (EPair (EVar "k") (EQuestion (call1 p (EVar "v"))))))
       (MkRt (slots vs ++ loc) (self_m m) oth lent s) =
    (CVal (VIter (List.map (item m (fun i _ => VPair (VEnum (nm i)) (payload i))) idx)),
     MkRt (slots vs ++ loc) (self_m m) oth lent s).
  Proof.
    intros Hp. rewrite ev_flatmap, (ev_pairs _ _ _ _ _ (fun i => VRef (slot i))).
    2:{ intros i Hi. apply lookup_slot. apply in_seq in Hi. lia. }
    cbn [andthen].
    rewrite (flat_map_pure _ (fun i => VEnum (nm i)) (fun i => VRef (slot i))
               (item m (fun i _ => VPair (VEnum (nm i)) (payload i)))).
    - reflexivity.
    - intros i Hi. unfold scoped. rewrite with_loc_mk. cbn [rt_loc app].
      rewrite ev_some, ev_pair, ev_var. cbn [rt_loc lookup].
      change (String.eqb "k" "k") with true. cbn [answer_of andthen].
      rewrite ev_question, ev_call1, ev_var. cbn [rt_loc lookup].
      change (String.eqb "v" "k") with false. change (String.eqb "v" "v") with true.
      cbn [answer_of andthen].
      replace (run_prim p) with (@run_prim V Empty_set S OptAsRef) by now destruct Hp as [->| ->].
      cbn [run_prim]. unfold opt_ref. rewrite (read_m _ _ _ _ (nm i)) by now apply nm_nth.
      unfold item. destruct (m (nm i)); reflexivity.
    - apply item_opt.
  Qed.

  Lemma step_iter m s : map_step U C QIter s (self_m m) =
    (s, self_m m, AItems (List.map (fun e => (Some (fst e), Some (snd e))) (entries vs m))).
  Proof.
    cbn [map_step]. unfold ask. erewrite named_call by reflexivity. rewrite out_body.
    pose proof (ev_flat_refs OptAsRef [] VUnit VUnit m s (or_introl eq_refl)) as H.
    unfold pairs_of in H. rewrite H.
    cbn [out fst snd rt_self rt_user decode]. now rewrite items_iter.
  Qed.

  Lemma step_keys m s : map_step U C QKeys s (self_m m) =
    (s, self_m m, AItems (List.map (fun e => (Some (fst e), None)) (entries vs m))).
  Proof.
    cbn [map_step]. unfold ask. erewrite named_call by reflexivity. rewrite out_body.
    rewrite ev_call1, ev_call1, ev_arr, named_idx, map_map.
    rewrite (evl_pure _ _ _ _ _ _ _ _ (item m (fun i _ => VEnum (nm i)))).
    - cbn [andthen List.rev app run_prim].
      assert (G : forall (st : rt) l, flat_items st (List.map (item m (fun i _ => VEnum (nm i))) l) =
                  Some (List.map (item m (fun i _ => VEnum (nm i))) l)).
      { induction l as [|i r IH]; [reflexivity|]. cbn [List.map flat_items]. rewrite IH.
        unfold item at 1. destruct (m (nm i)) eqn:E; unfold item at 2; now rewrite E. }
      rewrite G. cbn [option_map answer_of out fst snd rt_self rt_user decode].
      now rewrite items_keys.
    - intros i Hi. cbn [fst snd]. rewrite ev_if.
      rewrite (ev_is_some (nm i, field_name i)) by
        (apply named_in; exists i; split; [now apply nm_nth|reflexivity]).
      cbn [andthen fst]. unfold item, has. destruct (m (nm i)); reflexivity.
  Qed.

  Lemma flat_slots m loc oth lent s l : incl l idx ->
    flat_items (S := S) (MkRt loc (self_m m) oth lent s)
      (List.map (fun i => VRef (inside (MkPlace BSelf [SField "data"]) (SIndex i))) l) =
    Some (List.map (item m (fun i _ => payload i)) l).
  Proof.
    induction l as [|i r IH]; intros Hl; [reflexivity|].
    cbn [List.map flat_items]. rewrite IH by (intros y Hy; apply Hl; now right).
    change (inside (MkPlace BSelf [SField "data"]) (SIndex i)) with (slot i).
    unfold opt_ref. rewrite (read_m _ _ _ _ (nm i)) by (apply nm_nth, Hl; now left).
    unfold item at 2. destruct (m (nm i)); reflexivity.
  Qed.

  Lemma step_values m s : map_step U C QValues s (self_m m) =
    (s, self_m m, AItems (List.map (fun e => (None, Some (snd e))) (entries vs m))).
  Proof.
    cbn [map_step]. unfold ask. erewrite (invoke_eq _ _ _ _ _ []) by reflexivity.
    rewrite out_body. unfold eval_in. fold calls_m. rewrite ev_call1, ev_call1, ev_refto.
    cbn [andthen run_prim].
    change (read (S := S) (MkRt (List.combine [] []) (self_m m) VUnit VUnit s)
      (MkPlace BSelf [SField "data"])) with (Some (VArr (List.map (fun x => cell (m x)) vs))).
    cbv beta iota. rewrite map_length. fold idx. cbn [answer_of andthen run_prim].
    rewrite flat_slots by (intros y Hy; exact Hy).
    cbn [option_map answer_of out fst snd rt_self rt_user decode]. now rewrite items_values.
  Qed.

  Definition owned (m : string -> option V) : list (string * val) :=
    List.map (fun i => (field_name i, cell (m (nm i)))) idx.

  Lemma lookup_owned m i : In i idx ->
    lookup (field_name i) (owned m) = Some (cell (m (nm i))).
  Proof.
    unfold owned. induction idx as [|j r IH]; [contradiction|]. intros Hi.
    cbn [List.map lookup]. destruct (String.eqb_spec (field_name i) (field_name j)) as [E|E].
    - apply field_name_inj in E. now subst.
    - apply IH. destruct Hi as [->|Hi]; [congruence|exact Hi].
  Qed.

  Lemma step_into_iter m s : map_step U C QIntoIter s (self_m m) =
    (s, self_m m, AItems (List.map (fun e => (Some (fst e), Some (snd e))) (entries vs m))).
  Proof.
    cbn [map_step]. unfold ask. erewrite (invoke_eq _ _ _ _ _ []) by reflexivity.
    rewrite out_body. unfold eval_in. fold calls_m. rewrite ev_letarr, ev_field.
    change (read (S := S) (MkRt (List.combine [] []) (self_m m) VUnit VUnit s)
      (MkPlace BSelf [SField "data"])) with (Some (VArr (List.map (fun x => cell (m x)) vs))).
    cbn [answer_of andthen]. unfold names at 1. rewrite field_names_length, map_length, Nat.eqb_refl.
    rewrite out_scoped. rewrite with_loc_mk. cbn [rt_loc List.combine].
    assert (B : List.combine (names vs) (List.map (fun x => cell (m x)) vs) = owned m).
    { rewrite <- idx_names at 2. rewrite map_map. unfold names, field_names, owned.
      now rewrite <- combine_map. }
    rewrite B, app_nil_r. fold (pairs_of (List.combine vs (names vs))).
    rewrite ev_flatmap, (ev_pairs _ _ _ _ _ (fun i => cell (m (nm i)))) by apply lookup_owned.
    cbn [andthen].
    rewrite (flat_map_pure _ (fun i => VEnum (nm i)) (fun i => cell (m (nm i)))
               (item m (fun i v => VPair (VEnum (nm i)) (VUser v)))).
    - cbn [List.rev app out fst snd rt_self rt_user decode]. now rewrite items_into.
    - intros i Hi. unfold scoped. rewrite with_loc_mk. cbn [rt_loc app].
      rewrite ev_some, ev_pair, ev_var. cbn [rt_loc lookup].
      change (String.eqb "k" "k") with true. cbn [answer_of andthen].
      rewrite ev_question, ev_var. cbn [rt_loc lookup].
      change (String.eqb "v" "k") with false. change (String.eqb "v" "v") with true.
      cbn [answer_of andthen]. unfold item. destruct (m (nm i)); reflexivity.
    - apply item_opt.
  Qed.

  Lemma assign_payload m i x v g : nth_error vs i = Some x -> m x = Some v ->
    assign_at (self_m m) (pl_steps (inside (slot i) SPayload)) g =
    Some (self_m (upd m x (Some (g v)))).
  Proof.
    intros H E. unfold assign_at, slot, inside, self_m, self_of.
    cbn [pl_base pl_steps app read_in write_in lookup].
    change (String.eqb "data" "data") with true. cbn [read_in write_in].
    rewrite (self_m_nth m i x H), E. cbn [cell read_in write_in option_map].
    rewrite (cell_some (g v)), (self_m_put m i x (Some (g v)) H). reflexivity.
  Qed.

  Lemma assign_idx m0 (f : nat -> V -> val) (h : option string -> V -> V)
    (g : string -> V -> V) :
    (forall i v r self, assign_items h (VSome (f i v) :: r) self =
      match assign_at self (pl_steps (inside (slot i) SPayload)) (g (nm i)) with
      | Some self' => assign_items h r self'
      | None => None
      end) ->
    forall l m, incl l idx -> NoDup (List.map nm l) ->
    (forall i, In i l -> m (nm i) = m0 (nm i)) ->
    assign_items h (List.map (item m0 f) l) (self_m m) =
    Some (self_m (fun x => if existsb (String.eqb x) (List.map nm l)
                           then option_map (g x) (m x) else m x)).
  Proof.
    intros Hf. induction l as [|i r IH]; intros m Hl Hn Hm; [reflexivity|].
    cbn [List.map] in *. inversion Hn as [|? ? Hi Hr E0]; subst.
    assert (Hx : nth_error vs i = Some (nm i)) by (apply nm_nth, Hl; now left).
    assert (Hw : existsb (String.eqb (nm i)) (List.map nm r) = false).
    { apply not_true_is_false. intros Ht. apply existsb_exists in Ht as (y & Hy & Ey).
      apply String.eqb_eq in Ey. subst. contradiction. }
    unfold item at 1. rewrite <- Hm by now left.
    destruct (m (nm i)) as [v|] eqn:E.
    - rewrite Hf, (assign_payload m i (nm i) v) by auto. rewrite IH; auto.
      + f_equal. apply self_m_ext. intros y _. cbn [existsb]. unfold upd.
        destruct (String.eqb_spec y (nm i)) as [->|Ey]; cbn [orb].
        * now rewrite Hw, E.
        * reflexivity.
      + intros j Hj. apply Hl. now right.
      + intros j Hj. unfold upd. destruct (String.eqb_spec (nm j) (nm i)) as [Ej|].
        * exfalso. apply Hi. rewrite <- Ej. now apply in_map.
        * apply Hm. now right.
    - cbn [assign_items]. rewrite IH; auto.
      + f_equal. apply self_m_ext. intros y _. cbn [existsb].
        destruct (String.eqb_spec y (nm i)) as [->|Ey]; cbn [orb]; [|reflexivity].
        now rewrite Hw, E.
      + intros j Hj. apply Hl. now right.
      + intros j Hj. apply Hm. now right.
  Qed.

  Lemma assign_idx_all m (f : nat -> V -> val) h (g : string -> V -> V) :
    (forall i v r self, assign_items h (VSome (f i v) :: r) self =
      match assign_at self (pl_steps (inside (slot i) SPayload)) (g (nm i)) with
      | Some self' => assign_items h r self'
      | None => None
      end) ->
    assign_items h (List.map (item m f) idx) (self_m m) =
    Some (self_m (fun x => option_map (g x) (m x))).
  Proof.
    intros Hf. rewrite (assign_idx m f h g Hf); auto.
    - f_equal. apply self_m_ext. intros x Hx. rewrite idx_names.
      replace (existsb (String.eqb x) vs) with true; [reflexivity|].
      symmetry. apply existsb_exists. exists x. split; auto. apply String.eqb_refl.
    - intros y Hy. exact Hy.
    - now rewrite idx_names.
  Qed.

  Lemma step_iter_mut g m s : map_step U C (QIterMut g) s (self_m m) =
    (s, self_m (fun x => option_map (g x) (m x)), AUnit).
  Proof.
    cbn [map_step]. unfold assign_all. erewrite named_call by reflexivity. rewrite out_body.
    pose proof (ev_flat_refs OptAsMut [] VUnit VUnit m s (or_intror eq_refl)) as H.
    unfold pairs_of in H. rewrite H.
    cbn [out fst snd rt_self rt_user].
    rewrite (assign_idx_all m _ _ g); reflexivity.
  Qed.

  Lemma step_values_mut g m s : map_step U C (QValuesMut g) s (self_m m) =
    (s, self_m (fun x => option_map g (m x)), AUnit).
  Proof.
    cbn [map_step]. unfold assign_all. erewrite (invoke_eq _ _ _ _ _ []) by reflexivity.
    rewrite out_body. unfold eval_in. fold calls_m. rewrite ev_call1, ev_call1, ev_refto.
    cbn [andthen run_prim].
    change (read (S := S) (MkRt (List.combine [] []) (self_m m) VUnit VUnit s)
      (MkPlace BSelf [SField "data"])) with (Some (VArr (List.map (fun x => cell (m x)) vs))).
    cbv beta iota. rewrite map_length. fold idx. cbn [answer_of andthen run_prim].
    rewrite flat_slots by (intros y Hy; exact Hy).
    cbn [option_map answer_of out fst snd rt_self rt_user].
    rewrite (assign_idx_all m _ _ (fun _ => g)); reflexivity.
  Qed.

  (** Entries. *)
  Definition entry_of (x : string) (i : nat) : val :=
    VStruct [("key", VEnum x); ("inner", VRef (slot i))].

  Lemma code_entry x i m s : nth_error vs i = Some x ->
    invoke (linked U) C "entry" [VEnum x] (self_m m) VUnit s =
    (CVal (VEnumOf (match m x with Some _ => "Occupied" | None => "Vacant" end)
                   (entry_of x i)), self_m m, s).
  Proof.
    intros Hi.
    erewrite (keyed_call _ _ _ _ _ _ _ i x) by (reflexivity || assumption).
    rewrite out_body, ev_ecall. cbn beta. cbn [xs_of]. rewrite evl_cons.
    rewrite (ev_name _ _ _ _ x) by auto. cbn [andthen]. rewrite evl_cons, ev_var. cbn [rt_loc].
    rewrite lookup_plain by reflexivity. cbn [List.combine lookup].
    change (String.eqb "key" "key") with true. cbv iota. cbn [answer_of andthen].
    rewrite evl_nil. cbn [List.rev app].
    unfold calls_m, by_name. cbn [cd_helpers map_code lookup].
    change (String.eqb "option_to_entry" "option_to_entry") with true. cbv iota.
    unfold run_fn, option_to_entry. cbn [fst snd List.length Nat.eqb List.combine].
    rewrite with_loc_mk, ev_match, ev_call1, ev_var. cbn [rt_loc lookup].
    change (String.eqb "opt" "opt") with true. cbv iota. cbn [answer_of andthen run_prim].
    rewrite (read_m _ _ _ _ x) by auto.
    destruct (m x) eqn:E; reflexivity.
  Qed.

  Lemma as_value_at m i x v : nth_error vs i = Some x -> m x = Some v ->
    as_value (self_m m) (payload i) = Some v.
  Proof.
    intros Hi E. unfold as_value, target, payload, slot, inside.
    cbn [pl_base pl_steps app]. unfold self_m, self_of. cbn [read_in lookup].
    change (String.eqb "data" "data") with true. cbn [read_in].
    now rewrite (self_m_nth m i x Hi), E.
  Qed.

  Lemma entry_ref n x i m s v : nth_error vs i = Some x -> m x = Some v ->
    lookup n (cd_methods entry_code) = Some ([], call1 BucketRef (EField BLent "inner")) ->
    invoke_entry (linked U) entry_code n [] (entry_of x i) (self_m m) s =
    (CVal (payload i), self_m m, s).
  Proof.
    intros Hi E Hn. unfold invoke_entry, by_name. rewrite Hn. unfold run_fn.
    cbn [fst snd List.length Nat.eqb List.combine]. rewrite with_loc_mk.
    unfold eval_in. rewrite ev_call1.
    match goal with |- context [eval _ _ _ _ _ _ _ (EField BLent "inner") ?st] =>
      rewrite (ev_field _ _ _ _ _ _ _ BLent "inner" st) end.
    change (read (S := S) (MkRt [] (self_m m) VUnit (entry_of x i) s)
              (MkPlace BLent [SField "inner"])) with (Some (@VRef V Empty_set (slot i))).
    cbn [answer_of andthen run_prim]. rewrite (read_m _ _ _ _ x), E by auto. reflexivity.
  Qed.

  Lemma entry_replace x i m s v w : nth_error vs i = Some x -> m x = Some v ->
    invoke_entry (linked U) entry_code "OccupiedEntry::insert" [VUser w] (entry_of x i)
      (self_m m) s = (CVal (VUser v), self_m (upd m x (Some w)), s).
  Proof.
    intros Hi E. unfold invoke_entry, by_name.
    change (lookup "OccupiedEntry::insert" (cd_methods entry_code)) with
      (Some (["value"], call2 BucketReplace (EField BLent "inner") (@EVar Empty_set "value"))).
    unfold run_fn. cbn [fst snd List.length Nat.eqb List.combine]. rewrite with_loc_mk.
    unfold eval_in. rewrite ev_call2.
    match goal with |- context [eval _ _ _ _ _ _ _ (EField BLent "inner") ?st] =>
      rewrite (ev_field _ _ _ _ _ _ _ BLent "inner" st) end.
    match goal with |- context [read ?st (MkPlace BLent [SField "inner"])] =>
      change (read st (MkPlace BLent [SField "inner"])) with
        (Some (@VRef V Empty_set (slot i))) end.
    cbn [answer_of andthen]. rewrite ev_var. cbn [rt_loc lookup].
    change (String.eqb "value" "value") with true. cbv iota.
    cbn [answer_of andthen run_prim]. rewrite (read_m _ _ _ _ x), E by auto.
    cbn [cell]. unfold swap. rewrite (read_payload _ _ _ _ x v), (write_payload _ _ _ _ x v) by auto.
    reflexivity.
  Qed.

  Lemma entry_take x i m s v : nth_error vs i = Some x -> m x = Some v ->
    invoke_entry (linked U) entry_code "OccupiedEntry::remove" [] (entry_of x i)
      (self_m m) s = (CVal (VUser v), self_m (upd m x None), s).
  Proof.
    intros Hi E. unfold invoke_entry, by_name.
    change (lookup "OccupiedEntry::remove" (cd_methods entry_code)) with
      (Some (@nil string, call1 BucketTake (@EField Empty_set BLent "inner"))).
    unfold run_fn. cbn [fst snd List.length Nat.eqb List.combine]. rewrite with_loc_mk.
    unfold eval_in. rewrite ev_call1.
    match goal with |- context [eval _ _ _ _ _ _ _ (EField BLent "inner") ?st] =>
      rewrite (ev_field _ _ _ _ _ _ _ BLent "inner" st) end.
    match goal with |- context [read ?st (MkPlace BLent [SField "inner"])] =>
      change (read st (MkPlace BLent [SField "inner"])) with
        (Some (@VRef V Empty_set (slot i))) end.
    cbn [answer_of andthen run_prim]. rewrite (read_m _ _ _ _ x), E by auto.
    cbn [cell]. change VNone with (cell None). rewrite (write_m _ _ _ _ x) by auto.
    reflexivity.
  Qed.

  Lemma entry_insert x i m s w : nth_error vs i = Some x -> m x = None ->
    invoke_entry (linked U) entry_code "VacantEntry::insert" [VUser w] (entry_of x i)
      (self_m m) s = (CVal (payload i), self_m (upd m x (Some w)), s).
  Proof.
    intros Hi E. unfold invoke_entry, by_name.
    change (lookup "VacantEntry::insert" (cd_methods entry_code)) with
      (Some (["value"], call2 BucketInsert (EField BLent "inner") (@EVar Empty_set "value"))).
    unfold run_fn. cbn [fst snd List.length Nat.eqb List.combine]. rewrite with_loc_mk.
    unfold eval_in. rewrite ev_call2.
    match goal with |- context [eval _ _ _ _ _ _ _ (EField BLent "inner") ?st] =>
      rewrite (ev_field _ _ _ _ _ _ _ BLent "inner" st) end.
    match goal with |- context [read ?st (MkPlace BLent [SField "inner"])] =>
      change (read st (MkPlace BLent [SField "inner"])) with
        (Some (@VRef V Empty_set (slot i))) end.
    cbn [answer_of andthen]. rewrite ev_var. cbn [rt_loc lookup].
    change (String.eqb "value" "value") with true. cbv iota.
    cbn [answer_of andthen run_prim]. rewrite (read_m _ _ _ _ x), E by auto.
    cbn [cell]. rewrite (cell_some w), (write_m _ _ _ _ x) by auto. reflexivity.
  Qed.

  Lemma step_entry x a m s : In x vs ->
    map_step U C (QEntry x a) s (self_m m) =
    let '(m', r) := ref_entry x a m in (s, self_m m', r).
  Proof.
    intros Hx. destruct (index_of_name x Hx) as [i Hi].
    cbn [map_step]. unfold entry_step. rewrite (code_entry x i) by auto.
    destruct (m x) as [v0|] eqn:E; destruct a; unfold ref_entry; rewrite ?E;
      unfold on_entry; try reflexivity.
    - rewrite (entry_ref _ x i m s v0) by (auto; reflexivity).
      unfold as_pointee, payload. fold (payload i).
      rewrite (as_value_at m i x v0) by auto. reflexivity.
    - rewrite (entry_ref _ x i m s v0) by (auto; reflexivity).
      unfold assigning, payload. change (inside (slot i) SPayload) with
        (MkPlace BSelf (pl_steps (inside (slot i) SPayload))).
      cbv beta iota. rewrite (assign_payload m i x v0) by auto. reflexivity.
    - rewrite (entry_ref _ x i m s v0) by (auto; reflexivity).
      unfold assigning, payload. change (inside (slot i) SPayload) with
        (MkPlace BSelf (pl_steps (inside (slot i) SPayload))).
      cbv beta iota. rewrite (assign_payload m i x v0) by auto. reflexivity.
    - rewrite (entry_replace x i m s v0) by auto. reflexivity.
    - rewrite (entry_take x i m s v0) by auto. reflexivity.
    - rewrite (entry_insert x i m s) by auto.
      unfold as_pointee, payload. fold (payload i).
      rewrite (as_value_at (upd m x (Some v)) i x v) by (auto; apply upd_same). reflexivity.
    - rewrite <- (self_m_ext m (upd m x None)); [reflexivity|].
      intros y _. unfold upd. now destruct (String.eqb_spec y x) as [->|].
  Qed.

  Lemma code_empty s :
    invoke (linked U) C "empty" [] VUnit VUnit s = (CVal (self_m (fun _ => None)), VUnit, s).
  Proof.
    erewrite (invoke_eq _ _ _ _ _ []) by reflexivity.
    rewrite out_body. unfold eval_in. fold calls_m. cbn [xs_of]. rewrite ev_struct, evl_cons, ev_arr.
    rewrite (evl_pure _ _ _ _ _ _ _ _ (fun _ => cell None)) by reflexivity.
    reflexivity.
  Qed.

  Theorem map_step_ref q s m : well_named vs q ->
    map_step U C q s (self_m m) =
    let '(s', m', a) := ref_map vs U q s m in (s', self_m m', a).
  Proof.
    destruct q; cbn [well_named]; intros H.
    - apply step_len.
    - apply step_is_empty.
    - now apply step_contains.
    - now apply step_get.
    - now apply step_insert.
    - rewrite step_set by auto. cbn [ref_map]. now destruct (m x).
    - now apply step_remove.
    - rewrite step_retain. cbn [ref_map]. now destruct (ref_retain U vs s m) as [[]].
    - rewrite step_clear. cbn [ref_map]. now destruct (ref_drop U vs s m).
    - apply step_iter.
    - apply step_keys.
    - apply step_values.
    - apply step_into_iter.
    - apply step_iter_mut.
    - apply step_values_mut.
    - rewrite step_entry by auto. cbn [ref_map]. now destruct (ref_entry x a m).
  Qed.

  Lemma map_answers l : forall s m, Forall (well_named vs) l ->
    answers (map_step U C) l s (self_m m) = answers (ref_map vs U) l s m.
  Proof.
    induction l as [|q r IH]; intros s m H; [reflexivity|].
    inversion H; subst. cbn [answers]. rewrite map_step_ref by auto.
    destruct (ref_map vs U q s m) as [[s' m'] a]. now rewrite IH.
  Qed.

  Lemma map_serves l s : Forall (well_named vs) l ->
    serve U (map_step U) C l s = Some (answers (ref_map vs U) l s (fun _ => None)).
  Proof. intros H. unfold serve. now rewrite code_empty, map_answers. Qed.
End Map.

(** * Sets as arrays *)
Section Set_.
  Context {S V : Type} (U : user S V) (vs : list string).
  Hypothesis distinct : NoDup vs.
  Notation val := (val V Empty_set).
  Notation rt := (rt V Empty_set S).
  Notation C := (set_code vs).
  Notation idx := (idx vs).
  Notation nm := (nm vs).
  Definition calls_s : string -> list val -> rt -> ctl V Empty_set * rt :=
    by_name (eval (en_func (linked U)) (en_func2 (linked U)) (en_dropped (linked U))
                  (en_ext (linked U)) (en_ext_retain (linked U))
                  (fun _ _ st => (CStuck, st)) (en_fuel (linked U))) (cd_helpers C).
  Notation ev := (eval (en_func (linked U)) (en_func2 (linked U)) (en_dropped (linked U))
                       (en_ext (linked U)) (en_ext_retain (linked U)) calls_s
                       (en_fuel (linked U))).

  Definition self_s (m : string -> bool) : val :=
    self_of (List.map (fun x => VBool (m x)) vs).

  Lemma self_s_nth m i x : nth_error vs i = Some x ->
    nth_error (List.map (fun x => @VBool V Empty_set (m x)) vs) i = Some (VBool (m x)).
  Proof. intros H. now apply (map_nth_error (fun x => VBool (m x))). Qed.

  Lemma self_s_put m i x b : nth_error vs i = Some x ->
    put i (VBool b) (List.map (fun x => @VBool V Empty_set (m x)) vs) =
    Some (List.map (fun y => VBool (upd m x b y)) vs).
  Proof.
    intros H.
    replace (VBool b) with ((fun y => @VBool V Empty_set (upd m x b y)) x)
      by (unfold upd; now rewrite String.eqb_refl).
    apply (put_map (fun x => VBool (m x)) (fun y => VBool (upd m x b y))); auto.
    intros y Hy. unfold upd. now destruct (String.eqb_spec y x).
  Qed.

  Lemma keyed_call_s meth ps kx arm args m s i x :
    lookup meth (cd_methods C) = Some (ps, let_names vs (match_key kx vs arm)) ->
    List.length ps = List.length args -> plain kx = true ->
    lookup kx (List.combine ps args) = Some (VEnum x) -> nth_error vs i = Some x ->
    invoke (linked U) C meth args (self_s m) VUnit s =
    out (as_body (ev (arm (field_name i))
      (MkRt (slots vs ++ List.combine ps args) (self_s m) VUnit VUnit s))).
  Proof.
    intros H L P K I. rewrite (invoke_eq _ _ _ _ _ _ _ _ _ H L), !out_body.
    unfold eval_in, self_s. fold calls_s. rewrite ev_names by apply map_length.
    rewrite out_scoped. rewrite with_loc_mk. cbn [rt_loc].
    rewrite (ev_match_key _ _ _ _ _ _ _ kx vs arm _ x i); auto.
    cbn [rt_loc with_loc]. now rewrite lookup_plain.
  Qed.

  Lemma named_call_s meth body m s :
    lookup meth (cd_methods C) = Some ([], let_names vs body) ->
    invoke (linked U) C meth [] (self_s m) VUnit s =
    out (as_body (ev body (MkRt (slots vs ++ []) (self_s m) VUnit VUnit s))).
  Proof.
    intros H. rewrite (invoke_eq _ _ _ _ _ [] _ _ _ H eq_refl), !out_body.
    unfold eval_in, self_s. fold calls_s. rewrite ev_names by apply map_length.
    now rewrite out_scoped.
  Qed.

  Lemma ev_name_s loc m s i x oth lent : nth_error vs i = Some x ->
    ev (EVar (field_name i)) (MkRt (slots vs ++ loc) (self_s m) oth lent s) =
    (CVal (VRef (slot i)), MkRt (slots vs ++ loc) (self_s m) oth lent s).
  Proof.
    intros H. rewrite ev_var. cbn [rt_loc].
    rewrite lookup_slot by now apply (index_lt vs i x). reflexivity.
  Qed.

  Lemma read_s loc m s i x oth lent : nth_error vs i = Some x ->
    read (S := S) (MkRt loc (self_s m) oth lent s) (slot i) = Some (VBool (m x)).
  Proof. intros H. unfold self_s. rewrite read_slot. now apply self_s_nth. Qed.

  Lemma write_s loc m s i x b oth lent : nth_error vs i = Some x ->
    write (S := S) (MkRt loc (self_s m) oth lent s) (slot i) (VBool b) =
    Some (MkRt loc (self_s (upd m x b)) oth lent s).
  Proof. intros H. unfold self_s. apply write_slot. now apply self_s_put. Qed.

  Lemma ev_deref i x loc m s oth lent : nth_error vs i = Some x ->
    ev (call1 Deref (EVar (field_name i))) (MkRt (slots vs ++ loc) (self_s m) oth lent s) =
    (CVal (VBool (m x)), MkRt (slots vs ++ loc) (self_s m) oth lent s).
  Proof.
    intros Hi. rewrite ev_call1, (ev_name_s _ _ _ _ x) by auto. cbn [andthen run_prim].
    now rewrite (read_s _ _ _ _ x).
  Qed.

  Ltac enter x i :=
    cbn [set_step]; unfold ask;
    erewrite (keyed_call_s _ _ _ _ _ _ _ i x) by (reflexivity || assumption);
    rewrite out_body; cbn beta.

  Lemma sstep_contains x m s : In x vs ->
    set_step U C (PContains x) s (self_s m) = (s, self_s m, ABool (m x)).
  Proof.
    intros Hx. destruct (index_of_name vs x Hx) as [i Hi]. enter x i.
    rewrite (ev_deref i x) by auto. reflexivity.
  Qed.

  Lemma sstep_insert x m s : In x vs ->
    set_step U C (PInsert x) s (self_s m) = (s, self_s (upd m x true), ABool (negb (m x))).
  Proof.
    intros Hx. destruct (index_of_name vs x Hx) as [i Hi]. enter x i.
    rewrite ev_call1, ev_call2, (ev_name_s _ _ _ _ x) by auto. cbn [andthen].
    match goal with |- context [ev (EBool true) ?st] =>
      change (ev (EBool true) st) with (@CVal V Empty_set (VBool true), st) end.
    cbn [andthen run_prim]. unfold swap. rewrite (read_s _ _ _ _ x), (write_s _ _ _ _ x) by auto.
    reflexivity.
  Qed.

  Lemma sstep_remove x m s : In x vs ->
    set_step U C (PRemove x) s (self_s m) = (s, self_s (upd m x false), ABool (m x)).
  Proof.
    intros Hx. destruct (index_of_name vs x Hx) as [i Hi]. enter x i.
    rewrite ev_call2, (ev_name_s _ _ _ _ x) by auto. cbn [andthen].
    match goal with |- context [ev (EBool false) ?st] =>
      change (ev (EBool false) st) with (@CVal V Empty_set (VBool false), st) end.
    cbn [andthen run_prim]. unfold swap. rewrite (read_s _ _ _ _ x), (write_s _ _ _ _ x) by auto.
    reflexivity.
  Qed.

  Lemma len_elements (m : string -> bool) l n :
    List.fold_left (fun a x => a + usize_from (m x)) l n = n + List.length (filter m l).
  Proof.
    revert n. induction l as [|x r IH]; intros n; cbn; [lia|].
    rewrite IH. destruct (m x); cbn; lia.
  Qed.

  Lemma empty_elements (m : string -> bool) l b :
    List.fold_left (fun a x => a && negb (m x)) l b = b && Nat.eqb (List.length (filter m l)) 0.
  Proof.
    revert b. induction l as [|x r IH]; intros b; cbn; [now rewrite andb_true_r|].
    rewrite IH. destruct (m x); cbn.
    - now rewrite andb_false_r.
    - now rewrite andb_true_r.
  Qed.

  Lemma sstep_len m s : set_step U C PLen s (self_s m) =
    (s, self_s m, ANat (List.length (elements vs m))).
  Proof.
    cbn [set_step]. unfold ask. erewrite named_call_s by reflexivity. rewrite out_body.
    unfold sum_of. rewrite names_map, map_map.
    rewrite (ev_sum _ _ _ _ _ _ _ _ (fun e => usize_from (m (fst e)))
               (named vs) _ _ 0); [|reflexivity|].
    - cbn. rewrite (fold_named vs (fun n x => n + usize_from (m x))).
      now rewrite len_elements.
    - intros [x n] He. apply named_in in He as (i & Hi & ->). cbn [fst snd].
      rewrite ev_call1, (ev_deref i x) by auto. reflexivity.
  Qed.

  Lemma sstep_is_empty m s : set_step U C PIsEmpty s (self_s m) =
    (s, self_s m, ABool (Nat.eqb (List.length (elements vs m)) 0)).
  Proof.
    cbn [set_step]. unfold ask. erewrite named_call_s by reflexivity. rewrite out_body.
    unfold all_of. rewrite names_map, map_map.
    rewrite (ev_all _ _ _ _ _ _ _ _ (fun e => negb (m (fst e)))
               (named vs) _ _ true); [|reflexivity|].
    - cbn. rewrite (fold_named vs (fun b x => b && negb (m x))).
      now rewrite empty_elements.
    - intros [x n] He. apply named_in in He as (i & Hi & ->). cbn [fst snd].
      rewrite ev_call1, (ev_deref i x) by auto. reflexivity.
  Qed.

  Lemma ref_filter_ends l : forall s m,
    snd (ref_filter U l s m) = AUnit \/ snd (ref_filter U l s m) = AUnwound.
  Proof.
    induction l as [|x r IH]; intros s m; cbn; auto.
    destruct (m x); auto. destruct (keep U s x) as [s1 [b|]]; auto.
  Qed.

  Definition filter_stmt (e : string * string) : Expr :=
    EIf (call1 Deref (EVar (snd e)))
        (EAssignTo (EVar (snd e)) (EFunc (EVariant (fst e))))
        EUnit.

  Lemma ev_filter l loc oth lent : incl l (named vs) -> forall s m,
    ev (seq_of (List.map filter_stmt l))
       (MkRt (slots vs ++ loc) (self_s m) oth lent s) =
    let '(s', m', a) := ref_filter U (List.map fst l) s m in
    (ended a, MkRt (slots vs ++ loc) (self_s m') oth lent s').
  Proof.
    induction l as [|[x n] r IH]; intros Hl s m; [reflexivity|].
    assert (Hr : incl r (named vs)) by (intros y Hy; apply Hl; now right).
    assert (H : In (x, n) (named vs)) by (apply Hl; now left).
    apply named_in in H as (i & Hi & ->).
    cbn [List.map seq_of fst ref_filter]. rewrite ev_seq. unfold filter_stmt at 1.
    cbn [fst snd]. rewrite ev_if, (ev_deref i x) by auto. cbn [andthen].
    destruct (m x) eqn:E; [|apply IH; exact Hr].
    rewrite ev_assignto, ev_func.
    match goal with |- context [ev (EVariant x) ?st] =>
      change (ev (EVariant x) st) with (@CVal V Empty_set (VEnum x), st) end.
    cbn [andthen rt_user].
    change (en_func (linked U) s (VEnum x)) with (keep U s x).
    destruct (keep U s x) as [s1 [b|]]; [|reflexivity].
    cbn [andthen]. unfold with_user. cbn [rt_loc rt_self rt_other rt_lent rt_user].
    rewrite (ev_name_s _ _ _ _ x) by auto. cbn [andthen]. unfold store.
    rewrite (read_s _ _ _ _ x), (write_s _ _ _ _ x) by auto. cbn [rt_user].
    change (en_dropped (linked U) s1 (VBool (m x))) with (s1, false). cbv beta iota.
    cbn [andthen]. unfold with_user. cbn [rt_loc rt_self rt_other rt_lent rt_user].
    now apply IH.
  Qed.

  Lemma sstep_retain m s : set_step U C PRetain s (self_s m) =
    let '(s', m', a) := ref_filter U vs s m in (s', self_s m', a).
  Proof.
    cbn [set_step]. unfold ask. erewrite named_call_s by reflexivity. rewrite out_body.
    pose proof (ev_filter (named vs) [] VUnit VUnit (fun y H => H) s m) as H.
    unfold filter_stmt, named in H. rewrite H. clear H.
    fold (named vs). rewrite named_fst.
    pose proof (ref_filter_ends vs s m) as He.
    destruct (ref_filter U vs s m) as [[s' m'] a]. cbn [snd] in He.
    destruct He as [->| ->]; reflexivity.
  Qed.

  Lemma drop_flags (l : list bool) : forall s,
    drop_val (drop U) (fun s (x : Empty_set) => match x with end)
      (VArr (List.map VBool l)) s = (s, false).
  Proof.
    induction l as [|b r IH]; intros s; [reflexivity|].
    cbn [List.map].
    transitivity
      (let '(s1, u1) := (s, false) in
       let '(s2, u2) := drop_val (drop U) (fun s (x : Empty_set) => match x with end)
                          (VArr (List.map VBool r)) s1 in
       (s2, u1 || u2)); [reflexivity|].
    cbv beta iota. now rewrite IH.
  Qed.

  Lemma sstep_clear m s : set_step U C PClear s (self_s m) =
    (s, self_s (fun _ => false), AUnit).
  Proof.
    cbn [set_step]. unfold ask.
    erewrite (invoke_eq _ _ _ _ _ []) by reflexivity.
    rewrite out_body. unfold eval_in. fold calls_s. rewrite ev_assignto, ev_arr.
    rewrite (evl_pure _ _ _ _ _ _ _ _ (fun _ => VBool false)) by reflexivity.
    cbn [andthen List.rev app]. rewrite ev_refto. cbn [andthen]. unfold store, self_s.
    rewrite write_data.
    change (read (S := S) (MkRt (List.combine [] []) (self_of (List.map (fun x => VBool (m x)) vs)) VUnit VUnit s)
      (MkPlace BSelf [SField "data"])) with (Some (@VArr V Empty_set (List.map (fun x => VBool (m x)) vs))).
    cbn [rt_user]. change (en_dropped (linked U) s) with
      (fun v => drop_val (drop U) (fun s (x : Empty_set) => match x with end) v s).
    cbn beta. rewrite <- (map_map m VBool), drop_flags. reflexivity.
  Qed.

  Definition sitem (m : string -> bool) (i : nat) : val :=
    if m (nm i) then VSome (VEnum (nm i)) else VNone.

  Lemma decode_elements self m : decode_items self (List.map (sitem m) idx) =
    Some (List.map (fun x => (Some x, None)) (elements vs m)).
  Proof.
    unfold elements. rewrite <- (idx_names vs) at 2.
    generalize idx. intros l.
    induction l as [|i r IH]; [reflexivity|].
    cbn [List.map filter]. unfold sitem at 1. destruct (m (nm i)); cbn [decode_items].
    - now rewrite IH.
    - exact IH.
  Qed.

  Lemma flat_sitems (st : rt) m l :
    flat_items st (List.map (sitem m) l) = Some (List.map (sitem m) l).
  Proof.
    induction l as [|i r IH]; [reflexivity|]. cbn [List.map flat_items]. rewrite IH.
    unfold sitem at 1. destruct (m (nm i)) eqn:E; unfold sitem at 2; now rewrite E.
  Qed.

  Lemma sstep_iter q m s : q = PIter \/ q = PIntoIter -> set_step U C q s (self_s m) =
    (s, self_s m, AItems (List.map (fun x => (Some x, None)) (elements vs m))).
  Proof.
    intros Hq.
    assert (G : forall meth, (meth = "iter" \/ meth = "into_iter") ->
      ask U C meth [] s (self_s m) =
      (s, self_s m, AItems (List.map (fun x => (Some x, None)) (elements vs m)))).
    { intros meth Hm. unfold ask.
      erewrite (named_call_s meth) by (destruct Hm as [->| ->]; reflexivity).
      rewrite out_body, ev_call1, ev_call1, ev_arr, named_idx, map_map.
      rewrite (evl_pure _ _ _ _ _ _ _ _ (sitem m)).
      - cbn [andthen List.rev app run_prim]. rewrite flat_sitems.
        cbn [option_map answer_of out fst snd rt_self rt_user decode].
        now rewrite decode_elements.
      - intros i Hi. cbn [fst snd]. rewrite ev_if.
        rewrite (ev_deref i (nm i)) by now apply nm_nth.
        cbn [andthen]. unfold sitem. destruct (m (nm i)); reflexivity. }
    destruct Hq as [->| ->]; apply G; auto.
  Qed.

  Lemma scode_empty s :
    invoke (linked U) C "empty" [] VUnit VUnit s = (CVal (self_s (fun _ => false)), VUnit, s).
  Proof.
    erewrite (invoke_eq _ _ _ _ _ []) by reflexivity.
    rewrite out_body. unfold eval_in. fold calls_s. cbn [xs_of]. rewrite ev_struct, evl_cons, ev_arr.
    rewrite (evl_pure _ _ _ _ _ _ _ _ (fun _ => VBool false)) by reflexivity.
    reflexivity.
  Qed.

  Theorem set_step_ref q s m : set_well_named vs q ->
    set_step U C q s (self_s m) =
    let '(s', m', a) := ref_set vs U false q s m in (s', self_s m', a).
  Proof.
    destruct q; cbn [set_well_named]; intros H.
    - apply sstep_len.
    - apply sstep_is_empty.
    - now apply sstep_contains.
    - now apply sstep_insert.
    - now apply sstep_remove.
    - rewrite sstep_retain. cbn [ref_set].
      destruct (ref_filter U vs s m) as [[s' m'] []]; reflexivity.
    - apply sstep_clear.
    - apply sstep_iter. auto.
    - apply sstep_iter. auto.
  Qed.

  Lemma set_answers l : forall s m, Forall (set_well_named vs) l ->
    answers (set_step U C) l s (self_s m) = answers (ref_set vs U false) l s m.
  Proof.
    induction l as [|q r IH]; intros s m H; [reflexivity|].
    inversion H; subst. cbn [answers]. rewrite set_step_ref by auto.
    destruct (ref_set vs U false q s m) as [[s' m'] a]. now rewrite IH.
  Qed.

  Lemma set_serves l s : Forall (set_well_named vs) l ->
    serve U (set_step U) C l s = Some (answers (ref_set vs U false) l s (fun _ => false)).
  Proof. intros H. unfold serve. now rewrite scode_empty, set_answers. Qed.
End Set_.

(** * Sets as integers *)

(** The integer whose bits are the elements. *)
Fixpoint pack (l : list string) (m : string -> bool) : N :=
  match l with
  | [] => 0
  | x :: r => 2 * pack r m + N.b2n (m x)
  end%N.

Lemma pack_bit (m : string -> bool) l : forall i, N.testbit (pack l m) (N.of_nat i) =
  match nth_error l i with Some x => m x | None => false end.
Proof.
  induction l as [|x r IH]; intros i.
  - cbn [pack]. rewrite N.bits_0. now destruct i.
  - cbn [pack]. destruct i as [|i].
    + apply N.testbit_0_r.
    + rewrite Nat2N.inj_succ, N.testbit_succ_r. apply IH.
Qed.

Lemma pack_bits (m : string -> bool) l d :
  (forall i, N.testbit d (N.of_nat i) =
             match nth_error l i with Some x => m x | None => false end) ->
  d = pack l m.
Proof.
  intros H. apply N.bits_inj_iff. intros i. rewrite <- (N2Nat.id i), H. symmetry. apply pack_bit.
Qed.

Lemma pack_below (m : string -> bool) l : below (List.length l) (pack l m).
Proof. intros i Hi. rewrite pack_bit. now rewrite (proj2 (nth_error_None l i)). Qed.

Lemma pack_ext (m m' : string -> bool) l : (forall x, In x l -> m x = m' x) ->
  pack l m = pack l m'.
Proof.
  induction l as [|x r IH]; intros H; cbn; [reflexivity|].
  rewrite (H x), IH; auto; [|now left]. intros y Hy. apply H. now right.
Qed.

Lemma pack_count (m : string -> bool) l :
  count_ones (pack l m) = List.length (filter m l).
Proof.
  induction l as [|x r IH]; [reflexivity|]. cbn [pack filter].
  destruct (m x); cbn [List.length]; rewrite <- IH.
  - rewrite <- count_ones_succ_double. apply (f_equal count_ones). now destruct (pack r m).
  - transitivity (count_ones (N.double (pack r m))); [|apply count_ones_double].
    apply (f_equal count_ones). now destruct (pack r m).
Qed.

Lemma pack_zero (m : string -> bool) l :
  N.eqb (pack l m) 0 = Nat.eqb (List.length (filter m l)) 0.
Proof.
  induction l as [|x r IH]; [reflexivity|]. cbn [pack filter].
  destruct (m x); cbn [N.b2n List.length].
  - apply N.eqb_neq. lia.
  - rewrite <- IH. destruct (N.eqb_spec (pack r m) 0) as [->|E]; [reflexivity|].
    apply N.eqb_neq. lia.
Qed.

Lemma pack_set (m : string -> bool) l i x : NoDup l -> nth_error l i = Some x ->
  N.lor (pack l m) (number i) = pack l (upd m x true).
Proof.
  intros Hn Hi. apply pack_bits. intros j. rewrite N.lor_spec, pack_bit, number_testbit.
  destruct (Nat.eqb_spec i j) as [<-|E].
  - rewrite Hi. unfold upd. now rewrite String.eqb_refl, orb_true_r.
  - rewrite orb_false_r. destruct (nth_error l j) as [y|] eqn:Ej; [|reflexivity].
    unfold upd. destruct (String.eqb_spec y x) as [->|]; [|reflexivity].
    exfalso. apply E. eapply NoDup_nth_error; eauto.
    + apply nth_error_Some. congruence.
    + congruence.
Qed.

Lemma pack_unset w (m : string -> bool) l i x : NoDup l -> nth_error l i = Some x ->
  (N.of_nat (List.length l) <= w)%N ->
  N.land (pack l m) (not_bits w (number i)) = pack l (upd m x false).
Proof.
  intros Hn Hi Hw. apply pack_bits. intros j. rewrite N.land_spec, pack_bit.
  destruct (nth_error l j) as [y|] eqn:Ej; [|reflexivity].
  assert (j < List.length l) by (apply nth_error_Some; congruence).
  rewrite not_bits_testbit by lia. rewrite number_testbit. unfold upd.
  destruct (Nat.eqb_spec i j) as [<-|E].
  - assert (y = x) by congruence. subst. rewrite String.eqb_refl. apply andb_false_r.
  - cbn [negb]. rewrite andb_true_r. destruct (String.eqb_spec y x) as [->|]; [|reflexivity].
    exfalso. apply E. eapply NoDup_nth_error; eauto.
    + apply nth_error_Some. congruence.
    + congruence.
Qed.

Section Bitset.
  Context {S V : Type} (U : user S V) (vs : list string) (w : N).
  Hypothesis distinct : NoDup vs.
  Hypothesis fits : (N.of_nat (List.length vs) <= w)%N.
  Notation val := (val V Empty_set).
  Notation rt := (rt V Empty_set S).
  Notation C := (bitset_code w vs).
  Notation idx := (idx vs).
  Notation nm := (nm vs).
  Definition calls_b : string -> list val -> rt -> ctl V Empty_set * rt :=
    by_name (eval (en_func (linked U)) (en_func2 (linked U)) (en_dropped (linked U))
                  (en_ext (linked U)) (en_ext_retain (linked U))
                  (fun _ _ st => (CStuck, st)) (en_fuel (linked U))) (cd_helpers C).
  Notation ev := (eval (en_func (linked U)) (en_func2 (linked U)) (en_dropped (linked U))
                       (en_ext (linked U)) (en_ext_retain (linked U)) calls_b
                       (en_fuel (linked U))).

  Definition self_n (d : N) : val := VStruct [("data", VInt d)].
  Definition self_b (m : string -> bool) : val := self_n (pack vs m).

  Lemma numbered_in x d : In (x, d) (List.combine vs (numbers vs)) <->
    exists i, nth_error vs i = Some x /\ d = number i.
  Proof.
    unfold numbers.
    assert (G : forall l k, In (x, d)
      (List.combine l (List.map number (List.seq k (List.length l)))) <->
      exists i, nth_error l i = Some x /\ d = number (k + i)).
    { induction l as [|v r IH]; intros k.
      - cbn. split; [contradiction|]. intros ([|i] & H & _); discriminate.
      - cbn [List.length List.seq List.map List.combine In]. rewrite IH. split.
        + intros [E|(i & H & ->)].
          * injection E as <- <-. exists 0. now rewrite Nat.add_0_r.
          * exists (Datatypes.S i). split; [exact H|]. f_equal. lia.
        + intros ([|i] & H & ->).
          * left. cbn in H. injection H as <-. now rewrite Nat.add_0_r.
          * right. exists i. split; [exact H|]. f_equal. lia. }
    apply (G vs 0).
  Qed.

  Lemma numbered_fst : List.map fst (List.combine vs (numbers vs)) = vs.
  Proof.
    assert (H : List.length (numbers vs) = List.length vs)
      by (unfold numbers; now rewrite map_length, seq_length).
    revert H. generalize (numbers vs). induction vs as [|v r IH]; intros [|n l] H;
      cbn in *; try discriminate; auto. f_equal. apply IH; [|lia|lia].
    now inversion distinct.
  Qed.

  Lemma to_bits st x i : nth_error vs i = Some x ->
    calls_b "to_bits" [VEnum x] st = (CVal (VInt (number i)), st).
  Proof.
    intros Hi. unfold calls_b, by_name. cbn [cd_helpers bitset_code lookup].
    change (String.eqb "to_bits" "to_bits") with true. cbv iota.
    unfold run_fn. cbn [fst snd List.length Nat.eqb].
    rewrite ev_match, ev_var. cbn [rt_loc with_loc List.combine lookup].
    change (String.eqb "value" "value") with true. cbv iota. cbn [answer_of andthen].
    rewrite (eva_variant _ _ _ _ _ _ _ fst (fun e => EInt (snd e))
               (List.combine vs (numbers vs)) (x, number i)).
    - cbn [snd]. destruct st. reflexivity.
    - now rewrite numbered_fst.
    - apply numbered_in. now exists i.
  Qed.

  Lemma ev_data loc d oth lent s :
    ev (EField BSelf "data") (MkRt loc (self_n d) oth lent s) =
    (CVal (VInt d), MkRt loc (self_n d) oth lent s).
  Proof. reflexivity. Qed.

  Lemma swap_data loc d oth lent (s : S) d' :
    swap (MkRt loc (self_n d) oth lent s) (MkPlace BSelf [SField "data"]) (VInt d') =
    (CVal (VInt d), MkRt loc (self_n d') oth lent s).
  Proof. reflexivity. Qed.

  Lemma ev_to_bits x i e st : nth_error vs i = Some x ->
    ev e st = (CVal (VEnum x), st) ->
    ev (ECall "to_bits" (xs_of [e])) st = (CVal (VInt (number i)), st).
  Proof.
    intros Hi He. rewrite ev_ecall. cbn [xs_of]. rewrite evl_cons, He. cbn [andthen].
    rewrite evl_nil. cbn [List.rev app]. now apply to_bits.
  Qed.

  Lemma ev_is_set i x m loc oth lent s : nth_error vs i = Some x ->
    ev (call2 NeInt (call2 BitAnd (EField BSelf "data") (EInt (number i))) (EInt 0))
       (MkRt loc (self_b m) oth lent s) =
    (CVal (VBool (m x)), MkRt loc (self_b m) oth lent s).
  Proof.
    intros Hi. rewrite !ev_call2. unfold self_b. rewrite ev_data. cbn [andthen].
    match goal with |- context [ev (EInt (number i)) ?st] =>
      change (ev (EInt (number i)) st) with (@CVal V Empty_set (VInt (number i)), st) end.
    cbn [andthen run_prim].
    match goal with |- context [ev (EInt 0) ?st] =>
      change (ev (EInt 0) st) with (@CVal V Empty_set (VInt 0), st) end.
    cbn [andthen run_prim]. now rewrite has_number, pack_bit, Hi.
  Qed.

  Ltac enter :=
    cbn [set_step]; unfold ask;
    erewrite invoke_eq by reflexivity;
    rewrite out_body; unfold eval_in; fold calls_b; cbn [List.combine].

  Lemma bstep_contains x m s : In x vs ->
    set_step U C (PContains x) s (self_b m) = (s, self_b m, ABool (m x)).
  Proof.
    intros Hx. destruct (index_of_name vs x Hx) as [i Hi]. enter.
    rewrite !ev_call2. unfold self_b. rewrite ev_data. cbn [andthen].
    rewrite (ev_to_bits x i) by (auto; reflexivity). cbn [andthen run_prim].
    match goal with |- context [ev (EInt 0) ?st] =>
      change (ev (EInt 0) st) with (@CVal V Empty_set (VInt 0), st) end.
    cbn [andthen run_prim]. rewrite has_number, pack_bit, Hi. reflexivity.
  Qed.

  Lemma bstep_insert x m s : In x vs ->
    set_step U C (PInsert x) s (self_b m) = (s, self_b (upd m x true), ABool (negb (m x))).
  Proof.
    intros Hx. destruct (index_of_name vs x Hx) as [i Hi]. enter.
    rewrite ev_let, (ev_to_bits x i) by (auto; reflexivity). cbn [andthen].
    rewrite out_scoped. rewrite with_loc_mk. cbn [rt_loc app].
    rewrite ev_let, ev_call2. unfold self_b. rewrite ev_data. cbn [andthen].
    rewrite ev_var. cbn [rt_loc lookup].
    change (String.eqb "mask" "mask") with true. cbv iota. cbn [answer_of andthen run_prim].
    rewrite out_scoped. rewrite with_loc_mk. cbn [rt_loc app].
    rewrite !ev_call2, ev_refto. cbn [andthen]. rewrite ev_var. cbn [rt_loc lookup].
    change (String.eqb "update" "update") with true. cbv iota. cbn [answer_of andthen run_prim].
    rewrite swap_data. cbn [andthen]. rewrite ev_var. cbn [rt_loc lookup].
    change (String.eqb "mask" "update") with false.
    change (String.eqb "mask" "mask") with true. cbv iota. cbn [answer_of andthen run_prim].
    match goal with |- context [ev (EInt 0) ?st] =>
      change (ev (EInt 0) st) with (@CVal V Empty_set (VInt 0), st) end.
    cbn [andthen run_prim out fst snd rt_self rt_user decode].
    now rewrite land_number, pack_bit, Hi, (pack_set m vs i x).
  Qed.

  Lemma bstep_remove x m s : In x vs ->
    set_step U C (PRemove x) s (self_b m) = (s, self_b (upd m x false), ABool (m x)).
  Proof.
    intros Hx. destruct (index_of_name vs x Hx) as [i Hi]. enter.
    rewrite ev_let, (ev_to_bits x i) by (auto; reflexivity). cbn [andthen].
    rewrite out_scoped. rewrite with_loc_mk. cbn [rt_loc app].
    rewrite ev_let, ev_call2. unfold self_b. rewrite ev_data. cbn [andthen].
    rewrite ev_call1, ev_var. cbn [rt_loc lookup].
    change (String.eqb "mask" "mask") with true. cbv iota. cbn [answer_of andthen run_prim].
    rewrite out_scoped. rewrite with_loc_mk. cbn [rt_loc app].
    rewrite !ev_call2, ev_refto. cbn [andthen]. rewrite ev_var. cbn [rt_loc lookup].
    change (String.eqb "update" "update") with true. cbv iota. cbn [answer_of andthen run_prim].
    rewrite swap_data. cbn [andthen]. rewrite ev_var. cbn [rt_loc lookup].
    change (String.eqb "mask" "update") with false.
    change (String.eqb "mask" "mask") with true. cbv iota. cbn [answer_of andthen run_prim].
    match goal with |- context [ev (EInt 0) ?st] =>
      change (ev (EInt 0) st) with (@CVal V Empty_set (VInt 0), st) end.
    cbn [andthen run_prim out fst snd rt_self rt_user decode].
    now rewrite has_number, pack_bit, Hi, (pack_unset w m vs i x).
  Qed.

  Lemma bstep_len m s : set_step U C PLen s (self_b m) =
    (s, self_b m, ANat (List.length (elements vs m))).
  Proof.
    enter. rewrite ev_call1. unfold self_b. rewrite ev_data. cbn [andthen run_prim].
    cbn [out fst snd rt_self rt_user decode]. now rewrite pack_count.
  Qed.

  Lemma bstep_is_empty m s : set_step U C PIsEmpty s (self_b m) =
    (s, self_b m, ABool (Nat.eqb (List.length (elements vs m)) 0)).
  Proof.
    enter. rewrite ev_call2. unfold self_b. rewrite ev_data. cbn [andthen run_prim].
    match goal with |- context [ev (EInt 0) ?st] =>
      change (ev (EInt 0) st) with (@CVal V Empty_set (VInt 0), st) end.
    cbn [andthen run_prim out fst snd rt_self rt_user decode]. now rewrite pack_zero.
  Qed.

  Lemma bstep_clear m s : set_step U C PClear s (self_b m) =
    (s, self_b (fun _ => false), AUnit).
  Proof.
    enter. cbn. unfold self_b, self_n. do 6 f_equal.
    assert (H : forall l, pack l (fun _ => false) = 0%N)
      by (induction l as [|x r IH]; cbn; [reflexivity|now rewrite IH]).
    now rewrite H.
  Qed.

  Lemma numbered_idx : List.combine vs (numbers vs) =
    List.map (fun i => (nm i, number i)) idx.
  Proof.
    rewrite <- (idx_names vs) at 1. unfold numbers. rewrite combine_map. reflexivity.
  Qed.

  Lemma bstep_iter q m s : q = PIter \/ q = PIntoIter -> set_step U C q s (self_b m) =
    (s, self_b m, AItems (List.map (fun x => (Some x, None)) (elements vs m))).
  Proof.
    intros Hq.
    assert (G : forall meth, (meth = "iter" \/ meth = "into_iter") ->
      ask U C meth [] s (self_b m) =
      (s, self_b m, AItems (List.map (fun x => (Some x, None)) (elements vs m)))).
    { intros meth Hm. unfold ask.
      erewrite (invoke_eq _ _ meth _ _ []) by (destruct Hm as [->| ->]; reflexivity).
      rewrite out_body. unfold eval_in. fold calls_b.
      rewrite ev_call1, ev_call1, ev_arr, numbered_idx, map_map.
      rewrite (evl_pure _ _ _ _ _ _ _ _ (sitem vs m)).
      - cbn [andthen List.rev app run_prim]. rewrite flat_sitems.
        cbn [option_map answer_of out fst snd rt_self rt_user decode].
        now rewrite decode_elements.
      - intros i Hi. cbn [fst snd]. rewrite ev_if.
        rewrite (ev_is_set i (nm i)) by now apply nm_nth.
        cbn [andthen]. unfold sitem. destruct (m (nm i)); reflexivity. }
    destruct Hq as [->| ->]; apply G; auto.
  Qed.

  Lemma bcode_empty s :
    invoke (linked U) C "empty" [] VUnit VUnit s = (CVal (self_b (fun _ => false)), VUnit, s).
  Proof.
    erewrite (invoke_eq _ _ _ _ _ []) by reflexivity. cbn. unfold self_b, self_n.
    assert (H : forall l, pack l (fun _ => false) = 0%N)
      by (induction l as [|x r IH]; cbn; [reflexivity|now rewrite IH]).
    now rewrite H.
  Qed.

  (** The statements of [retain]. *)
  Definition bit_stmt (e : string * N) : Expr :=
    EIf (call2 NeInt (call2 BitAnd (EField BSelf "data") (EInt (snd e))) (EInt 0))
        (EIf (EFunc (EVariant (fst e)))
             (EAssign "update" (call2 BitOr (EVar "update") (EInt (snd e))))
             EUnit)
        EUnit.

  Definition without (l : list string) (m : string -> bool) (x : string) : bool :=
    m x && negb (existsb (String.eqb x) l).

  Lemma ev_bits l m0 loc oth lent : incl l (List.combine vs (numbers vs)) ->
    NoDup (List.map fst l) -> forall s m,
    (forall x, In x (List.map fst l) -> m x = m0 x) ->
    exists u,
    ev (seq_of (List.map bit_stmt l))
       (MkRt (("update", VInt (pack vs (without (List.map fst l) m))) :: loc)
             (self_b m0) oth lent s) =
    (let '(s', m', a) := ref_filter U (List.map fst l) s m in
     (ended a, MkRt (("update", VInt u) :: loc) (self_b m0) oth lent s')) /\
    (snd (ref_filter U (List.map fst l) s m) = AUnit ->
     u = pack vs (snd (fst (ref_filter U (List.map fst l) s m)))).
  Proof.
    induction l as [|[x d] r IH]; intros Hl Hn s m Hm.
    { cbn. eexists. split; [reflexivity|]. intros _. apply pack_ext. intros y _.
      unfold without. cbn. apply andb_true_r. }
    assert (Hr : incl r (List.combine vs (numbers vs))) by (intros y Hy; apply Hl; now right).
    assert (H : In (x, d) (List.combine vs (numbers vs))) by (apply Hl; now left).
    apply numbered_in in H as (i & Hi & ->). cbn [List.map fst] in Hn, Hm.
    inversion Hn as [|? ? Hx Hn' E1]. subst.
    cbn [List.map seq_of fst ref_filter]. rewrite ev_seq. unfold bit_stmt at 1.
    cbn [fst snd]. rewrite ev_if, (ev_is_set i x) by auto. cbn [andthen].
    rewrite <- (Hm x) by now left.
    assert (Hw : existsb (String.eqb x) (List.map fst r) = false).
    { apply not_true_is_false. intros Ht. apply existsb_exists in Ht as (y & Hy & Ey).
      apply String.eqb_eq in Ey. subst. contradiction. }
    destruct (m x) eqn:E.
    - rewrite ev_if, ev_func.
      match goal with |- context [ev (EVariant x) ?st] =>
        change (ev (EVariant x) st) with (@CVal V Empty_set (VEnum x), st) end.
      cbn [andthen rt_user].
      change (en_func (linked U) s (VEnum x)) with (keep U s x).
      destruct (keep U s x) as [s1 [b|]].
      2:{ eexists. split; [reflexivity|]. cbn. discriminate. }
      cbn [andthen]. unfold with_user. cbn [rt_loc rt_self rt_other rt_lent rt_user].
      assert (Hm' : forall y, In y (List.map fst r) -> upd m x b y = m0 y).
      { intros y Hy. unfold upd. destruct (String.eqb_spec y x) as [->|]; [contradiction|].
        apply Hm. now right. }
      destruct (IH Hr Hn' s1 (upd m x b) Hm') as (u & Hu). exists u.
      assert (Ep : (if b then N.lor (pack vs (without (x :: List.map fst r) m)) (number i)
                    else pack vs (without (x :: List.map fst r) m)) =
                   pack vs (without (List.map fst r) (upd m x b))).
      { destruct b.
        - rewrite (pack_set _ _ i x) by auto. apply pack_ext. intros y Hy.
          unfold upd, without. cbn [existsb].
          destruct (String.eqb_spec y x) as [->|]; [now rewrite Hw|reflexivity].
        - apply pack_ext. intros y Hy. unfold upd, without. cbn [existsb].
          destruct (String.eqb_spec y x) as [->|]; [apply andb_false_r|reflexivity]. }
      destruct b.
      + rewrite ev_assign, ev_call2, ev_var. cbn [rt_loc lookup].
        change (String.eqb "update" "update") with true. cbv iota. cbn [answer_of andthen].
        match goal with |- context [ev (EInt (number i)) ?st] =>
          change (ev (EInt (number i)) st) with (@CVal V Empty_set (VInt (number i)), st) end.
        cbn [andthen run_prim rt_loc assign].
        change (String.eqb "update" "update") with true. cbv iota.
        rewrite with_loc_mk, Ep. cbn [andthen]. exact Hu.
      + match goal with |- context [ev EUnit ?st] =>
          change (ev EUnit st) with (@CVal V Empty_set VUnit, st) end.
        cbn [andthen]. rewrite Ep. exact Hu.
    - match goal with |- context [ev EUnit ?st] =>
        change (ev EUnit st) with (@CVal V Empty_set VUnit, st) end.
      cbn [andthen].
      assert (Hm' : forall y, In y (List.map fst r) -> m y = m0 y)
        by (intros y Hy; apply Hm; now right).
      destruct (IH Hr Hn' s m Hm') as (u & Hu). exists u.
      rewrite (pack_ext (without (x :: List.map fst r) m) (without (List.map fst r) m)).
      + exact Hu.
      + intros y Hy. unfold without. cbn [existsb].
        destruct (String.eqb_spec y x) as [->|]; [now rewrite E|reflexivity].
  Qed.

  Lemma pack_none l (m : string -> bool) : (forall x, In x l -> m x = false) -> pack l m = 0%N.
  Proof.
    induction l as [|x r IH]; intros H; cbn; [reflexivity|].
    rewrite IH by (intros y Hy; apply H; now right). rewrite (H x) by now left. reflexivity.
  Qed.

  Lemma bstep_retain m s : set_step U C PRetain s (self_b m) =
    let '(s', m', a) := ref_set vs U true PRetain s m in (s', self_b m', a).
  Proof.
    enter. rewrite ev_let.
    match goal with |- context [ev (EInt 0) ?st] =>
      change (ev (EInt 0) st) with (@CVal V Empty_set (VInt 0), st) end.
    cbn [andthen]. rewrite out_scoped. rewrite with_loc_mk. cbn [rt_loc app].
    rewrite ev_seq. cbn [ref_set].
    assert (Hd : NoDup (List.map fst (List.combine vs (numbers vs))))
      by now rewrite numbered_fst.
    destruct (ev_bits (List.combine vs (numbers vs)) m [] VUnit VUnit
                (fun y H => H) Hd s m (fun x _ => eq_refl)) as (u & Hu & Ha).
    rewrite numbered_fst in Hu, Ha.
    rewrite (pack_none vs (without vs m)) in Hu.
    2:{ intros x Hx. unfold without. replace (existsb (String.eqb x) vs) with true.
        - apply andb_false_r.
        - symmetry. apply existsb_exists. exists x. split; auto. apply String.eqb_refl. }
    unfold bit_stmt in Hu. rewrite Hu. clear Hu.
    pose proof (ref_filter_ends U vs s m) as He.
    destruct (ref_filter U vs s m) as [[s' m'] a]. cbn [snd fst] in He, Ha.
    destruct He as [->| ->]; [|reflexivity].
    rewrite (Ha eq_refl). reflexivity.
  Qed.

  Theorem bit_step_ref q s m : set_well_named vs q ->
    set_step U C q s (self_b m) =
    let '(s', m', a) := ref_set vs U true q s m in (s', self_b m', a).
  Proof.
    destruct q; cbn [set_well_named]; intros H.
    - apply bstep_len.
    - apply bstep_is_empty.
    - now apply bstep_contains.
    - now apply bstep_insert.
    - now apply bstep_remove.
    - apply bstep_retain.
    - apply bstep_clear.
    - apply bstep_iter. auto.
    - apply bstep_iter. auto.
  Qed.

  Lemma bit_answers l : forall s m, Forall (set_well_named vs) l ->
    answers (set_step U C) l s (self_b m) = answers (ref_set vs U true) l s m.
  Proof.
    induction l as [|q r IH]; intros s m H; [reflexivity|].
    inversion H; subst. cbn [answers]. rewrite bit_step_ref by auto.
    destruct (ref_set vs U true q s m) as [[s' m'] a]. now rewrite IH.
  Qed.

  Lemma bit_serves l s : Forall (set_well_named vs) l ->
    serve U (set_step U) C l s = Some (answers (ref_set vs U true) l s (fun _ => false)).
  Proof. intros H. unfold serve. now rewrite bcode_empty, bit_answers. Qed.

  Lemma bit_after l : forall s m, Forall (set_well_named vs) l ->
    after (set_step U C) l s (self_b m) =
    let '(s', m') := after (ref_set vs U true) l s m in (s', self_b m').
  Proof.
    induction l as [|q r IH]; intros s m H; [reflexivity|].
    inversion H; subst. cbn [after]. rewrite bit_step_ref by auto.
    destruct (ref_set vs U true q s m) as [[s' m'] a]. now rewrite IH.
  Qed.

  Lemma bit_serves_raw d m l s : bits_are vs d m -> Forall (set_well_named vs) l ->
    exists d', serve_raw U C d l s =
      Some (answers (ref_set vs U true) l s m, d') /\
      bits_are vs d' (snd (after (ref_set vs U true) l s m)).
  Proof.
    intros Hd Hl. apply pack_bits in Hd. subst d.
    exists (pack vs (snd (after (ref_set vs U true) l s m))). split.
    - unfold serve_raw.
      change (invoke (linked U) C "from_raw" [VInt (pack vs m)] VUnit VUnit s)
        with (@CVal V Empty_set (self_b m), @VUnit V Empty_set, s).
      cbv iota beta. rewrite bit_after, bit_answers by auto.
      destruct (after (ref_set vs U true) l s m) as [s' m']. cbn [snd].
      change (invoke (linked U) C "as_raw" [] (self_b m') VUnit s')
        with (@CVal V Empty_set (VInt (pack vs m')), self_b m', s').
      cbv iota beta. now destruct (answers (ref_set vs U true) l s m).
    - intros i. apply pack_bit.
  Qed.
End Bitset.
