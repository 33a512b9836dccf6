(** The fields and arms of the iterator structs generated for enums with tuple
    variants. *)
Require Import List Arith NArith Bool String Lia.
Import ListNotations.
From Verif Require Import Std Traits OptionBucket MapStorages SetStorages Names Rust UnitCode RustFacts CodeSpec DeriveAny
  UnitCodeProofs AnyCode AnyRun AnyCodeSpec AnyCodeFacts AnyCodeKeys AnyCodeMap AnyCodeOps AnyCodeIter.
Open Scope string_scope.

Lemma both_some {A B C} (a : option A) (b : option B) (f : A -> B -> C) :
  is_some (match a, b with Some x, Some y => Some (f x y) | _, _ => None end) =
  is_some a && is_some b.
Proof. now destruct a, b. Qed.

Section Arms.
  Context {T : Type} {T_dec : forall a b : T, {a = b} + {a <> b}}
          {K : T -> Type} {impl : forall t, KeyImpl (K t)} {V S : Type}.
  Notation val := (val V (foreign impl V)).
  Notation rt := (rt V (foreign impl V) S).
  Notation ctl := (ctl V (foreign impl V)).
  Notation Expr := (expr (meth T)).
  Notation fs flds := (fs_of impl flds).
  Variable U : auser K V S.
  Variable flds0 : vfields T.
  Notation E := (alinked T_dec impl U flds0 (fun _ _ => [])).
  Notation ev call fuel := (eval (en_func E) (en_func2 E) (en_dropped E) (en_ext E) (en_ext_retain E) call fuel).
  Notation evl call fuel := (eval_list (en_func E) (en_func2 E) (en_dropped E) (en_ext E) (en_ext_retain E) call fuel).
  Notation R0 := (R_of (K := K) flds0).

  Context {A : Type} (Ri : A -> val -> Prop).
  Notation arm_sound := (arm_sound (T_dec := T_dec) U flds0 Ri).
  Notation clone_sound := (clone_sound U (A := A)).

  (** ** Unit variants *)

  (** An option that holds a value or reference. *)
  Definition optrel {X} (P : X -> val -> Prop) (s : option X) (v : val) : Prop :=
    match s with
    | None => v = VNone
    | Some x => exists y, v = VSome y /\ P x y
    end.

  Lemma opt_taken {X} (P : X -> val -> Prop) s v : optrel P s v ->
    (s = None /\ v = VNone) \/ (exists x y, s = Some x /\ v = VSome y /\ P x y).
  Proof. destruct s as [x|]; cbn; [|auto]. intros (y & -> & H). right; eauto. Qed.

  Lemma ev_take call fuel loc pre (vs vs' : list val) o e u i v :
    plains pre -> nth_error vs i = Some v -> put i VNone vs = Some vs' ->
    ev call fuel (call1 OptTake (my i)) (MkRt loc (strct pre vs) o e u) =
    (CVal v, MkRt loc (strct pre vs') o e u).
  Proof.
    intros Hp Hn Hu. rewrite ev_call1, ev_my. cbn [andthen run_prim].
    now apply swap_field.
  Qed.

  Lemma pair_arm_sound {X} (P : X -> val -> Prop) (B : X -> A) i n :
    (forall x y, P x y -> Ri (B x) (VPair (VEnum n) y)) ->
    arm_sound i (optrel P) (fun s => Std.map_step B (opt_take s))
      (EIfLet (BVar "value") (call1 OptTake (my i))
        (EReturn (ESome (EPair (EVariant n) (EVar "value"))))).
  Proof.
    intros H s v Hr. destruct (opt_taken _ _ _ Hr) as [[-> ->]|(x & y & -> & -> & Hx)].
    - exists VNone, (CVal VUnit). repeat split. intros.
      rewrite ev_iflet, (ev_take _ _ _ _ vs vs' _ _ _ i VNone) by assumption. reflexivity.
    - exists VNone, (CReturn (VSome (VPair (VEnum n) y))). repeat split.
      + exists (VPair (VEnum n) y). auto.
      + intros. rewrite ev_iflet, (ev_take _ _ _ _ vs vs' _ _ _ i (VSome y)) by assumption.
        reflexivity.
  Qed.

  Lemma value_arm_sound {X} (P : X -> val -> Prop) (B : X -> A) i step :
    (forall s, step s = Std.map_step B (opt_take s)) ->
    (forall x y, P x y -> Ri (B x) y) ->
    arm_sound i (optrel P) step
      (EIfLet (BVar "value") (call1 OptTake (my i)) (EReturn (ESome (EVar "value")))).
  Proof.
    intros Es H s v Hr. rewrite Es.
    destruct (opt_taken _ _ _ Hr) as [[-> ->]|(x & y & -> & -> & Hx)].
    - exists VNone, (CVal VUnit). repeat split. intros.
      rewrite ev_iflet, (ev_take _ _ _ _ vs vs' _ _ _ i VNone) by assumption. reflexivity.
    - exists VNone, (CReturn (VSome y)). repeat split.
      + exists y. auto.
      + intros. rewrite ev_iflet, (ev_take _ _ _ _ vs vs' _ _ _ i (VSome y)) by assumption.
        reflexivity.
  Qed.

  Definition flagrel (b : bool) (v : val) : Prop := v = VBool b.

  Lemma flag_arm_sound (a : A) i n : Ri a (VEnum n) ->
    arm_sound i flagrel (flag_take a)
      (EIf (call1 MemTake (my i)) (EReturn (ESome (EVariant n))) EUnit).
  Proof.
    intros H b v ->. exists (VBool false), (if b then CReturn (VSome (VEnum n)) else CVal VUnit).
    repeat split.
    - destruct b; cbn; [exists (VEnum n); auto|reflexivity].
    - intros. rewrite ev_if, ev_call1, ev_my. cbn [andthen run_prim].
      rewrite read_field by assumption. rewrite H1.
      rewrite (swap_field _ _ vs vs' _ _ _ _ (VBool b)) by assumption. now destruct b.
  Qed.

  Lemma opt_clone_sound (J : iterator A) (r : it_st J -> val -> Prop) :
    (forall s v, r s v -> v = VNone \/ exists p, v = VSome (VRef p)) ->
    (forall s v, r s v -> r (it_clone J s) v) ->
    clone_sound J r.
  Proof.
    intros H1 H2 s v Hr. exists v. split; [auto|].
    destruct (H1 _ _ Hr) as [->|(p & ->)]; intros [? ? ? ? ?]; reflexivity.
  Qed.

  (** ** Tuple variants *)

  (** An iterator of another storage that borrows [p]. *)
  Definition itrel (q : ikind) (t : T) (p : place) (s : it_st (it_of impl (V := V) q t)) (v : val)
    : Prop := v = VForeign (XIt q t p s).

  (** What is returned for an item of it. *)
  Definition out_val (q : ikind) (n : string) (t : T) (p : place)
    : item (K := K) (V := V) q t -> val :=
    match q return item q t -> val with
    | KIter | KIntoIter => fun e => VPair (VEnumOf n (VForeign (XKey t (fst e)))) (VUser (snd e))
    | KKeys | KSetIter | KSetIntoIter => fun k => VEnumOf n (VForeign (XKey t k))
    | KValues => fun v => VUser v
    | KIterMut => fun e => VPair (VEnumOf n (VForeign (XKey t (fst e)))) (vref impl p (snd e))
    | KValuesMut => fun r => vref impl p r
    end.

  (** [m] does a step of the iterator. *)
  Definition does (m : meth T) (q : ikind) (t : T)
    (step : it_st (it_of impl (V := V) q t) ->
            option (item q t) * it_st (it_of impl (V := V) q t)) : Prop :=
    (m = MNext /\ step = it_next (it_of impl q t)) \/
    (m = MNextBack /\ it_back (it_of impl q t) = Some step).

  Lemma ev_advance m q t step p s call fuel loc pre (vs vs' : list val) o e u i :
    does m q t step ->
    plains pre -> nth_error vs i = Some (VForeign (XIt q t p s)) ->
    put i (VForeign (XIt q t p (snd (step s)))) vs = Some vs' ->
    ev call fuel (ext m [my i]) (MkRt loc (strct pre vs) o e u) =
    (CVal (match fst (step s) with
           | Some x => VSome (item_val impl q t p x)
           | None => VNone end),
     MkRt loc (strct pre vs') o e u).
  Proof.
    intros Hd Hp Hn Hu. rewrite ev_ext1, ev_my. cbn [andthen].
    destruct Hd as [[-> ->]|[-> Hb]]; cbn [ext_call]; unfold advance;
      rewrite read_field, Hn by exact Hp; rewrite ?Hb; cbn [option_map].
    - destruct (it_next (it_of impl q t) s) as [x s']. cbn [fst snd] in *.
      now rewrite (write_field _ _ _ vs') by assumption.
    - destruct (step s) as [x s']. cbn [fst snd] in *.
      now rewrite (write_field _ _ _ vs') by assumption.
  Qed.

  Lemma complex_arm_sound m q t p step i n (B : item q t -> A)
    (step' : it_st (it_of impl (V := V) q t) -> option A * it_st (it_of impl (V := V) q t)) :
    does m q t step ->
    (forall s, step' s = Std.map_step B (step s)) ->
    (forall x, Ri (B x) (out_val q n t p x)) ->
    arm_sound i (itrel q t p) step' (snd (complex_arm m q i n t)).
  Proof.
    intros Hd Hs HR s v ->. rewrite Hs.
    exists (VForeign (XIt q t p (snd (step s)))),
      (match fst (step s) with
       | Some x => CReturn (VSome (out_val q n t p x))
       | None => CVal VUnit end).
    repeat split.
    - cbn [Std.map_step fst]. destruct (fst (step s)) as [x|]; cbn; [|reflexivity].
      exists (out_val q n t p x). auto.
    - intros.
      pose proof (ev_advance m q t step p s call fuel loc pre vs vs' o e u i Hd H H0 H1) as G.
      cbn [snd complex_arm]. destruct q; cbn iota; rewrite ev_iflet, G; cbn [andthen];
        destruct (fst (step s)) as [x|]; reflexivity.
  Qed.

  Lemma it_clone_sound q t p (J : iterator A) (r : it_st J -> val -> Prop) :
    (forall s v, r s v -> exists s0, v = VForeign (XIt q t p s0) /\
       r (it_clone J s) (VForeign (XIt q t p (it_clone (it_of impl q t) s0)))) ->
    clone_sound J r.
  Proof.
    intros H s v Hr. destruct (H s v Hr) as (s0 & -> & Hc). eexists. split; [exact Hc|]. reflexivity.
  Qed.

  (** * All fields *)
  Section Build.
    Variable q : ikind.
    Variable simple : nat -> R0 -> iterator A.
    Variable complex : nat -> forall K, KeyImpl K -> (K -> R0) -> iterator A.
    Variable rs : forall i k, it_st (simple i k) -> val -> Prop.
    Variable rc : forall i t inj, it_st (complex i (K t) (impl t) inj) -> val -> Prop.

    Fixpoint build (i : nat) (flds : vfields T)
      : forall inj : R_of flds -> R0,
        sims (impl := impl) (V := V) (field_its simple complex i (fs flds) inj) :=
      match flds return forall inj : R_of flds -> R0,
        sims (field_its simple complex i (fs flds) inj) with
      | [] => fun _ => SNil
      | (x, None) :: r => fun inj =>
          SCons (simple i (inj (inl tt))) (rs i (inj (inl tt)))
            (snd (simple_arm q i x)) (snd (simple_arm q i x)) _
            (build (Datatypes.S i) r (fun k => inj (inr k)))
      | (x, Some t) :: r => fun inj =>
          SCons (complex i (K t) (impl t) (fun k => inj (inl k))) (rc i t (fun k => inj (inl k)))
            (snd (complex_arm MNext q i x t)) (snd (complex_arm MNextBack q i x t)) _
            (build (Datatypes.S i) r (fun k => inj (inr k)))
      end.

    Lemma simple_arm_num i n : simple_arm (T := T) q i n = (PNum i, snd (simple_arm q i n)).
    Proof. reflexivity. Qed.
    Lemma complex_arm_num m i n t : complex_arm (T := T) m q i n t = (PNum i, snd (complex_arm m q i n t)).
    Proof. reflexivity. Qed.

    Lemma build_forwards flds : forall i inj,
      each (simple_arm q) (complex_arm MNext q) i flds = numbered_arms i (forwards (build i flds inj)).
    Proof.
      induction flds as [|[x [t|]] r IH]; intros i inj; [reflexivity| |];
        cbn [each build forwards numbered_arms]; f_equal; apply IH.
    Qed.
    Lemma build_backwards flds : forall i inj,
      each (simple_arm q) (complex_arm MNextBack q) i flds =
      numbered_arms i (backwards (build i flds inj)).
    Proof.
      induction flds as [|[x [t|]] r IH]; intros i inj; [reflexivity| |];
        cbn [each build backwards numbered_arms]; f_equal; apply IH.
    Qed.

    Lemma its_length flds : forall i (inj : R_of flds -> R0),
      List.length (field_its simple complex i (fs flds) inj) = List.length flds.
    Proof.
      induction flds as [|[x [t|]] r IH]; intros i inj; [reflexivity| |];
        cbn [fs_of field_its List.length]; f_equal; apply IH.
    Qed.

    Lemma fields_length flds : fields_len (fs flds) = List.length flds.
    Proof. induction flds as [|[x [t|]] r IH]; cbn; auto. Qed.

    Variable cl : bool.
    Hypothesis simple_ok : forall i x k,
      nth_error flds0 i = Some (x, None) -> written flds0 k = Plain x ->
      arm_sound i (rs i k) (it_next (simple i k)) (snd (simple_arm q i x)) /\
      (forall b, it_back (simple i k) = Some b -> arm_sound i (rs i k) b (snd (simple_arm q i x))) /\
      (cl = true -> clone_sound (simple i k) (rs i k)).
    Hypothesis complex_ok : forall i x t inj,
      nth_error flds0 i = Some (x, Some t) -> (forall k, written flds0 (inj k) = Holding x t k) ->
      arm_sound i (rc i t inj) (it_next (complex i _ (impl t) inj)) (snd (complex_arm MNext q i x t)) /\
      (forall b, it_back (complex i _ (impl t) inj) = Some b ->
         arm_sound i (rc i t inj) b (snd (complex_arm MNextBack q i x t))) /\
      (cl = true -> clone_sound (complex i _ (impl t) inj) (rc i t inj)).

    Lemma build_sound flds : forall pre (inj : R_of flds -> R0),
      flds0 = (pre ++ flds)%list ->
      (forall k, written flds0 (inj k) = written flds k) ->
      sound (T_dec := T_dec) U flds0 Ri cl (List.length pre) (build (List.length pre) flds inj).
    Proof.
      induction flds as [|[x [t|]] r IH]; intros pre inj H0 Hw; [exact I| |]; cbn [build sound].
      - destruct (complex_ok (List.length pre) x t (fun k => inj (inl k))) as (H1 & H2 & H3).
        + rewrite H0. apply nth_app.
        + intros k. apply (Hw (inl k)).
        + repeat (split; [assumption|]).
          specialize (IH (pre ++ [(x, Some t)])%list (fun k => inj (inr k))).
          rewrite snoc_app, app_length in IH. cbn [List.length] in IH. rewrite Nat.add_1_r in IH.
          apply IH; [exact H0|]. intros k. apply (Hw (inr k)).
      - destruct (simple_ok (List.length pre) x (inj (inl tt))) as (H1 & H2 & H3).
        + rewrite H0. apply nth_app.
        + apply (Hw (inl tt)).
        + repeat (split; [assumption|]).
          specialize (IH (pre ++ [(x, None)])%list (fun k => inj (inr k))).
          rewrite snoc_app, app_length in IH. cbn [List.length] in IH. rewrite Nat.add_1_r in IH.
          apply IH; [exact H0|]. intros k. apply (Hw (inr k)).
    Qed.

    Hypothesis simple_back : forall i k, it_back (simple i k) <> None.
    Hypothesis complex_back : forall i t inj,
      is_some (it_back (complex i _ (impl t) inj)) = is_some (it_back (it_of impl (V := V) q t)).

    Lemma build_reversible flds : forall i (inj : R_of flds -> R0),
      forallb (fun f => match snd f with
                        | Some t => is_some (it_back (it_of impl (V := V) q t))
                        | None => true end) flds =
      is_some (it_back (struct_it (field_its simple complex i (fs flds) inj))).
    Proof.
      assert (G : forall flds i (inj : R_of flds -> R0),
        forallb (fun f => match snd f with
                          | Some t => is_some (it_back (it_of impl (V := V) q t))
                          | None => true end) flds =
        is_some (all_backs (field_its simple complex i (fs flds) inj))).
      { clear - simple_back complex_back.
        induction flds as [|[x [t|]] r IH]; intros i inj; [reflexivity| |];
          cbn [forallb snd fs_of field_its all_backs].
        - rewrite <- (complex_back i t (fun k => inj (inl k))).
          rewrite (IH (Datatypes.S i) (fun k => inj (inr k))).
          symmetry. apply (both_some (it_back (complex i _ (impl t) (fun k => inj (inl k))))).
        - rewrite (IH (Datatypes.S i) (fun k => inj (inr k))).
          pose proof (simple_back i (inj (inl tt))) as B.
          transitivity (is_some (it_back (simple i (inj (inl tt)))) &&
            is_some (all_backs (field_its simple complex (Datatypes.S i) (fs r) (fun k => inj (inr k))))).
          + now destruct (it_back (simple i (inj (inl tt)))).
          + symmetry. apply (both_some (it_back (simple i (inj (inl tt))))). }
      intros i inj. rewrite (G flds i inj). cbn [it_back struct_it]. now destruct (all_backs _).
    Qed.

    (** ** Making the iterator *)
    Context {Sm : Type} {Cx : forall K, KeyImpl K -> Type}.
    Variable sinit : forall i k, Sm -> it_st (simple i k).
    Variable cinit : forall i K (ki : KeyImpl K) inj, Cx K ki -> it_st (complex i K ki inj).
    Variable rsv : Sm -> val.
    Variable rcv : forall t, Cx (K t) (impl t) -> val.
    Variable se : nat -> string -> Expr.
    Variable ce : nat -> string -> T -> Expr.
    Variable vs0 : list val.

    Hypothesis simple_start : forall i x k a,
      nth_error flds0 i = Some (x, None) -> nth_error vs0 i = Some (rsv a) ->
      exists v, rs i k (sinit i k a) v /\ forall call fuel loc o e u,
        ev call fuel (se i x) (MkRt loc (strct [] vs0) o e u) =
        (CVal v, MkRt loc (strct [] vs0) o e u).
    Hypothesis complex_start : forall i x t inj a,
      nth_error flds0 i = Some (x, Some t) -> nth_error vs0 i = Some (rcv t a) ->
      exists v, rc i t inj (cinit i _ (impl t) inj a) v /\ forall call fuel loc o e u,
        ev call fuel (ce i x t) (MkRt loc (strct [] vs0) o e u) =
        (CVal v, MkRt loc (strct [] vs0) o e u).

    Lemma init_sound flds : forall pre (pvs : list val) (inj : R_of flds -> R0)
      (st : frec Sm Cx (fs flds)),
      flds0 = (pre ++ flds)%list -> List.length pre = List.length pvs ->
      vs0 = (pvs ++ vals rsv rcv flds st)%list ->
      exists vs, srel (build (List.length pvs) flds inj)
          (field_init simple complex sinit cinit (List.length pvs) (fs flds) inj st) vs /\
        forall call fuel acc k loc o e u,
          evl call fuel (xs_of (each se ce (List.length pvs) flds)) acc k
            (MkRt loc (strct [] vs0) o e u) =
          k (List.rev acc ++ vs)%list (MkRt loc (strct [] vs0) o e u).
    Proof.
      induction flds as [|[x [t|]] r IH]; intros pre pvs inj st H0 L Hv.
      - exists []. split; [reflexivity|]. intros. cbn [each xs_of]. rewrite evl_nil.
        now rewrite (app_nil_r (List.rev acc)).
      - destruct st as [a st]. cbn [vals fst snd] in Hv.
        destruct (complex_start (List.length pvs) x t (fun k => inj (inl k)) a) as (v & H1 & H2).
        { rewrite H0, <- L. apply nth_app. } { rewrite Hv. apply nth_app. }
        specialize (IH (pre ++ [(x, Some t)])%list (pvs ++ [rcv t a])%list (fun k => inj (inr k)) st).
        rewrite !snoc_app, (snoc_len (rcv t a) pvs) in IH.
        destruct IH as (vs & H3 & H4); [exact H0|rewrite app_length; cbn; lia|exact Hv|].
        exists (v :: vs)%list. split; [split; [exact H1|exact H3]|]. intros. cbn [each xs_of].
        rewrite evl_cons, H2. cbn [andthen]. rewrite H4. cbn [List.rev]. now rewrite snoc_app.
      - destruct st as [a st]. cbn [vals fst snd] in Hv.
        destruct (simple_start (List.length pvs) x (inj (inl tt)) a) as (v & H1 & H2).
        { rewrite H0, <- L. apply nth_app. } { rewrite Hv. apply nth_app. }
        specialize (IH (pre ++ [(x, None)])%list (pvs ++ [rsv a])%list (fun k => inj (inr k)) st).
        rewrite !snoc_app, (snoc_len (rsv a) pvs) in IH.
        destruct IH as (vs & H3 & H4); [exact H0|rewrite app_length; cbn; lia|exact Hv|].
        exists (v :: vs)%list. split; [split; [exact H1|exact H3]|]. intros. cbn [each xs_of].
        rewrite evl_cons, H2. cbn [andthen]. rewrite H4. cbn [List.rev]. now rewrite snoc_app.
    Qed.

    Variable C : code (meth T).
    Variable m : string.
    Variable st0 : frec Sm Cx (fs flds0).
    Hypothesis vs0_is : vs0 = vals rsv rcv flds0 st0.
    Hypothesis C_m : lookup m (cd_methods C) = Some (start_iter flds0 (each se ce 0 flds0)).
    Notation J := (struct_it (field_its simple complex 0 (fs flds0) (fun k => k))).
    Notation j0 := ((0, fields_len (fs flds0),
       field_init simple complex sinit cinit 0 (fs flds0) (fun k => k) st0) : it_st J).

    Lemma start_sound s : exists it,
      invoke E C m [] (strct [] vs0) VUnit s = (CVal it, strct [] vs0, s) /\
      irel (build 0 flds0 (fun k => k)) j0 it.
    Proof.
      destruct (init_sound flds0 [] [] (fun k => k) st0 eq_refl eq_refl vs0_is) as (vs & H1 & H2).
      cbn [List.length] in H1, H2.
      assert (L : List.length vs = List.length flds0).
      { rewrite (srel_length _ _ _ H1). apply its_length. }
      exists (istruct 0 (List.length flds0) vs). split.
      - unfold start_iter in C_m. erewrite invoke_run; [|exact C_m|].
        2:{ intros. rewrite ev_struct. cbn [xs_of]. rewrite !evl_cons.
            change (ev call fuel (EUsize 0)) with (fun st : rt => (CVal (VUsize 0 : val), st)).
            cbn [andthen]. rewrite evl_cons.
            change (ev call fuel (EUsize (List.length flds0))) with
              (fun st : rt => (CVal (VUsize (List.length flds0) : val), st)).
            cbn [andthen]. rewrite H2. cbn [List.rev app List.length].
            rewrite (anames_length flds0), L, Nat.eqb_refl. reflexivity. }
        cbn [as_body List.combine]. unfold out. cbn [fst snd rt_self rt_user].
        unfold istruct, strct, numbered. rewrite L. reflexivity.
      - exists vs. cbn [fst snd]. rewrite fields_length. repeat split; [exact H1|].
        rewrite its_length. lia.
    Qed.

    Hypothesis cl_is : cl = clonable q.

    (** Iterating. *)
    Lemma iterate_sound l s : exists it vs,
      invoke E C m [] (strct [] vs0) VUnit s = (CVal it, strct [] vs0, s) /\
      run_turns T_dec impl U flds0 q l it s = Some (vs, s) /\
      Forall2 (item_rel Ri) (take_turns J (clonable q) l j0) vs.
    Proof.
      destruct (start_sound s) as (it & H1 & H2). exists it.
      destruct (turns_sound (T_dec := T_dec) U flds0 Ri q _ (build 0 flds0 (fun k => k))) with
        (l := l) (st := j0) (v := it) (s := s) as (vs & H3 & H4).
      - rewrite <- cl_is. apply (build_sound flds0 [] (fun k => k)); reflexivity.
      - unfold iter_arms. now rewrite (build_forwards flds0 0 (fun k => k)).
      - unfold iter_arms. now rewrite (build_backwards flds0 0 (fun k => k)).
      - apply its_length.
      - apply (build_reversible flds0 0 (fun k => k)).
      - exact H2.
      - exists vs. auto.
    Qed.
  End Build.
End Arms.
