(** Facts about the code generated for enums with tuple variants, for all methods. *)
Require Import List Arith NArith Bool String Lia Eqdep_dec.
Import ListNotations.
From Verif Require Import Std Traits OptionBucket SetStorages Names Rust UnitCode RustFacts CodeSpec DeriveAny
  UnitCodeProofs AnyCode AnyRun AnyCodeSpec.
Open Scope string_scope.

(** * Structs with numbered fields *)

Section Struct.
  Context {V X S : Type}.
  Notation val := (val V X).

  Definition numbered (i : nat) (vs : list val) : list (string * val) :=
    List.combine (List.map field_name (List.seq i (List.length vs))) vs.

  Definition plains {A} (pre : list (string * A)) : Prop :=
    Forall (fun p => plain (fst p) = true) pre.

  Lemma lookup_pre {A} n (pre l : list (string * A)) : plains pre ->
    lookup (field_name n) (pre ++ l)%list = lookup (field_name n) l.
  Proof.
    induction 1 as [|[x a] pre Hx _ IH]; [reflexivity|]. cbn [app lookup]. cbn in Hx.
    rewrite String.eqb_sym, plain_field by exact Hx. exact IH.
  Qed.

  Lemma assign_pre {A} n (a : A) (pre l : list (string * A)) : plains pre ->
    assign (field_name n) a (pre ++ l)%list =
    option_map (app pre) (assign (field_name n) a l).
  Proof.
    induction 1 as [|[x b] pre Hx _ IH].
    - cbn. now destruct (assign _ _ l).
    - cbn [app assign]. cbn in Hx. rewrite String.eqb_sym, plain_field by exact Hx.
      rewrite IH. now destruct (assign _ _ l).
  Qed.

  Lemma lookup_numbered vs : forall i j,
    lookup (field_name (i + j)) (numbered i vs) = nth_error vs j.
  Proof.
    unfold numbered. induction vs as [|v r IH]; intros i j.
    - now destruct j.
    - cbn [List.length List.seq List.map List.combine lookup].
      destruct j as [|j].
      + rewrite Nat.add_0_r, String.eqb_refl. reflexivity.
      + destruct (String.eqb_spec (field_name (i + Datatypes.S j)) (field_name i)) as [E|_].
        * apply field_name_inj in E. lia.
        * cbn [nth_error]. rewrite <- (IH (Datatypes.S i) j). do 2 f_equal. lia.
  Qed.

  Lemma assign_numbered vs (a : val) : forall i j,
    assign (field_name (i + j)) a (numbered i vs) = option_map (numbered i) (put j a vs).
  Proof.
    induction vs as [|v r IH]; intros i j.
    - now destruct j.
    - unfold numbered. cbn [List.length List.seq List.map List.combine assign].
      destruct j as [|j].
      + rewrite Nat.add_0_r, String.eqb_refl. reflexivity.
      + destruct (String.eqb_spec (field_name (i + Datatypes.S j)) (field_name i)) as [E|_].
        * apply field_name_inj in E. lia.
        * cbn [put]. replace (i + Datatypes.S j)%nat with (Datatypes.S i + j)%nat by lia.
          fold (numbered (Datatypes.S i) r). rewrite IH.
          now destruct (put j a r).
  Qed.

  Lemma lookup_numbered0 vs j : lookup (field_name j) (numbered 0 vs) = nth_error vs j.
  Proof. exact (lookup_numbered vs 0 j). Qed.
  Lemma assign_numbered0 vs (a : val) j :
    assign (field_name j) a (numbered 0 vs) = option_map (numbered 0) (put j a vs).
  Proof. exact (assign_numbered vs a 0 j). Qed.

  (** A struct with some fields before the numbered ones. *)
  Definition strct (pre : list (string * val)) (vs : list val) : val :=
    VStruct (pre ++ numbered 0 vs).

  Definition field (i : nat) : place := MkPlace BSelf [SField (field_name i)].

  Lemma read_field loc pre vs o e (s : S) i : plains pre ->
    read (MkRt loc (strct pre vs) o e s) (field i) = nth_error vs i.
  Proof.
    intros H. unfold read, field, strct. cbn [pl_base pl_steps base_of rt_self read_in]. rewrite lookup_pre, lookup_numbered0 by exact H.
    now destruct (nth_error vs i).
  Qed.

  Lemma put_some {A} (a : A) l : forall i l', put i a l = Some l' -> nth_error l i <> None.
  Proof.
    induction l as [|x r IH]; intros [|i] l' H; cbn in *; try discriminate.
    destruct (put i a r) eqn:E; [|discriminate]. eapply IH; eauto.
  Qed.

  Lemma write_field loc pre vs vs' o e (s : S) i n : plains pre -> put i n vs = Some vs' ->
    write (MkRt loc (strct pre vs) o e s) (field i) n =
    Some (MkRt loc (strct pre vs') o e s).
  Proof.
    intros H P. unfold write, field, strct. cbn [pl_base pl_steps base_of rt_self write_in]. rewrite lookup_pre, lookup_numbered0 by exact H.
    pose proof (put_some _ _ _ _ P). destruct (nth_error vs i) as [x|]; [|congruence].
    rewrite assign_pre, assign_numbered0, P by exact H. reflexivity.
  Qed.

  Definition payload (i : nat) : place := MkPlace BSelf [SField (field_name i); SPayload].

  Lemma inside_field i : inside (field i) SPayload = payload i.
  Proof. reflexivity. Qed.

  Lemma read_payload loc pre vs o e (s : S) i v : plains pre -> nth_error vs i = Some (VSome v) ->
    read (MkRt loc (strct pre vs) o e s) (payload i) = Some v.
  Proof.
    intros H P. unfold read, payload, strct. cbn [pl_base pl_steps base_of rt_self read_in]. rewrite lookup_pre, lookup_numbered0 by exact H.
    now rewrite P.
  Qed.

  Lemma write_payload loc pre vs vs' o e (s : S) i v n : plains pre ->
    nth_error vs i = Some (VSome v) -> put i (VSome n) vs = Some vs' ->
    write (MkRt loc (strct pre vs) o e s) (payload i) n =
    Some (MkRt loc (strct pre vs') o e s).
  Proof.
    intros H P Q. unfold write, payload, strct. cbn [pl_base pl_steps base_of rt_self write_in]. rewrite lookup_pre, lookup_numbered0 by exact H.
    rewrite P. cbn [option_map]. rewrite assign_pre, assign_numbered0, Q by exact H. reflexivity.
  Qed.

  Lemma put_app {A} (x y : A) p r : put (List.length p) y (p ++ x :: r)%list = Some (p ++ y :: r)%list.
  Proof. induction p as [|a p IH]; [reflexivity|]. cbn. now rewrite IH. Qed.

  Lemma nth_app {A} (x : A) p r : nth_error (p ++ x :: r)%list (List.length p) = Some x.
  Proof. induction p as [|a p IH]; [reflexivity|]. exact IH. Qed.

  Lemma snoc_len {A} (x : A) p : List.length (p ++ [x])%list = Datatypes.S (List.length p).
  Proof. rewrite app_length. cbn. lia. Qed.

  Lemma snoc_app {A} (x : A) p r : ((p ++ [x]) ++ r = p ++ x :: r)%list.
  Proof. now rewrite <- app_assoc. Qed.
End Struct.

Lemma each_length {T A} (f : nat -> string -> A) (g : nat -> string -> T -> A) flds :
  forall i, List.length (each f g i flds) = List.length flds.
Proof. induction flds as [|[x [t|]] r IH]; intros i; cbn; auto. Qed.

(** * The storages *)

Section Any.
  Context {T : Type} {T_dec : forall a b : T, {a = b} + {a <> b}}
          {K : T -> Type} {impl : forall t, KeyImpl (K t)} {V S : Type}.
  Notation val := (val V (foreign impl V)).
  Notation rt := (rt V (foreign impl V) S).
  Notation M := (M impl (V := V)).
  Notation N := (N impl).

  Lemma cast_same (P : T -> Type) t (x : P t) : cast T_dec P x t = Some x.
  Proof.
    unfold cast. destruct (T_dec t t) as [e|n]; [|congruence].
    now rewrite (UIP_dec T_dec e eq_refl).
  Qed.

  Lemma as_key_same t k : as_key T_dec impl t (V := V) (VForeign (XKey t k)) = Some k.
  Proof. apply cast_same. Qed.
  Lemma as_map_same t s : as_map T_dec impl t (V := V) (VForeign (XMap t s)) = Some s.
  Proof. exact (cast_same (fun t => ms_St (M t)) t s). Qed.
  Lemma as_set_same t s : as_set T_dec impl t (V := V) (VForeign (XSet t s)) = Some s.
  Proof. exact (cast_same (fun t => ss_St (N t)) t s). Qed.

  (** The fields of a storage as values. *)
  Fixpoint vals {Sm : Type} {Cx : forall K, KeyImpl K -> Type} (rs : Sm -> val)
    (rc : forall t, Cx (K t) (impl t) -> val) (flds : vfields T)
    : frec Sm Cx (fs_of impl flds) -> list val :=
    match flds return frec Sm Cx (fs_of impl flds) -> list val with
    | [] => fun _ => []
    | (x, None) :: r => fun st => rs (fst st) :: vals rs rc r (snd st)
    | (x, Some t) :: r => fun st => rc t (fst st) :: vals rs rc r (snd st)
    end.

  Definition mvals (flds : vfields T) : any_map V (fs_of impl flds) -> list val :=
    vals (Cx := cx_map V) (vopt impl) (fun t s => VForeign (XMap t s)) flds.
  Definition svals (flds : vfields T) : any_set (fs_of impl flds) -> list val :=
    vals (Cx := cx_set) VBool (fun t s => VForeign (XSet t s)) flds.

  Lemma vals_length {Sm Cx} rs rc flds : forall st,
    List.length (@vals Sm Cx rs rc flds st) = List.length flds.
  Proof. induction flds as [|[x [t|]] r IH]; intros st; cbn; auto. Qed.

  (** * Evaluation *)
  Variable U : auser K V S.
  Variable flds0 : vfields T.
  Variable w : world.
  Variable call : string -> list val -> rt -> ctl V (foreign impl V) * rt.
  Variable fuel : nat.
  Notation E := (alinked T_dec impl U flds0 w).
  Notation ev := (eval (en_func E) (en_func2 E) (en_dropped E) (en_ext E) (en_ext_retain E) call fuel).
  Notation evl := (eval_list (en_func E) (en_func2 E) (en_dropped E) (en_ext E) (en_ext_retain E) call fuel).
  Notation eva := (eval_arms (en_func E) (en_func2 E) (en_dropped E) (en_ext E) (en_ext_retain E) call fuel).
  Notation XC := (ext_call T_dec impl (a_values U) w).

  Lemma ev_ext1 m a st : ev (ext m [a]) st = andthen (ev a st) (fun v st => XC m [v] st).
  Proof. reflexivity. Qed.
  Lemma ev_ext0 m st : ev (ext m []) st = XC m [] st.
  Proof. reflexivity. Qed.
  Lemma ev_ext2 m a b st : ev (ext m [a; b]) st =
    andthen (ev a st) (fun v st => andthen (ev b st) (fun w st => XC m [v; w] st)).
  Proof. reflexivity. Qed.
  Lemma ev_ext3 m a b c st : ev (ext m [a; b; c]) st =
    andthen (ev a st) (fun v st => andthen (ev b st) (fun w st =>
    andthen (ev c st) (fun x st => XC m [v; w; x] st))).
  Proof. reflexivity. Qed.
  Lemma ev_my i st : ev (my i) st = (CVal (VRef (field i)), st).
  Proof. reflexivity. Qed.
  Lemma ev_extretain m p xs body st : ev (EExtRetain m p xs body) st =
    andthen (ev p st) (fun r st =>
      ext_retain T_dec impl (a_values U) m r (fun ks st =>
        if Nat.eqb (List.length xs) (List.length ks)
        then as_body (scoped (List.combine xs ks) (ev body) st)
        else (CStuck, st)) st).
  Proof. reflexivity. Qed.
  Lemma ev_variantof n e st : ev (EVariantOf n e) st =
    andthen (ev e st) (fun v st => (CVal (VEnumOf n v), st)).
  Proof. reflexivity. Qed.
  Lemma ev_while c b st : ev (EWhile c b) st = while_loop fuel (ev c) (ev b) st.
  Proof. reflexivity. Qed.

  (** The arm of a key. *)
  Lemma arm_simple (fs : nat -> string -> expr (meth T)) fc (y : string) (flds : vfields T) : forall j i x st,
    NoDup (List.map fst flds) -> nth_error flds i = Some (x, None) ->
    eva (arms_of (each (fun i n => (PVariant n, fs i n))
                       (fun i n t => (PVariantOf n y, fc i n t)) j flds)) (VEnum x) st =
    ev (fs (j + i)%nat x) st.
  Proof.
    induction flds as [|[x0 o] r IH]; intros j i x st Hn Hi; [now destruct i|].
    inversion Hn as [|? ? Hx Hr]; subst. destruct i as [|i].
    - cbn in Hi. injection Hi as -> ->. cbn [each arms_of]. rewrite eva_cons.
      cbn [match_pat]. rewrite String.eqb_refl, scoped_nil, Nat.add_0_r. reflexivity.
    - cbn [nth_error] in Hi.
      assert (x0 <> x).
      { intros ->. apply Hx. change x with (fst (x, @None T)). apply in_map.
        eapply nth_error_In; eauto. }
      destruct o as [t|]; cbn [each arms_of]; rewrite eva_cons; cbn [match_pat];
        try (apply String.eqb_neq in H; rewrite H); rewrite (IH _ i x st Hr Hi);
        do 2 f_equal; lia.
  Qed.

  Lemma arm_tuple (fs : nat -> string -> expr (meth T)) fc (y : string) (flds : vfields T) : forall j i x t k st,
    NoDup (List.map fst flds) -> nth_error flds i = Some (x, Some t) ->
    eva (arms_of (each (fun i n => (PVariant n, fs i n))
                       (fun i n t => (PVariantOf n y, fc i n t)) j flds)) (VEnumOf x k) st =
    scoped [(y, k)] (ev (fc (j + i)%nat x t)) st.
  Proof.
    induction flds as [|[x0 o] r IH]; intros j i x t k st Hn Hi; [now destruct i|].
    inversion Hn as [|? ? Hx Hr]; subst. destruct i as [|i].
    - cbn in Hi. injection Hi as -> ->. cbn [each arms_of]. rewrite eva_cons.
      cbn [match_pat]. rewrite String.eqb_refl, Nat.add_0_r. reflexivity.
    - cbn [nth_error] in Hi.
      assert (x0 <> x).
      { intros ->. apply Hx. change x with (fst (x, Some t)). apply in_map.
        eapply nth_error_In; eauto. }
      destruct o as [t0|]; cbn [each arms_of]; rewrite eva_cons; cbn [match_pat];
        try (apply String.eqb_neq in H; rewrite H); rewrite (IH _ i x t k st Hr Hi);
        do 3 f_equal; lia.
  Qed.
End Any.
