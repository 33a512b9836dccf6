(** Facts about the interpreter of Rust.v used for all templates. *)
Require Import List Arith NArith Bool String Ascii Lia.
Import ListNotations.
From Verif Require Import Std DeriveUnit Names Rust UnitCode.
Open Scope string_scope.

(** * Names *)

Fixpoint parse (acc : nat) (s : string) : nat :=
  match s with
  | EmptyString => acc
  | String c r => parse (10 * acc + (nat_of_ascii c - 48)) r
  end.

Lemma parse_app a b : forall acc, parse acc (a ++ b) = parse (parse acc a) b.
Proof. induction a; intros; simpl; auto. Qed.

Lemma parse_digit n : n < 10 -> forall acc,
  parse acc (String (ascii_of_nat (48 + n)) "") = 10 * acc + n.
Proof.
  intros. cbn [parse]. rewrite nat_ascii_embedding by lia. lia.
Qed.

Lemma digits_eq fuel n : digits fuel n =
  match fuel with
  | 0 => String (ascii_of_nat (48 + n mod 10)) ""
  | S f => if Nat.ltb n 10 then String (ascii_of_nat (48 + n mod 10)) ""
           else digits f (n / 10) ++ String (ascii_of_nat (48 + n mod 10)) ""
  end.
Proof. destruct fuel; reflexivity. Qed.

Lemma parse_digits fuel : forall n, n <= fuel -> parse 0 (digits fuel n) = n.
Proof.
  induction fuel as [|fuel IH]; intros n H; rewrite digits_eq.
  - assert (n = 0) by lia. subst. reflexivity.
  - destruct (Nat.ltb_spec n 10).
    + rewrite Nat.mod_small by lia. rewrite parse_digit by lia. lia.
    + rewrite parse_app, IH.
      * rewrite parse_digit by (apply Nat.mod_upper_bound; lia).
        pose proof (Nat.div_mod n 10). lia.
      * pose proof (Nat.div_lt n 10). lia.
Qed.

Lemma field_name_inj n m : field_name n = field_name m -> n = m.
Proof.
  unfold field_name. intros H. cbn in H. injection H as H.
  rewrite <- (parse_digits n n), <- (parse_digits m m) by lia. now rewrite H.
Qed.

(** Variables that are not names of fields. *)
Definition plain (x : string) : bool :=
  match x with
  | String c _ => negb (Ascii.eqb c "_")
  | EmptyString => true
  end.

Lemma plain_field x n : plain x = true -> String.eqb x (field_name n) = false.
Proof.
  intros H. apply String.eqb_neq. intros ->. discriminate.
Qed.

Lemma field_names_length n : List.length (field_names n) = n.
Proof. unfold field_names. now rewrite map_length, seq_length. Qed.

(** * Lists *)

Lemma combine_map {A B C} (f : A -> B) (g : A -> C) l :
  List.combine (List.map f l) (List.map g l) = List.map (fun x => (f x, g x)) l.
Proof. induction l; simpl; congruence. Qed.

Lemma map_nth_error_seq {A B} (g : A -> B) (l : list A) :
  List.map (fun i => match nth_error l i with Some x => Some (g x) | None => None end)
           (List.seq 0 (List.length l)) = List.map (fun x => Some (g x)) l.
Proof.
  assert (H : forall k p l', l = (p ++ l')%list -> List.length p = k ->
    List.map (fun i => match nth_error l i with Some x => Some (g x) | None => None end)
             (List.seq k (List.length l')) = List.map (fun x => Some (g x)) l').
  { intros k p l' ->. revert k p. induction l' as [|x r IH]; intros k p Hk; [reflexivity|].
    cbn [List.length List.seq List.map].
    rewrite nth_error_app2 by lia. replace (k - List.length p) with 0 by lia. cbn [nth_error].
    f_equal. specialize (IH (S k) (p ++ [x])%list). rewrite app_length in IH. cbn in IH.
    rewrite <- app_assoc in IH. apply IH. lia. }
  now apply (H 0 [] l).
Qed.

Lemma put_nth {A} (x : A) l : forall i y, nth_error l i = Some y ->
  exists l', put i x l = Some l' /\ List.length l' = List.length l /\
    forall j, nth_error l' j = if Nat.eqb j i then Some x else nth_error l j.
Proof.
  induction l as [|a r IH]; intros [|i] y H; cbn in H; try discriminate.
  - exists (x :: r). repeat split. intros [|j]; reflexivity.
  - destruct (IH i y H) as (l' & Hp & Hl & Hn). exists (a :: l').
    cbn. rewrite Hp. repeat split; [cbn; lia|]. intros [|j]; cbn; auto.
Qed.

Lemma put_map {A B} (g g' : A -> B) (l : list A) : NoDup l -> forall i x,
  nth_error l i = Some x -> (forall y, y <> x -> g' y = g y) ->
  put i (g' x) (List.map g l) = Some (List.map g' l).
Proof.
  induction l as [|a r IH]; intros Hn [|i] x H Hg; cbn in H; try discriminate.
  - injection H as ->. cbn. do 2 f_equal. apply map_ext_in. intros y Hy.
    symmetry. apply Hg. intros ->. inversion Hn; contradiction.
  - inversion Hn; subst. cbn. rewrite (IH H3 i x H Hg). cbn. do 2 f_equal.
    symmetry. apply Hg. intros ->. apply nth_error_In in H. contradiction.
Qed.

(** * Evaluation *)
Section Facts.
  Context {V X S Meth : Type}.
  Variable func : S -> val V X -> S * option bool.
  Variable func2 : S -> val V X -> V -> S * V * option bool.
  Variable dropped : S -> val V X -> S * bool.
  Variable ext : Meth -> list (val V X) -> rt V X S -> ctl V X * rt V X S.
  Variable ext_retain : Meth -> val V X ->
    (list (val V X) -> rt V X S -> ctl V X * rt V X S) -> rt V X S -> ctl V X * rt V X S.
  Variable call : string -> list (val V X) -> rt V X S -> ctl V X * rt V X S.
  Variable fuel : nat.
  Notation ev := (eval func func2 dropped ext ext_retain call fuel).
  Notation evl := (eval_list func func2 dropped ext ext_retain call fuel).
  Notation eva := (eval_arms func func2 dropped ext ext_retain call fuel).

  Lemma with_loc_id (st : rt V X S) : with_loc st (rt_loc st) = st.
  Proof. now destruct st. Qed.

  Lemma scoped_nil m (st : rt V X S) : scoped [] m st = m st.
  Proof.
    unfold scoped. cbn [app]. rewrite with_loc_id. destruct (m st) as [c st']. cbn.
    now rewrite with_loc_id.
  Qed.

  Lemma evl_nil acc k st : evl XNil acc k st = k (List.rev acc) st.
  Proof. reflexivity. Qed.
  Lemma evl_cons e l acc k st :
    evl (XCons e l) acc k st = andthen (ev e st) (fun v st => evl l (v :: acc) k st).
  Proof. reflexivity. Qed.
  Lemma eva_cons p e l v st :
    eva (ACons p e l) v st =
    match match_pat p v with
    | Some bs => scoped bs (ev e) st
    | None => eva l v st
    end.
  Proof. reflexivity. Qed.
  Lemma ev_call1 p a st :
    ev (call1 p a) st = andthen (ev a st) (fun v st => run_prim p [v] st).
  Proof. reflexivity. Qed.
  Lemma ev_call2 p a b st :
    ev (call2 p a b) st =
    andthen (ev a st) (fun v st => andthen (ev b st) (fun w st => run_prim p [v; w] st)).
  Proof. reflexivity. Qed.
  Lemma ev_var x st : ev (EVar x) st = answer_of st (lookup x (rt_loc st)).
  Proof. reflexivity. Qed.
  Lemma ev_some e st : ev (ESome e) st = andthen (ev e st) (fun v st => (CVal (VSome v), st)).
  Proof. reflexivity. Qed.
  Lemma ev_pair e1 e2 st : ev (EPair e1 e2) st =
        andthen (ev e1 st) (fun v1 st =>
        andthen (ev e2 st) (fun v2 st => (CVal (VPair v1 v2), st))).
  Proof. reflexivity. Qed.
  Lemma ev_arr l st : ev (EArr l) st = evl l [] (fun vs st => (CVal (VArr vs), st)) st.
  Proof. reflexivity. Qed.
  Lemma ev_struct fs l st : ev (EStruct fs l) st =
        evl l [] (fun vs st =>
          if Nat.eqb (List.length fs) (List.length vs)
          then (CVal (VStruct (List.combine fs vs)), st) else (CStuck, st)) st.
  Proof. reflexivity. Qed.
  Lemma ev_refto b f st : ev (ERefTo b f) st = (CVal (VRef (MkPlace b [SField f])), st).
  Proof. reflexivity. Qed.
  Lemma ev_field b f st : ev (EField b f) st = answer_of st (read st (MkPlace b [SField f])).
  Proof. reflexivity. Qed.
  Lemma ev_if c t e st : ev (EIf c t e) st =
        andthen (ev c st) (fun v st =>
          match v with
          | VBool true => ev t st
          | VBool false => ev e st
          | _ => (CStuck, st)
          end).
  Proof. reflexivity. Qed.
  Lemma ev_and e1 e2 st : ev (EAnd e1 e2) st =
        andthen (ev e1 st) (fun v st =>
          match v with
          | VBool true => ev e2 st
          | VBool false => (CVal (VBool false), st)
          | _ => (CStuck, st)
          end).
  Proof. reflexivity. Qed.
  Lemma ev_iflet b e body st : ev (EIfLet b e body) st =
        andthen (ev e st) (fun v st =>
          match v with
          | VSome x =>
              match match_bind b x with
              | Some bs => scoped bs (ev body) st
              | None => (CStuck, st)
              end
          | VNone => (CVal VUnit, st)
          | _ => (CStuck, st)
          end).
  Proof. reflexivity. Qed.
  Lemma ev_match e l st : ev (EMatch e l) st = andthen (ev e st) (fun v st => eva l v st).
  Proof. reflexivity. Qed.
  Lemma ev_let x e body st : ev (ELet x e body) st =
        andthen (ev e st) (fun v st => scoped [(x, v)] (ev body) st).
  Proof. reflexivity. Qed.
  Lemma ev_letarr xs e body st : ev (ELetArr xs e body) st =
        andthen (ev e st) (fun v st =>
          match (match v with
                 | VArr l => Some l
                 | VRef r =>
                     match read st r with
                     | Some (VArr l) =>
                         Some (List.map (fun i => VRef (inside r (SIndex i)))
                                        (List.seq 0 (List.length l)))
                     | _ => None
                     end
                 | _ => None
                 end) with
          | Some vs =>
              if Nat.eqb (List.length xs) (List.length vs)
              then scoped (List.combine xs vs) (ev body) st else (CStuck, st)
          | None => (CStuck, st)
          end).
  Proof. reflexivity. Qed.
  Lemma ev_assign x e st : ev (EAssign x e) st =
        andthen (ev e st) (fun v st =>
          match assign x v (rt_loc st) with
          | Some l => (CVal VUnit, with_loc st l)
          | None => (CStuck, st)
          end).
  Proof. reflexivity. Qed.
  Lemma ev_assignto p e st : ev (EAssignTo p e) st =
        andthen (ev e st) (fun v st =>
        andthen (ev p st) (fun r st =>
          match r with VRef r => store dropped r v st | _ => (CStuck, st) end)).
  Proof. reflexivity. Qed.
  Lemma ev_seq e1 e2 st : ev (ESeq e1 e2) st = andthen (ev e1 st) (fun _ st => ev e2 st).
  Proof. reflexivity. Qed.
  Lemma ev_return e st : ev (EReturn e) st = andthen (ev e st) (fun v st => (CReturn v, st)).
  Proof. reflexivity. Qed.
  Lemma ev_question e st : ev (EQuestion e) st =
        andthen (ev e st) (fun v st =>
          match v with
          | VSome x => (CVal x, st)
          | VNone => (CReturn VNone, st)
          | _ => (CStuck, st)
          end).
  Proof. reflexivity. Qed.
  Lemma ev_flatmap e x y body st : ev (EFlatMap e x y body) st =
        andthen (ev e st) (fun v st =>
          match v with
          | VIter l =>
              flat_map_items (fun a b => scoped [(x, a); (y, b)] (ev body)) l [] st
          | _ => (CStuck, st)
          end).
  Proof. reflexivity. Qed.
  Lemma ev_ecall f l st : ev (ECall f l) st = evl l [] (call f) st.
  Proof. reflexivity. Qed.
  Lemma ev_func e st : ev (EFunc e) st =
        andthen (ev e st) (fun k st =>
          let '(s, r) := func (rt_user st) k in
          (match r with Some b => CVal (VBool b) | None => CUnwound end, with_user st s)).
  Proof. reflexivity. Qed.
  Lemma ev_func2 e p st : ev (EFunc2 e p) st =
        andthen (ev e st) (fun k st =>
        andthen (ev p st) (fun r st =>
          match r with
          | VRef r =>
              match read st r with
              | Some (VUser v) =>
                  let '(s, v', a) := func2 (rt_user st) k v in
                  match write st r (VUser v') with
                  | Some st1 =>
                      (match a with Some b => CVal (VBool b) | None => CUnwound end,
                       with_user st1 s)
                  | None => (CStuck, st)
                  end
              | _ => (CStuck, st)
              end
          | _ => (CStuck, st)
          end)).
  Proof. reflexivity. Qed.

  (** A list of expressions without effects. *)
  Lemma evl_pure {A} (e : A -> expr Meth) (v : A -> val V X) (l : list A) : forall acc k st,
    (forall x, In x l -> ev (e x) st = (CVal (v x), st)) ->
    evl (xs_of (List.map e l)) acc k st = k (List.rev acc ++ List.map v l)%list st.
  Proof.
    induction l as [|x r IH]; intros acc k st H.
    - cbn. now rewrite app_nil_r.
    - cbn [List.map xs_of]. rewrite evl_cons, (H x) by now left. cbn [andthen].
      rewrite IH by (intros; apply H; now right).
      cbn [List.rev List.map]. now rewrite <- app_assoc.
  Qed.

  Lemma ev_sum {A} (e : A -> expr Meth) (n : A -> nat) (l : list A) st : forall e0 n0,
    ev e0 st = (CVal (VUsize n0), st) ->
    (forall x, In x l -> ev (e x) st = (CVal (VUsize (n x)), st)) ->
    ev (List.fold_left (call2 Add) (List.map e l) e0) st =
    (CVal (VUsize (List.fold_left (fun a x => a + n x) l n0)), st).
  Proof.
    induction l as [|x r IH]; intros e0 n0 H0 H; [exact H0|].
    cbn [List.map List.fold_left]. apply IH.
    - rewrite ev_call2, H0. cbn [andthen]. rewrite (H x) by now left. reflexivity.
    - intros. apply H. now right.
  Qed.

  Lemma ev_all {A} (e : A -> expr Meth) (b : A -> bool) (l : list A) st : forall e0 b0,
    ev e0 st = (CVal (VBool b0), st) ->
    (forall x, In x l -> ev (e x) st = (CVal (VBool (b x)), st)) ->
    ev (List.fold_left EAnd (List.map e l) e0) st =
    (CVal (VBool (List.fold_left (fun a x => a && b x) l b0)), st).
  Proof.
    induction l as [|x r IH]; intros e0 b0 H0 H; [exact H0|].
    cbn [List.map List.fold_left]. apply IH.
    - rewrite ev_and, H0. cbn [andthen]. destruct b0; cbn [andb]; [|reflexivity].
      apply H. now left.
    - intros. apply H. now right.
  Qed.

  (** The arm of a variant among arms for distinct variants. *)
  Lemma eva_variant {A} (name : A -> string) (arm : A -> expr Meth) (l : list A) x st :
    NoDup (List.map name l) -> In x l ->
    eva (arms_of (List.map (fun e => (PVariant (name e), arm e)) l)) (VEnum (name x)) st =
    ev (arm x) st.
  Proof.
    induction l as [|a r IH]; intros Hn Hx; [contradiction|].
    cbn [List.map arms_of]. rewrite eva_cons. cbn [match_pat]. inversion Hn; subst.
    destruct Hx as [->|Hx].
    - rewrite String.eqb_refl. apply scoped_nil.
    - destruct (String.eqb_spec (name a) (name x)) as [E|_].
      + exfalso. apply H1. rewrite E. now apply in_map.
      + now apply IH.
  Qed.
  (** [flat_map] with a closure without effects. *)
  Lemma flat_map_pure {A} body (a b o : A -> val V X) (l : list A) : forall acc (st : rt V X S),
    (forall x, In x l -> as_body (body (a x) (b x) st) = (CVal (o x), st)) ->
    (forall x, o x = VNone \/ exists y, o x = VSome y) ->
    flat_map_items body (List.map (fun x => VPair (a x) (b x)) l) acc st =
    (CVal (VIter (List.rev acc ++ List.map o l)), st).
  Proof.
    induction l as [|x r IH]; intros acc st H Ho.
    - cbn. now rewrite app_nil_r.
    - cbn [List.map flat_map_items]. rewrite (H x) by now left. cbn [andthen].
      assert (G : flat_map_items body (List.map (fun x => VPair (a x) (b x)) r) (o x :: acc) st =
        (CVal (VIter (List.rev acc ++ o x :: List.map o r)), st)).
      { rewrite IH by (auto; intros; apply H; now right).
        cbn [List.rev]. now rewrite <- app_assoc. }
      destruct (Ho x) as [E|[y E]]; rewrite E in *; exact G.
  Qed.
End Facts.

(** * Indices *)

Lemma map_nth_seq {A} (d : A) (l : list A) :
  List.map (fun i => List.nth i l d) (List.seq 0 (List.length l)) = l.
Proof.
  assert (H : forall p l', l = (p ++ l')%list ->
    List.map (fun i => List.nth i l d) (List.seq (List.length p) (List.length l')) = l').
  { intros p l' ->. revert p. induction l' as [|x r IH]; intros p; [reflexivity|].
    cbn [List.length List.seq List.map]. rewrite app_nth2, Nat.sub_diag by lia. cbn [List.nth].
    f_equal. specialize (IH (p ++ [x])%list). rewrite app_length in IH. cbn in IH.
    rewrite <- app_assoc, Nat.add_1_r in IH. exact IH. }
  now apply (H [] l).
Qed.
