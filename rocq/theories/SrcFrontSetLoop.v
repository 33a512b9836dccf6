(** Running src/set.rs and src/set/intersection.rs: the loops. *)
Require Import List Arith NArith ZArith Bool String Lia.
Import ListNotations.
From Verif Require Import Std Traits Api MapStorages SetStorages SrcText SrcStd SrcParse SrcRun SrcSpec SrcFiles
  SrcFront SrcFrontSetSpec SrcProofs SrcForeign SrcFrontMap SrcFrontLoop SrcFrontSet.
Open Scope string_scope.

Local Notation "x <- p ;; q" := (seq p (fun x => q)) (at level 61, p at next level, right associativity).
Local Notation "$ n" := (Datatypes.S n) (at level 9).

Section FromIter.
  Context {K V S : Type} (m : SetStorage K) (U : user_fns K V S).
  Notation X := (foreign_set m).
  Notation F := (set_file (V := V) (S := S) m None set_ast).

  Definition gi_pat : pat := PName "value".
  Definition gi_body : expr := EBlock [SSemi (EMethod (EPath ["set"]) "insert" [EPath ["value"]])].
  Definition gi_loop (j n : nat) (sc : scope) (c : nat) : run V X (val V X) :=
    returning (_ <- over set_ast n sc gi_pat gi_body c;; eval set_ast $j sc (EPath ["set"])).
  Definition gi_run (n : nat) (l : list K) : run V X (val V X) :=
    returning (sc <- bind_pats set_ast [PName "iter"] [VForeign (YGiven m l)] (MkScope [] "Set");;
               v <- eval set_ast $n sc (ECall (EPath ["Self"; "new"]) []);;
               sc <- bind_pat set_ast (PName "set") v sc;;
               _ <- (q <- at_place set_ast n sc (EPath ["iter"]);; it <- looping set_ast n q;;
                     c <- alloc it;; over set_ast n sc gi_pat gi_body c);;
               eval set_ast $n sc (EPath ["set"])).
  Definition gi_fn : option fn := Eval vm_compute in find_in_trait set_ast "FromIterator" "Set" "from_iter".
  Lemma gi_found : function_of F "FromIterator" "Set" "from_iter" = gi_fn.
  Proof. vm_compute. reflexivity. Qed.
  Lemma gi_unfold : forall n l f, gi_fn = Some f ->
    call_fn set_ast $($($n)) "Set" f [VForeign (YGiven m l)] = gi_run n l.
  Proof. intros n l f [= <-]. reflexivity. Qed.

  Definition gi_scope : scope := MkScope [("set", 1); ("iter", 0)] "Set".
  Definition gi_cells (l0 : list K) (st : ss_St m) (l : list K) : list (val V X) :=
    [VForeign (YGiven m l0); set_val m st; VForeign (YGiven m l)].

  Lemma gi_start : forall n l st extra,
    gi_run (30 + n) l (MkRt [] ([MkReply (CVal (VForeign (YSet m st))) [] [];
                                 MkReply (CVal (VForeign (YGiven m l))) [] []] ++ extra)%list) =
    gi_loop (30 + n) (30 + n) gi_scope 2 (MkRt (gi_cells l st l) extra).
  Proof.
    intros n l st extra. unfold gi_run, gi_loop. apply returning_step.
    erewrite seq_step by (vm_compute; reflexivity).
    erewrite seq_step by (vm_compute; reflexivity).
    erewrite seq_step by (vm_compute; reflexivity).
    apply seq_cong.
    erewrite (seq_step (at_place _ _ _ _)) by (vm_compute; reflexivity).
    erewrite (seq_step (looping _ _ _)) by (vm_compute; reflexivity).
    erewrite (seq_step (alloc _)) by (vm_compute; reflexivity).
    reflexivity.
  Qed.
  Definition one_round (n : nat) (sc : scope) (c : nat) : run V X bool :=
    scoped (x <- method set_ast n (At c []) "next" [];;
            match x with
            | VData "Option" "Some" [(_, x)] =>
                sc' <- bind_pat set_ast gi_pat x sc;; _ <- eval set_ast n sc' gi_body;; done true
            | _ => done false
            end).
  Lemma over_unfold : forall n sc c, over set_ast $n sc gi_pat gi_body c =
    seq (one_round n sc c) (fun again : bool => if again then over set_ast n sc gi_pat gi_body c else done unit_).
  Proof. reflexivity. Qed.
  (** The iterator gives an element and the storage takes it. *)
  Definition gi_given (l : list K) (k : K) : reply V X :=
    MkReply (CVal (some_ (elem_val m k))) [(At 2 [], VForeign (YGiven m l))] [].
  Definition gi_taken (st : ss_St m) (b : bool) : reply V X :=
    MkReply (CVal (VBool b)) [(At 1 [Fld "storage"], VForeign (YSet m st))] [].
  Lemma gi_round : forall j n l0 l st st' k o extra,
    gi_loop j $(20 + n) gi_scope 2
      (MkRt (gi_cells l0 st (k :: l)) ([gi_given l k; gi_taken st' o] ++ extra)%list) =
    gi_loop j (20 + n) gi_scope 2 (MkRt (gi_cells l0 st' l) extra).
  Proof.
    intros j n l0 l st st' k o extra. unfold gi_loop at 1. unfold gi_loop. rewrite over_unfold.
    apply returning_step.
    assert (R : one_round (20 + n) gi_scope 2
      (MkRt (gi_cells l0 st (k :: l)) ([gi_given l k; gi_taken st' o] ++ extra)%list) =
      (CVal true, MkRt (gi_cells l0 st' l) extra)) by (vm_compute; reflexivity).
    apply seq_cong. rewrite (seq_step _ _ _ _ _ R). reflexivity.
  Qed.
  Lemma gi_rounds : forall l j n b l0 st w s, List.length l < n -> 2 * List.length l < b -> exists t,
    drive (answer F U w) (gi_loop j (20 + n) gi_scope 2) (gi_cells l0 st l) b [] s =
    (CVal (set_val m (fold_left (fun st x => snd (set_insert m st x)) l st)), t, s).
  Proof.
    induction l as [|k l IH]; intros j n b l0 st w s Hn Hb; cbn [List.length] in *.
    - destruct n as [|n]; [lia|]. destruct b as [|b]; [lia|]. cbn [fold_left].
      drive1. fset_step. drive1. eexists. reflexivity.
    - destruct n as [|n]; [lia|]. destruct b as [|[|b]]; try lia. cbn [fold_left].
      drive1. fset_step. drive1. fset_step. unfold set_insert.
      destruct (ss_insert m st k) as [o st'] eqn:Ei. cbn [snd].
      destruct (IH j n b l0 st' w s) as [t Et]; [lia|lia|].
      exists t. etransitivity; [clear Et|exact Et].
      exact (drive_pre (answer F U w) _ _ _ _ [gi_given l k; gi_taken st' o]
        (gi_round j n l0 l st st' k o) b [] s).
  Qed.
  Lemma set_from_iter_ok : forall w l s n, 40 + 3 * List.length l <= n ->
    front_set_from_iter m set_ast U n w l s = Some (set_val m (set_from_iter m w l), s).
  Proof.
    intros w l s n Hn. unfold front_set_from_iter. rewrite gi_found.
    destruct gi_fn as [f|] eqn:Ef; [|discriminate Ef].
    destruct n as [|[|[|n]]]; try (exfalso; lia).
    rewrite (gi_unfold n l f Ef). clear f Ef.
    replace n with (30 + (n - 30)) by lia. set (n' := n - 30).
    assert (Hb : exists b, $($($(30 + n'))) = $($b) /\
      2 * List.length l < b) by (exists (31 + n'); unfold n'; split; lia).
    destruct Hb as (b & -> & Hb).
    drive1. fset_step. drive1. fset_step.
    destruct (gi_rounds l (30 + n') (10 + n') b l (ss_empty m w) w s) as [t Et]; [unfold n'; lia|exact Hb|].
    assert (D := drive_pre (answer F U w) _ _ _ _ _ (gi_start n' l (ss_empty m w)) b [] s).
    cbn [app] in D.
    match goal with |- match ?d with _ => _ end = _ => replace d with
      (@CVal V X _ (set_val (V := V) m (set_from_iter m w l)), t, s) end; [reflexivity|].
    symmetry. etransitivity; [exact D|exact Et].
  Qed.
End FromIter.

Section FromArray.
  Context {K V S : Type} (m : SetStorage K) (U : user_fns K V S).
  Notation X := (foreign_set m).
  Notation F := (set_file (V := V) (S := S) m None set_ast).
  Definition ga_fn : option fn := Eval vm_compute in find_in_trait set_ast "From" "Set" "from".
  Lemma ga_found : function_of F "From" "Set" "from" = ga_fn.
  Proof. vm_compute. reflexivity. Qed.
  Definition ga_loop (j n : nat) (sc : scope) (c : nat) : run V X (val V X) := returning (gi_loop m j n sc c).
  Definition ga_scope : scope := MkScope [("set", 2); ("iter", 1)] "Set".
  Definition ga_cells (l0 : list K) (st : ss_St m) (l : list K) : list (val V X) :=
    [VForeign (YGiven m l0); VForeign (YGiven m l0); set_val m st; VForeign (YGiven m l)].
  Definition ga_body : expr := EBlock [STail (ECall (EPath ["Self"; "from_iter"]) [EPath ["arr"]])].
  Lemma ga_unfold : forall n l f, ga_fn = Some f ->
    call_fn (V := V) (X := X) set_ast $n "Set" f [VForeign (YGiven m l)] =
    returning (sc <- bind_pats set_ast [PName "arr"] [VForeign (YGiven m l)] (MkScope [] "Set");; eval set_ast n sc ga_body).
  Proof. intros n l f [= <-]. reflexivity. Qed.
  Lemma ga_block : forall n, eval (V := V) (X := X) set_ast $($n) (MkScope [("arr", 0)] "Set") ga_body =
    seq (each (eval set_ast n (MkScope [("arr", 0)] "Set")) [EPath ["arr"]]) (fun vs => call_path set_ast n ["Set"; "from_iter"] vs).
  Proof. intro n. reflexivity. Qed.
  Lemma ga_find : find_fn set_ast "Set" "from_iter" = gi_fn.
  Proof. vm_compute. reflexivity. Qed.
  Lemma ga_variant : find_variant set_ast ["Set"; "from_iter"] = None.
  Proof. vm_compute. reflexivity. Qed.
  Lemma ga_call : forall n f v, gi_fn = Some f ->
    call_path (V := V) (X := X) set_ast $n ["Set"; "from_iter"] [v] = call_fn set_ast n "Set" f [v].
  Proof.
    intros n f v E. transitivity (match find_variant set_ast ["Set"; "from_iter"] with
      | Some (ty, c, true) => done (VData ty c (combine ["0"; "1"; "2"; "3"] [v]))
      | _ => match option_map (pair "Set") (find_fn set_ast "Set" "from_iter"), [v] with
             | Some (ty, f), _ => call_fn set_ast n ty f [v]
             | None, VRef q :: rest =>
                    seq (resolve depth q) (fun r =>
                    match r with
                    | (q, VForeign x) => foreign x q "from_iter" rest
                    | _ => seq (asking (QPath ["Set"; "from_iter"] [v])) (fun a => take a)
                    end)
             | None, _ => seq (asking (QPath ["Set"; "from_iter"] [v])) (fun a => take a)
             end
      end).
    { cbn delta [call_path]. cbn beta iota. reflexivity. }
    rewrite ga_variant, ga_find, E. reflexivity.
  Qed.
  Lemma ga_start : forall n l st extra f, ga_fn = Some f ->
    call_fn set_ast (40 + n) "Set" f [VForeign (YGiven m l)] (MkRt [] ([MkReply (CVal (VForeign (YSet m st))) [] [];
                                 MkReply (CVal (VForeign (YGiven m l))) [] []] ++ extra)%list) =
    ga_loop (33 + n) (33 + n) ga_scope 3 (MkRt (ga_cells l st l) extra).
  Proof.
    intros n l st extra f Ef. change (40 + n) with (Datatypes.S (39 + n)). rewrite (ga_unfold _ l f Ef). clear f Ef.
    unfold ga_loop. apply returning_step.
    erewrite seq_step by (vm_compute; reflexivity).
    change (39 + n) with (Datatypes.S (Datatypes.S (37 + n))). rewrite ga_block.
    erewrite seq_step by (vm_compute; reflexivity).
    destruct gi_fn as [f|] eqn:Ef; [|discriminate Ef].
    change (37 + n) with (Datatypes.S (36 + n)). rewrite (ga_call _ f _ Ef).
    change (36 + n) with (Datatypes.S (Datatypes.S (Datatypes.S (33 + n)))). rewrite (gi_unfold m _ l f Ef). clear f Ef.
    unfold gi_run, gi_loop. apply returning_step.
    erewrite seq_step by (vm_compute; reflexivity).
    erewrite seq_step by (vm_compute; reflexivity).
    erewrite seq_step by (vm_compute; reflexivity).
    apply seq_cong.
    erewrite (seq_step (at_place _ _ _ _)) by (vm_compute; reflexivity).
    erewrite (seq_step (looping _ _ _)) by (vm_compute; reflexivity).
    erewrite (seq_step (alloc _)) by (vm_compute; reflexivity).
    reflexivity.
  Qed.
  Definition ga_given (l : list K) (k : K) : reply V X :=
    MkReply (CVal (some_ (elem_val m k))) [(At 3 [], VForeign (YGiven m l))] [].
  Definition ga_taken (st : ss_St m) (b : bool) : reply V X :=
    MkReply (CVal (VBool b)) [(At 2 [Fld "storage"], VForeign (YSet m st))] [].
  Lemma ga_round : forall j n l0 l st st' k o extra,
    ga_loop j $(20 + n) ga_scope 3
      (MkRt (ga_cells l0 st (k :: l)) ([ga_given l k; ga_taken st' o] ++ extra)%list) =
    ga_loop j (20 + n) ga_scope 3 (MkRt (ga_cells l0 st' l) extra).
  Proof.
    intros j n l0 l st st' k o extra. unfold ga_loop. apply returning_step.
    unfold gi_loop at 1. unfold gi_loop. rewrite over_unfold.
    apply returning_step.
    assert (R : one_round m (20 + n) ga_scope 3
      (MkRt (ga_cells l0 st (k :: l)) ([ga_given l k; ga_taken st' o] ++ extra)%list) =
      (CVal true, MkRt (ga_cells l0 st' l) extra)) by (vm_compute; reflexivity).
    apply seq_cong. rewrite (seq_step _ _ _ _ _ R). reflexivity.
  Qed.
  Lemma ga_rounds : forall l j n b l0 st w s, List.length l < n -> 2 * List.length l < b -> exists t,
    drive (answer F U w) (ga_loop j (20 + n) ga_scope 3) (ga_cells l0 st l) b [] s =
    (CVal (set_val m (fold_left (fun st x => snd (set_insert m st x)) l st)), t, s).
  Proof.
    induction l as [|k l IH]; intros j n b l0 st w s Hn Hb; cbn [List.length] in *.
    - destruct n as [|n]; [lia|]. destruct b as [|b]; [lia|]. cbn [fold_left].
      drive1. fset_step. drive1. eexists. reflexivity.
    - destruct n as [|n]; [lia|]. destruct b as [|[|b]]; try lia. cbn [fold_left].
      drive1. fset_step. drive1. fset_step. unfold set_insert.
      destruct (ss_insert m st k) as [o st'] eqn:Ei. cbn [snd].
      destruct (IH j n b l0 st' w s) as [t Et]; [lia|lia|].
      exists t. etransitivity; [clear Et|exact Et].
      exact (drive_pre (answer F U w) _ _ _ _ [ga_given l k; ga_taken st' o]
        (ga_round j n l0 l st st' k o) b [] s).
  Qed.
  Lemma set_from_array_ok : forall w l s n, 50 + 3 * List.length l <= n ->
    front_set_from_array m set_ast U n w l s = Some (set_val m (set_from_iter m w l), s).
  Proof.
    intros w l s n Hn. unfold front_set_from_array. rewrite ga_found.
    destruct ga_fn as [f|] eqn:Ef; [|discriminate Ef].
    replace n with (40 + (n - 40)) by lia. set (n' := n - 40).
    assert (Hb : exists b, 40 + n' = $($b) /\
      2 * List.length l < b) by (exists (38 + n'); unfold n'; split; lia).
    destruct Hb as (b & Eb & Hb).
    match goal with |- context [drive ?a ?c ?x (40 + n') ?z ?y] => set (act := c) end.
    rewrite Eb. unfold act. injection Ef as <-.
    drive1. fset_step. drive1. fset_step.
    destruct (ga_rounds l (33 + n') (13 + n') b l (ss_empty m w) w s) as [t Et]; [unfold n'; lia|exact Hb|].
    assert (D := drive_pre (answer F U w) _ _ _ _ _ (fun e => ga_start n' l (ss_empty m w) e _ eq_refl) b [] s).
    cbn [app] in D.
    match goal with |- match ?d with _ => _ end = _ => replace d with
      (@CVal V X _ (set_val (V := V) m (set_from_iter m w l)), t, s) end; [reflexivity|].
    symmetry. etransitivity; [exact D|exact Et].
  Qed.
End FromArray.

Section Inter.
  Context {K V S : Type} (m : SetStorage K) (U : user_fns K V S) (g : V -> K -> V).
  Notation X := (foreign_set m).
  Notation F := (set_file (V := V) (S := S) m None set_ast).
  Notation rep := (set_val (V := V) m).
  Notation ans := (front_set_answer (S := S) m g (answer F U old)).

  (** The other set is the first one or the second one. *)
  Definition inter_val (i : bool) (it : it_st (ss_Iter m)) : val V X :=
    VData "Intersection" "" [("iter", VForeign (YIter m it)); ("other", VRef (At (if i then 1 else 0) []))].
  Definition the_other (i : bool) (a b : ss_St m) : ss_St m := if i then b else a.
  Definition is_fn : option fn := Eval vm_compute in find_fn set_ast "Set" "intersection".
  Definition is_parts : expr * expr * expr := Eval vm_compute in
    match is_fn with
    | Some (Fn _ _ _ (EBlock [STail (EIf c a b)])) => (c, a, b)
    | _ => (ETup [], ETup [], ETup [])
    end.
  Definition is_run (n : nat) : run V X (val V X) :=
    returning (c <- alloc (VRef (At 0 []));;
               sc <- bind_pats set_ast [PName "other"] [VRef (At 1 [])] (MkScope [("self", c)] "Set");;
               v <- eval set_ast n sc (fst (fst is_parts));; x <- as_bool v;;
               eval set_ast n sc (if x : bool then snd (fst is_parts) else snd is_parts)).
  Lemma is_unfold : forall n f, is_fn = Some f ->
    call_fn set_ast $($($n)) "Set" f [VRef (At 0 []); VRef (At 1 [])] = is_run n.
  Proof. intros n f [= <-]. reflexivity. Qed.
  Definition is_scope : scope := MkScope [("other", 3); ("self", 2)] "Set".
  Definition is_len (n : nat) : reply V X := MkReply (CVal (VNum n)) [] [].
  Lemma is_start : forall n a b x y extra,
    is_run (20 + n) (MkRt [rep a; rep b] ([is_len x; is_len y] ++ extra)%list) =
    returning (eval set_ast (20 + n) is_scope (if Nat.leb x y then snd (fst is_parts) else snd is_parts))
      (MkRt [rep a; rep b; VRef (At 0 []); VRef (At 1 []); VRef (At 0 []); VRef (At 1 [])] extra).
  Proof.
    intros n a b x y extra. unfold is_run. apply returning_step.
    erewrite seq_step by (vm_compute; reflexivity).
    erewrite seq_step by (vm_compute; reflexivity).
    assert (R : eval set_ast (20 + n) is_scope (fst (fst is_parts))
      (MkRt [rep a; rep b; VRef (At 0 []); VRef (At 1 [])] ([is_len x; is_len y] ++ extra)%list) =
      (CVal (VBool (Nat.leb x y)), MkRt [rep a; rep b; VRef (At 0 []); VRef (At 1 []); VRef (At 0 []); VRef (At 1 [])] extra)) by (vm_compute; reflexivity).
    rewrite (seq_step _ _ _ _ _ R). reflexivity.
  Qed.
  Lemma intersection_ok : forall s a b, exists i,
    front_intersection m set_ast U s (rep a) (rep b) =
      Some (inter_val i (in_iter (set_intersection m a b))) /\
    in_other (set_intersection m a b) = the_other i a b.
  Proof.
    intros s a b. unfold front_intersection, invoke, go.
    change (function_of F "" "Set" "intersection") with (find_fn set_ast "Set" "intersection").
    replace (find_fn set_ast "Set" "intersection") with is_fn by (vm_compute; reflexivity).
    destruct is_fn as [f|] eqn:Ef; [|discriminate Ef].
    change (call_fn (f_prog F) fuel "Set" f) with (call_fn (V := V) (X := X) set_ast $($($(20 + (fuel - 23)))) "Set" f).
    rewrite (is_unfold (20 + (fuel - 23)) f Ef).
    change budget with (Datatypes.S (Datatypes.S (budget - 2))).
    drive1; fset_step; drive1; fset_step.
    match goal with |- context [drive ?ans _ ?cs ?n [_; _] ?s] =>
      assert (D := drive_pre ans _ _ _ _ _ (is_start (fuel - 23) a b (ss_len m a) (ss_len m b)) n [] s) end.
    cbn [app] in D. unfold is_len in D. rewrite D. clear D.
    unfold set_intersection, set_len, set_iter.
    destruct (Nat.leb (ss_len m a) (ss_len m b)); [exists true|exists false]; (split; [|reflexivity]).
    all: unfold set_val; drive1; fset_step; drive1; reflexivity.
  Qed.

  Definition in_body : expr := Eval vm_compute in
    match find_in_trait set_ast "Iterator" "Intersection" "next" with
    | Some (Fn _ _ _ (EBlock [STail (ELoop b)])) => b
    | _ => ETup []
    end.
  Definition in_scope : scope := MkScope [("self", 3)] "Intersection".
  Definition in_cells (i : bool) (a b : ss_St m) (it : it_st (ss_Iter m)) : list (val V X) :=
    [rep a; rep b; inter_val i it; VRef (At 2 [])].
  Definition in_loop (n : nat) : run V X (val V X) := returning (eval set_ast n in_scope (ELoop in_body)).
  Lemma in_start : forall n i a b it extra,
    method set_ast $($($n)) (At 2 []) "next" [] (MkRt [rep a; rep b; inter_val i it] extra) =
    in_loop n (MkRt (in_cells i a b it) extra).
  Proof. intros n [|] a b it extra. all: reflexivity. Qed.
  Lemma loop_unfold : forall n sc e, eval (V := V) (X := X) set_ast $n sc (ELoop e) =
    seq (scoped (eval set_ast n sc e)) (fun _ => eval set_ast n sc (ELoop e)).
  Proof. reflexivity. Qed.
  Definition in_given (it : it_st (ss_Iter m)) (k : K) : reply V X :=
    MkReply (CVal (some_ (elem_val m k))) [(At 2 [Fld "iter"], VForeign (YIter m it))] [].
  Definition in_found (b : bool) : reply V X := MkReply (CVal (VBool b)) [] [].
  Lemma in_round : forall n i a b it it' k extra,
    in_loop $(20 + n) (MkRt (in_cells i a b it) ([in_given it' k; in_found false] ++ extra)%list) =
    in_loop (20 + n) (MkRt (in_cells i a b it') extra).
  Proof.
    intros n i a b it it' k extra. destruct i; unfold in_loop at 1; unfold in_loop; rewrite loop_unfold; apply returning_step.
    all: erewrite seq_step by (vm_compute; reflexivity); reflexivity.
  Qed.

  Ltac inter_step := unfold front_set_answer; fset_step.
  Lemma in_rounds : forall fuel i a b it o x n bu s,
    inter_next m fuel (MkInter it (the_other i a b)) = Some (o, x) -> fuel <= n -> 2 * fuel <= bu ->
    exists t, drive ans (in_loop (20 + n)) (in_cells i a b it) bu [] s =
      (CVal (match o with Some k => some_ (elem_val m k) | None => none_ end), t, s) /\
      nth 2 t unit_ = inter_val i (in_iter x) /\ in_other x = the_other i a b.
  Proof.
    induction fuel as [|fuel IH]; intros i a b it o x n bu s H Hn Hb; [discriminate|].
    cbn [inter_next in_iter in_other] in H.
    destruct n as [|n]; [lia|]. destruct bu as [|[|bu]]; try lia.
    destruct (it_next (ss_Iter m) it) as [[k|] it'] eqn:Ei.
    - unfold set_contains in H. destruct i; cbn [the_other] in *; unfold in_cells, inter_val, set_val.
      + drive1. inter_step. rewrite Ei. drive1. inter_step.
        destruct (ss_contains m b k) eqn:Ec.
        * injection H as <- <-. drive1. eexists. split; [reflexivity|split; reflexivity].
        * destruct (IH true a b it' o x n bu s H) as (t & Et & Ht); [lia|lia|].
          exists t. split; [|exact Ht]. etransitivity; [clear Et|exact Et].
          exact (drive_pre ans _ _ _ _ [in_given it' k; in_found false] (in_round n true a b it it' k) bu [] s).
      + drive1. inter_step. rewrite Ei. drive1. inter_step.
        destruct (ss_contains m a k) eqn:Ec.
        * injection H as <- <-. drive1. eexists. split; [reflexivity|split; reflexivity].
        * destruct (IH false a b it' o x n bu s H) as (t & Et & Ht); [lia|lia|].
          exists t. split; [|exact Ht]. etransitivity; [clear Et|exact Et].
          exact (drive_pre ans _ _ _ _ [in_given it' k; in_found false] (in_round n false a b it it' k) bu [] s).
    - injection H as <- <-. destruct i; cbn [the_other in_iter in_other]; unfold in_cells, inter_val, set_val.
      all: drive1; inter_step; rewrite Ei; drive1; eexists; split; [reflexivity|split; reflexivity].
  Qed.

  Definition fo_fn : option fn := Eval vm_compute in find_in_trait set_ast "Iterator" "Intersection" "fold".
  Definition fo_args : list expr := Eval vm_compute in
    match fo_fn with Some (Fn _ _ _ (EBlock [STail (EMethod _ _ l)])) => l | _ => [] end.
  Definition fo_body : expr := Eval vm_compute in
    match fo_args with [_; EClosure _ e] => e | _ => ETup [] end.
  Definition fo_while : expr := Eval vm_compute in
    match find_in_trait set_ast "Iterator" "Any" "fold" with
    | Some (Fn _ _ _ (EBlock [_; SSemi w; _])) => w
    | _ => ETup []
    end.
  Definition fo_clos (i : bool) (it : it_st (ss_Iter m)) : val V X :=
    VClos [PName "acc"; PName "elt"] fo_body [("self", inter_val i it); ("f", VGiven 5)] "Intersection".
  Definition fo_scope1 : scope := MkScope [("f", 5); ("init", 4); ("self", 3)] "Intersection".
  Definition fo_scope2 : scope := MkScope [("f", 8); ("init", 7); ("self", 6)] "Any".
  Definition fo_scope : scope := MkScope [("acc", 9); ("f", 8); ("init", 7); ("self", 6)] "Any".
  Definition fo_loop (j n : nat) : run V X (val V X) :=
    returning (returning (_ <- eval set_ast n fo_scope fo_while;; eval set_ast j fo_scope (EPath ["acc"]))).
  Definition fo_cells1 (i : bool) (a b : ss_St m) (it : it_st (ss_Iter m)) (init : V) : list (val V X) :=
    [rep a; rep b; inter_val i it; inter_val i it; VUser init; VGiven 5].
  Definition fo_cells (i : bool) (a b : ss_St m) (it0 it : it_st (ss_Iter m)) (init acc : V) : list (val V X) :=
    (fo_cells1 i a b it0 init ++ [VForeign (YIter m it); VUser init; fo_clos i it0; VUser acc])%list.
  Lemma fo_start1 : forall n i a b it init extra,
    method set_ast $($($($n))) (At 2 []) "fold" [VUser init; VGiven 5] (MkRt [rep a; rep b; inter_val i it] extra) =
    returning (p <- at_place set_ast n fo_scope1 (EField (EPath ["self"]) "iter");;
               vs <- each (eval set_ast n fo_scope1) fo_args;; method set_ast n p "fold" vs)
      (MkRt (fo_cells1 i a b it init) extra).
  Proof. intros n [|] a b it init extra. all: reflexivity. Qed.
  Lemma fo_start2 : forall n i a b it init c extra,
    method set_ast $($($n)) (At 3 [Fld "iter"]) "fold" [VUser init; c] (MkRt (fo_cells1 i a b it init) extra) =
    returning (v <- eval set_ast n fo_scope2 (EPath ["init"]);; sc <- bind_pat set_ast (PName "acc") v fo_scope2;;
               _ <- eval set_ast n sc fo_while;; eval set_ast n sc (EPath ["acc"]))
      (MkRt (fo_cells1 i a b it init ++ [VForeign (YIter m it); VUser init; c])%list extra).
  Proof. intros n [|] a b it init c extra. all: reflexivity. Qed.
  Lemma fo_start : forall n i a b it init extra,
    method set_ast $($($($($($($(20 + n))))))) (At 2 []) "fold" [VUser init; VGiven 5] (MkRt [rep a; rep b; inter_val i it] extra) =
    fo_loop (20 + n) (20 + n) (MkRt (fo_cells i a b it it init init) extra).
  Proof.
    intros n i a b it init extra. rewrite fo_start1. unfold fo_loop. apply returning_step.
    assert (E1 : at_place set_ast $($($(20 + n))) fo_scope1 (EField (EPath ["self"]) "iter")
      (MkRt (fo_cells1 i a b it init) extra) =
      (CVal (At 3 [Fld "iter"]), MkRt (fo_cells1 i a b it init) extra)) by (destruct i; vm_compute; reflexivity).
    rewrite (seq_step _ _ _ _ _ E1).
    assert (E2 : each (eval set_ast $($($(20 + n))) fo_scope1) fo_args (MkRt (fo_cells1 i a b it init) extra) =
      (CVal [VUser init; fo_clos i it], MkRt (fo_cells1 i a b it init) extra)) by (destruct i; vm_compute; reflexivity).
    rewrite (seq_step _ _ _ _ _ E2), fo_start2. apply returning_step.
    destruct i.
    all: erewrite seq_step by (vm_compute; reflexivity).
    all: erewrite seq_step by (vm_compute; reflexivity).
    all: reflexivity.
  Qed.
  Definition fo_one (n : nat) : run V X bool :=
    scoped (v <- eval set_ast n fo_scope (EMethod (EPath ["self"]) "next" []);;
            o <- matches set_ast pattern_depth (PCtor ["Some"] [PName "x"]) v;;
            match o with
            | Some l => sc' <- binding l fo_scope;;
                _ <- eval set_ast n sc' (EBlock [SSemi (EAssign "=" (EPath ["acc"])
                  (ECall (EPath ["f"]) [ECall (EPath ["mem"; "replace"]) [EUnary "&" (EPath ["acc"]); ETup []];
                                        EPath ["x"]]))]);; done true
            | None => done false
            end).
  Lemma while_unfold : forall n, eval set_ast $n fo_scope fo_while =
    seq (fo_one n) (fun again : bool => if again then eval set_ast n fo_scope fo_while else done unit_).
  Proof. reflexivity. Qed.
  Definition fo_given (it : it_st (ss_Iter m)) (k : K) : reply V X :=
    MkReply (CVal (some_ (elem_val m k))) [(At 6 [], VForeign (YIter m it))] [].
  Definition fo_folded (v : V) : reply V X := MkReply (CVal (VUser v)) [] [].
  Lemma fo_round : forall j n i a b it0 it it' init acc k v (y : bool) extra,
    fo_loop j $(30 + n) (MkRt (fo_cells i a b it0 it init acc)
      ((fo_given it' k :: in_found y :: if y then [fo_folded v] else []) ++ extra)%list) =
    fo_loop j (30 + n) (MkRt (fo_cells i a b it0 it' init (if y then v else acc)) extra).
  Proof.
    intros j n i a b it0 it it' init acc k v y extra. unfold fo_loop at 1. unfold fo_loop. rewrite while_unfold.
    apply returning_step, returning_step, seq_cong.
    assert (R : fo_one (30 + n) (MkRt (fo_cells i a b it0 it init acc)
      ((fo_given it' k :: in_found y :: if y then [fo_folded v] else []) ++ extra)%list) =
      (CVal true, MkRt (fo_cells i a b it0 it' init (if y then v else acc)) extra))
      by (destruct i, y; vm_compute; reflexivity).
    rewrite (seq_step _ _ _ _ _ R). reflexivity.
  Qed.
  Lemma fo_rounds : forall fuel j i a b it0 it init acc v n bu s,
    inter_fold m fuel (MkInter it (the_other i a b)) acc g = Some v -> fuel <= n -> 3 * fuel <= bu ->
    exists t, drive ans (fo_loop $j (30 + n)) (fo_cells i a b it0 it init acc) bu [] s = (CVal (VUser v), t, s).
  Proof.
    induction fuel as [|fuel IH]; intros j i a b it0 it init acc v n bu s H Hn Hb; [discriminate|].
    cbn [inter_fold in_iter in_other] in H.
    destruct n as [|n]; [lia|]. destruct bu as [|[|[|bu]]]; try lia.
    destruct (it_next (ss_Iter m) it) as [[k|] it'] eqn:Ei.
    - unfold set_contains in H.
      assert (R : forall y bu', y = ss_contains m (the_other i a b) k -> 3 * fuel <= bu' -> exists t,
        drive ans (fo_loop $j (30 + $n)) (fo_cells i a b it0 it init acc) bu'
          (fo_given it' k :: in_found y :: if y then [fo_folded (g acc k)] else []) s = (CVal (VUser v), t, s)).
      { intros y bu' -> Hb'.
        destruct (IH j i a b it0 it' init _ v n bu' s H) as (t & Et); [lia|exact Hb'|].
        exists t. etransitivity; [clear Et|exact Et].
        assert (D := drive_pre ans _ _ _ _ _
          (fo_round $j n i a b it0 it it' init acc k (g acc k) (ss_contains m (the_other i a b) k)) bu' [] s).
        rewrite app_nil_r in D. exact D. }
      destruct i; cbn [the_other] in *; unfold fo_cells, fo_cells1, fo_clos, inter_val, set_val in *.
      + specialize (R (ss_contains m b k)).
        drive1; inter_step; rewrite Ei; drive1; inter_step.
        destruct (ss_contains m b k) eqn:Ec.
        * drive1. cbn [front_set_answer]. apply R; [reflexivity|lia].
        * apply R; [reflexivity|lia].
      + specialize (R (ss_contains m a k)).
        drive1; inter_step; rewrite Ei; drive1; inter_step.
        destruct (ss_contains m a k) eqn:Ec.
        * drive1. cbn [front_set_answer]. apply R; [reflexivity|lia].
        * apply R; [reflexivity|lia].
    - injection H as <-. destruct i; unfold fo_cells, fo_cells1, fo_clos, inter_val, set_val.
      all: drive1; inter_step; rewrite Ei; drive1; eexists; reflexivity.
  Qed.

  Lemma fold_call_ok : forall fuel i a b it init v n s,
    inter_fold m fuel (MkInter it (the_other i a b)) init g = Some v -> 40 + 3 * fuel <= n ->
    exists t, inter_call m set_ast U g n "fold" [VUser init; VGiven 5] (rep a) (rep b) (inter_val i it) s =
      Some (VUser v, t).
  Proof.
    intros fuel i a b it init v n s H Hn. unfold inter_call.
    destruct (fo_rounds fuel (29 + (n - 37)) i a b it it init init v (n - 37) n s H) as (t & Et); [lia|lia|].
    assert (D := drive_pre ans _ _ [rep a; rep b; inter_val i it] _ []
      (fun extra => fo_start (10 + (n - 37)) i a b it init extra) n [] s).
    cbn [app] in D. exists t.
    replace (method set_ast n) with (method (V := V) (X := X) set_ast $($($($($($($(20 + (10 + (n - 37)))))))))) by (f_equal; lia).
    change (20 + (10 + (n - 37))) with (30 + (n - 37)) in *. change (Datatypes.S (29 + (n - 37))) with (30 + (n - 37)) in Et.
    match goal with |- match ?d with _ => _ end = _ => replace d with (@CVal V X _ (VUser v : val V X), t, s) end; [reflexivity|].
    symmetry. etransitivity; [exact D|exact Et].
  Qed.
  Lemma next_call_ok : forall fuel i a b it o x n s,
    inter_next m fuel (MkInter it (the_other i a b)) = Some (o, x) -> 40 + 3 * fuel <= n ->
    exists t, inter_call m set_ast U g n "next" [] (rep a) (rep b) (inter_val i it) s =
      Some (match o with Some k => some_ (elem_val m k) | None => none_ end, t) /\
      nth 2 t unit_ = inter_val i (in_iter x) /\ in_other x = the_other i a b.
  Proof.
    intros fuel i a b it o x n s H Hn. unfold inter_call.
    destruct (in_rounds fuel i a b it o x (n - 23) n s H) as (t & Et & Ht); [lia|lia|].
    assert (D := drive_pre ans _ _ [rep a; rep b; inter_val i it] _ []
      (fun extra => in_start (20 + (n - 23)) i a b it extra) n [] s).
    cbn [app] in D. exists t. split; [|exact Ht].
    replace (method set_ast n) with (method (V := V) (X := X) set_ast $($($(20 + (n - 23))))) by (f_equal; lia).
    match goal with |- match ?d with _ => _ end = Some (?v, _) => replace d with (@CVal V X _ v, t, s) end; [reflexivity|].
    symmetry. etransitivity; [exact D|exact Et].
  Qed.
  Lemma hint_call_ok : forall i a b it n s, 40 <= n ->
    exists t, inter_call m set_ast U g n "size_hint" [] (rep a) (rep b) (inter_val i it) s =
      Some (bounds_val (0, snd (it_hint (ss_Iter m) it)), t) /\ nth 2 t unit_ = inter_val i it.
  Proof.
    intros i a b it n s Hn. replace n with (40 + (n - 40)) by lia. unfold inter_call, inter_val, set_val.
    destruct i; drive1; inter_step; destruct (it_hint (ss_Iter m) it) as [lo [hi|]]; cbn iota beta; drive1;
      eexists; (split; reflexivity).
  Qed.
  Lemma clone_call_ok : forall i a b it n s, 40 <= n ->
    exists t, inter_call m set_ast U g n "clone" [] (rep a) (rep b) (inter_val i it) s =
      Some (inter_val i (it_clone (ss_Iter m) it), t).
  Proof.
    intros i a b it n s Hn. replace n with (40 + (n - 40)) by lia. unfold inter_call, inter_val, set_val.
    destruct i; drive1; inter_step; drive1; eexists; reflexivity.
  Qed.
End Inter.

Section Whole.
  Context {K V S : Type} (m : SetStorage K) (U : user_fns K V S).
  Notation rep := (set_val (V := V) m).

  Lemma told_ok : forall fuel l i a b it r x n s,
    inter_says m fuel l (MkInter it (the_other m i a b)) = Some (r, x) -> 40 + 3 * fuel <= n ->
    inter_told m set_ast U n l (rep a) (rep b) (inter_val m i it) s = Some (r, inter_val m i (in_iter x)) /\
    in_other x = the_other m i a b.
  Proof.
    induction l as [|q l IH]; intros i a b it r x n s H Hn.
    - injection H as <- <-. split; reflexivity.
    - destruct q; cbn [inter_says inter_told] in *.
      + destruct (inter_next m fuel (MkInter it (the_other m i a b))) as [[o y]|] eqn:En; [|discriminate].
        destruct (next_call_ok m U (fun b _ => b) fuel i a b it o y n s En Hn) as (t & -> & -> & Eo).
        destruct y as [it' oth]. cbn [in_iter in_other] in *. subst oth.
        destruct (inter_says m fuel l (MkInter it' (the_other m i a b))) as [[r' x']|] eqn:El; [|discriminate].
        injection H as <- <-. cbn [fst snd].
        destruct (IH i a b it' r' x' n s El Hn) as (-> & Ex). split; [|exact Ex].
        destruct o as [k|]; reflexivity.
      + destruct (hint_call_ok m U (fun b _ => b) i a b it n s) as (t & -> & ->); [lia|].
        destruct (inter_says m fuel l (MkInter it (the_other m i a b))) as [[r' x']|] eqn:El; [|discriminate].
        injection H as <- <-. cbn [fst snd].
        destruct (IH i a b it r' x' n s El Hn) as (-> & Ex). split; [|exact Ex].
        unfold inter_hint; cbn [in_iter]. destruct (it_hint (ss_Iter m) it) as [lo [hi|]]; reflexivity.
      + destruct (clone_call_ok m U (fun b _ => b) i a b it n s) as (t & ->); [lia|].
        cbn [in_iter in_other] in H.
        destruct (IH i a b (it_clone (ss_Iter m) it) r x n s H Hn) as (-> & Ex). split; [reflexivity|exact Ex].
  Qed.
  Lemma inter_ok : forall fuel l g init s a b r n,
    model_inter m fuel l g init a b = Some r -> 40 + 3 * fuel <= n ->
    text_inter m set_ast U n l g init s (rep a) (rep b) = Some r.
  Proof.
    intros fuel l g init s a b r n H Hn. unfold model_inter in H. unfold text_inter.
    destruct (intersection_ok m U s a b) as (i & -> & Eo).
    destruct (set_intersection m a b) as [it oth]. cbn [in_iter in_other] in *. subst oth.
    destruct (inter_says m fuel l (MkInter it (the_other m i a b))) as [[r' x]|] eqn:El; [|discriminate].
    destruct (told_ok fuel l i a b it r' x n s El Hn) as (-> & Ex).
    destruct x as [it' oth]. cbn [in_iter in_other] in *. subst oth.
    destruct (inter_fold m fuel (MkInter it' (the_other m i a b)) init g) as [v|] eqn:Ef; [|discriminate].
    injection H as <-. destruct (fold_call_ok m U g fuel i a b it' init v n s Ef Hn) as (t & ->). reflexivity.
  Qed.
End Whole.
