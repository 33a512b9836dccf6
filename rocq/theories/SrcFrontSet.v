(** Running src/set.rs: a [Set] does what its storage does. *)
Require Import List Arith NArith ZArith Bool String Lia.
Import ListNotations.
From Verif Require Import Std Traits Api MapStorages SetStorages SrcText SrcStd SrcParse SrcRun SrcSpec SrcFiles
  SrcFront SrcFrontSetSpec SrcProofs SrcForeign SrcFrontMap SrcFrontLoop.
Open Scope string_scope.

(** What is asked of the user or of the storage. *)
Ltac fset_step :=
  match goal with
  | |- context [answer ?F ?U ?w ?q ?s] =>
      let a1 := eval cbv beta delta [answer] in (answer F U w q s) in
      let a2 := eval pattern (callback F U) in a1 in
      lazymatch a2 with
      | ?f ?c =>
      let r := eval lazy beta iota zeta delta
        [user_answer call_keep f_as_key f_foreign f_load f_store
         set_file front_set_foreign ask_set_order
         foreign_set_answer ask_set ask_set_iter sets sets_new elem_in elem_val as_elem_val
         option_of fst snd option_map result_val opt_val some_ none_ bounds_val]
        in f in
      let r' := eval cbv beta in (r c) in
      change (answer F U w q s) with r'
      end
  end;
  repeat match goal with
  | |- context [list_eq_dec string_dec ?a ?b] => ev (list_eq_dec string_dec a b)
  end;
  cbn [app fst snd].
Ltac fset_runs := repeat first [ms_call | back_call | drive1; repeat fset_step; cbn iota beta | user_call; cbn iota beta].
Ltac fset_user_step :=
  match goal with
  | |- context [user_answer ?F ?U ?o ?q ?s] =>
      let r := eval lazy beta iota zeta delta
        [user_answer call_keep f_as_key set_file as_elem_val elem_val option_of option_map] in (user_answer F U o q s) in
      change (user_answer F U o q s) with r
  end; cbn [app]; cbn iota beta.
Ltac fset_closure :=
  intros; unfold keep1_by, callback, keep1_fn; cbn [f_prog];
  repeat first [drive1; try fset_user_step; cbn [cells]; cbn iota beta | user_call; cbn iota beta]; reflexivity.
Ltac fset_ask :=
  it_side; unfold ask_it, go; fset_runs; cbn [fst snd];
  match goal with
  | |- exists a, ?x = _ /\ _ =>
      let y := eval vm_compute in x in
      lazymatch y with Some (?a, _, _, _) => exists a; split; [vm_compute; reflexivity | ] end
  | |- exists it0, ?x = _ =>
      let y := eval vm_compute in x in
      lazymatch y with Some (_, _, ?i, _) => exists i; vm_compute; reflexivity end
  end.
Ltac fset_begin :=
  match goal with
  | |- begins ?F ?U ?m ?arg ?self ?it =>
      let it' := eval cbn in it in let self' := eval cbn in self in
      change (begins F U m arg self' it')
  end;
  intro; unfold invoke, self_arg, go; repeat found; lazy beta iota zeta; fset_runs;
  match goal with |- exists t, (_, ?x, _) = _ /\ _ => exists x; split; [|split]; vm_compute; reflexivity end.

Definition set_ast : list item := Eval vm_compute in program set_text.
Lemma set_read : program set_text = set_ast.
Proof. vm_compute. reflexivity. Qed.

Section FrontSet.
  Context {K V S : Type} (m : SetStorage K) (U : user_fns K V S).
  Hypothesis ext : forall (f g : set_retain_fn S K) s st,
    (forall s k, f s k = g s k) -> ss_retain m f s st = ss_retain m g s st.
  Notation X := (foreign_set m).
  Notation F := (set_file (V := V) (S := S) m None set_ast).
  Notation val := (val V X).
  Notation rep := (set_val (V := V) m).
  Definition set_step_ok (q : gset K) : Prop := forall s st,
    front_sreq m set_ast U q s (rep st) = let '(s1, st1, a) := gset_req m U q s st in (s1, rep st1, a).

  Ltac simple :=
    lazy beta iota zeta delta [gset_req set_req end_of set_compare]; unfold set_val; cbn [front_sreq src_sreq];
    unfold call_on, invoke, self_arg, reclone, go; repeat found; cbn iota; fset_runs.
  Lemma gplain_ok : forall q, match q with NIter _ _ | NRetain => False | _ => True end -> set_step_ok (GPlain q).
  Proof.
    intros [| |k|k|k| | | |] H; try contradiction; intros s st; simple; ms_finish.
  Qed.
  Lemma gretain_ok : set_step_ok (GPlain NRetain).
  Proof.
    intros s st; simple.
    match goal with
    | |- context [ss_retain m (keep1_by m false (callback F U) ?g) _ _] =>
        rewrite (ext (keep1_by m false (callback F U) g) (keep1_fn U))
    end.
    2: fset_closure.
    match goal with |- context [ss_retain m ?f ?s ?st] => destruct (ss_retain m f s st) as [[? ?] [|]] end;
      cbn iota beta; fset_runs; ms_finish.
  Qed.
  Lemma geq_ok : forall s a b, src_eq F U s (rep a) (rep b) = Some (set_compare m s a b).
  Proof. intros s a b; unfold set_compare, set_val, src_eq, go; fset_runs; ms_finish. Qed.

  Ltac says_it := intros ?; unfold asks; fset_ask; unfold hint_of; cbn; eauto.
  Ltac goes I :=
    constructor;
    [ intros it _; (split; [says_it | exact Logic.I])
    | intros it _; says_it
    | first [discriminate | intros _ it _; (split; [exact Logic.I | says_it])]
    | let E := fresh "E" in case_back I E; cbn; [|reflexivity];
      split; [reflexivity|]; intros it _; (split; [says_it | exact Logic.I]) ].
  Lemma giter_ok : forall l, set_step_ok (GPlain (NIter false l)).
  Proof.
    intros l s st. cbn [front_sreq gset_req src_sreq set_req].
    refine (iterate_ok F U (ss_Iter m) (is_some (it_back (ss_Iter m)))
       (fun i => VForeign (YIter m i))
       (fun _ => True) true _ (rep st) (ss_iter m st) "iter" s _ Logic.I _ l).
    - fset_begin.
    - goes (ss_Iter m).
  Qed.
  Lemma ginto_iter_ok : forall l, set_step_ok (GPlain (NIter true l)).
  Proof.
    intros l s st. cbn [front_sreq gset_req src_sreq set_req].
    refine (iterate_ok F U (ss_IntoIter m) (is_some (it_back (ss_IntoIter m)))
       (fun i => VForeign (YIntoIter m i))
       (fun _ => True) false _ (rep st) (ss_into_iter m st) "into_iter" s _ Logic.I _ l).
    - fset_begin.
    - goes (ss_IntoIter m).
  Qed.
  Lemma gref_iter_ok : forall l, set_step_ok (GRefIter l).
  Proof.
    intros l s st. cbn [front_sreq gset_req].
    assert (B : exists t,
      invoke F U old "IntoIterator" "&Set" "into_iter" [VRef (At 0 [])] [rep st] s =
        (CVal (VForeign (YIter m (ss_iter m st))), t, s) /\ self_in t = rep st).
    { unfold set_val, invoke, go; repeat found; lazy beta iota zeta; fset_runs.
      match goal with |- exists t, (_, ?x, _) = _ /\ _ => exists x; split; vm_compute; reflexivity end. }
    destruct B as (t & B & Ht). rewrite B, Ht.
    enough (A : asking_all F U (set_both_ends m "iter") true (item_of F) bounds_of l (rep st)
                  (VForeign (YIter m (ss_iter m st))) s =
                Some (say (ss_Iter m) true (fun o => Item (option_map (fun k => (Some k, None)) o))
                        hint_of l (ss_iter m st), s)) by (rewrite A; reflexivity).
    clear t B Ht.
    refine (all_asked F U (ss_Iter m) (is_some (it_back (ss_Iter m))) (fun i => VForeign (YIter m i))
      (fun _ => True) true _ (rep st) (ss_iter m st) s _ Logic.I l).
    goes (ss_Iter m).
  Qed.
  Lemma gstep_ok : forall q, set_step_ok q.
  Proof.
    intros [[| |k|k|k| | | |[|] l]|l]; try (apply gplain_ok; exact Logic.I).
    - apply gretain_ok. - apply ginto_iter_ok. - apply giter_ok. - apply gref_iter_ok.
  Qed.
  Lemma gnews : forall w s, exists t,
    invoke F U w (f_trait F) (f_storage F) (maker F) [] [] s = (CVal (rep (set_new m w)), t, s).
  Proof.
    intros w s. unfold set_val, set_new, invoke, go; repeat found; cbn iota; fset_runs.
    match goal with |- exists t, (_, ?x, _) = _ => exists x; vm_compute; reflexivity end.
  Qed.
  Lemma front_set_told : forall w l s,
    told_by F U (front_sreq m set_ast U) w l s = Some (fst (answers (gset_req m U) l s (set_new m w))).
  Proof.
    apply (new_told_ok F U (front_sreq m set_ast U) (gset_req m U) rep (fun _ => True) (set_new m)); try exact gnews; auto.
    intros q s st _. split; [exact Logic.I | apply gstep_ok].
  Qed.
  Lemma front_set_compared : forall w1 w2 l1 l2 s,
    compare_new F U (front_sreq m set_ast U) w1 w2 l1 l2 s =
    Some (compared (gset_req m U) (set_compare m) (set_new m w1) (set_new m w2) l1 l2 s).
  Proof.
    apply (new_compare_ok F U (front_sreq m set_ast U) (gset_req m U) rep (fun _ => True) (set_new m)); try exact gnews; auto.
    - intros q s st _. split; [exact Logic.I | apply gstep_ok].
  Qed.
  Lemma set_default_ok : forall w s, front_set_default m set_ast U w s = Some (rep (set_default m w), s).
  Proof.
    intros w s. unfold front_set_default, set_default, set_val, set_new, invoke, go; repeat found; cbn iota; fset_runs.
    vm_compute; reflexivity.
  Qed.
  Lemma from_raw_ok : forall n s,
    front_from_raw m set_ast U n s = option_map (fun g => rep (g (N.of_nat n))) (set_from_raw m).
  Proof.
    intros n s. unfold front_from_raw, set_from_raw, set_val, invoke, go; repeat found; cbn iota.
    drive1. fset_step. destruct (ss_raw m) as [r|]; cbn iota beta delta [option_map]; drive1; reflexivity.
  Qed.

  (** ** Comparing *)
  Variable word : S -> Z -> S.
  Notation G := (set_file (V := V) (S := S) m (Some word) set_ast).
  Ltac order_step :=
    fset_step;
    repeat match goal with
    | |- context [set_lt ?m] => is_var m; destruct (set_lt m) as [?|]
    | |- context [set_le ?m] => is_var m; destruct (set_le m) as [?|]
    | |- context [set_gt ?m] => is_var m; destruct (set_gt m) as [?|]
    | |- context [set_ge ?m] => is_var m; destruct (set_ge m) as [?|]
    | |- context [set_max ?m] => is_var m; destruct (set_max m) as [?|]
    | |- context [set_min ?m] => is_var m; destruct (set_min m) as [?|]
    | |- context [ss_partial_cmp ?m] => is_var m; destruct (ss_partial_cmp m) as [?|]
    | |- context [ss_cmp ?m] => is_var m; destruct (ss_cmp m) as [?|]
    | |- context [ss_hash ?m] => is_var m; destruct (ss_hash m) as [?|]
    | |- context [ss_raw ?m] => is_var m; destruct (ss_raw m) as [?|]
    end; cbn iota beta delta [option_map].
  Ltac order_runs :=
    repeat first
      [ match goal with
        | p : ss_St m -> ss_St m -> option comparison |- context [?q ?a ?b] =>
            constr_eq p q; destruct (p a b) as [[| |]|]
        | p : ss_St m -> ss_St m -> comparison |- context [?q ?a ?b] =>
            constr_eq p q; destruct (p a b)
        end; cbn iota beta
      | drive1; repeat order_step; cbn iota beta ].
  Ltac orders := unfold set_val, invoke, go; repeat found; cbn iota; order_runs.
  Lemma set_order_ok : forall q s a b, front_set_order m set_ast U word q s (rep a) (rep b) = set_order m q s a b.
  Proof.
    intros q s a b. destruct q; unfold front_set_order, order_trait, order_name, set_order, set_partial_cmp, set_cmp.
    all: orders; vm_compute; reflexivity.
  Qed.
  Lemma set_pick_ok : forall q s a b, front_set_pick m set_ast U word q s (rep a) (rep b) =
    option_map (fun g => rep (g a b)) (match q with PMax => set_max m | PMin => set_min m end).
  Proof. intros q s a b. destruct q; unfold front_set_pick; orders; vm_compute; reflexivity. Qed.
  Lemma set_clamp_ok : forall s a b c,
    front_set_clamp m set_ast U word s (rep a) (rep b) (rep c) =
    option_map (fun g => res_map rep (g a b c)) (set_clamp m).
  Proof.
    intros s a b c. unfold front_set_clamp, set_val, invoke, go; repeat found; cbn iota.
    drive1. fset_step. unfold set_clamp.
    destruct (set_partial_cmp m) as [g|]; cbn iota beta delta [option_map].
    2: drive1; reflexivity.
    unfold ord_clamp. destruct (pc_le (g b c)); cbn iota beta; drive1; vm_compute; reflexivity.
  Qed.
  Lemma set_hash_ok : forall s a, front_set_hash m set_ast U word s (rep a) =
    option_map (fun g => fold_left word (g a) s) (set_hash m).
  Proof. intros s a. unfold front_set_hash, set_hash; orders; reflexivity. Qed.
  Lemma as_raw_ok : forall s a, front_as_raw m set_ast U word s (rep a) =
    option_map (fun g => N.to_nat (g a)) (set_as_raw m).
  Proof. intros s a. unfold front_as_raw, set_as_raw; orders; reflexivity. Qed.
End FrontSet.
