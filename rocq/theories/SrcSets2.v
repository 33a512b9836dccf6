(** Running src/set/storage/option.rs and src/set/storage/hashbrown.rs: they do what
    [opt_set_storage] does and what the table does that is wrapped. *)
Require Import List Arith NArith Bool String Lia.
Import ListNotations.
From Verif Require Import Std Traits MapStorages SetStorages SrcText SrcStd SrcParse SrcRun SrcSpec SrcFiles SrcProofs
  SrcForeign.
Open Scope string_scope.

Definition option_set_ast : list item := Eval vm_compute in program option_set_text.
Lemma option_set_read : program option_set_text = option_set_ast.
Proof. vm_compute. reflexivity. Qed.
Definition hash_set_ast : list item := Eval vm_compute in program hash_set_text.
Lemma hash_set_read : program hash_set_text = hash_set_ast.
Proof. vm_compute. reflexivity. Qed.

Section OptionSet.
  Context {K V S : Type} (m : SetStorage K) (U : user_fns (option K) V S).
  Hypothesis ext : forall (f g : set_retain_fn S K) s st,
    (forall s k, f s k = g s k) -> ss_retain m f s st = ss_retain m g s st.
  Notation F := (option_set_file m V S option_set_ast).
  Notation M := (opt_set_storage m).
  Notation val := (val V (foreign_set m)).

  Definition rep (st : opt_set m) : val :=
    VData "OptionSetStorage" "" [("some", VForeign (YSet m (os_some m st))); ("none", VBool (os_none m st))].
  Definition same_step (q : sreq (option K)) : Prop := forall s st,
    src_sreq F U q s (rep st) = let '(s1, st1, a) := set_req U M q s st in (s1, rep st1, a).

  Ltac simple :=
    model_side; unfold rep; cbn [os_some os_none]; cbn [src_sreq];
    unfold call_on, invoke, self_arg, reclone, go; repeat found; cbn iota; foreign_runs.
  Lemma plain_ok : forall q, match q with NIter _ _ | NRetain => False | _ => True end -> same_step q.
  Proof.
    intros [| |[k|]|[k|]|[k|]| | | |] H; try contradiction; intros s [st [|]]; simple; ms_finish.
  Qed.
  Lemma retain_ok : same_step NRetain.
  Proof.
    intros s [st [|]]; simple.
    all: match goal with
    | |- context [ss_retain m (keep1_by m false (callback F U) ?g) _ _] =>
        rewrite (ext (keep1_by m false (callback F U) g) (fun s k => keep1_fn U s (Some k)))
    end.
    2, 4: closure.
    all: match goal with |- context [ss_retain m ?f ?s ?st] => destruct (ss_retain m f s st) as [[? ?] [|]] end;
      cbn iota beta; unfold keep1_fn; foreign_runs; ms_finish.
  Qed.
  Lemma eq_ok : forall s a b, src_eq F U s (rep a) (rep b) = Some (set_compare M s a b).
  Proof.
    intros s [a [|]] [b [|]]; model_side; unfold rep; cbn [os_some os_none];
      unfold src_eq, go; foreign_runs; ms_finish.
  Qed.

  (** ** Iterators *)
  Definition rest_is {A} (it : A * option (option (option K))) : Prop :=
    match snd it with Some (Some (Some _)) => False | _ => True end.
  Ltac inside := unfold rest_is; it_side; cbn [snd];
    repeat match goal with
    | |- context [@it_next ?A ?I ?a] => destruct (@it_next A I a) as [[?|] ?]
    | H : it_back _ = Some ?b |- context [?b ?a] => destruct (b a) as [[?|] ?]
    end; cbn; auto.
  Ltac one it := unfold rest_is; destruct it as [[a|] [[[b|]|]|]]; intros H; cbn [snd] in H; try contradiction.
  Ltac says_it := intros ?; unfold asks; ask_foreign_step; unfold hint_of; cbn; repeat rewrite Nat.add_0_r; eauto.
  Ltac goes I :=
    constructor;
    [ intros it; one it; (split; [says_it | inside])
    | intros it; one it; says_it
    | first [discriminate | intros _ it; one it; (split; [inside | says_it])]
    | it_side; let E := fresh "E" in case_back I E; cbn; [|reflexivity];
      split; [reflexivity|]; intros it; one it; (split; [says_it | inside]) ].
  Lemma iter_ok : forall l, same_step (NIter false l).
  Proof.
    intros l s st. cbn [src_sreq set_req].
    refine (iterate_ok F U (ss_Iter M) (is_some (it_back (ss_Iter m)))
       (chain_rep (map_rep (VFn ["Some"]) (fun i => VForeign (YIter m i))) (item_rep (fun _ => none_)))
       rest_is true _ (rep st) (ss_iter M st) "iter" s _ _ _ l).
    - destruct st as [st [|]]; foreign_begin.
    - destruct st as [st [|]]; cbn; auto.
    - destruct st as [st n]. goes (ss_Iter m).
  Qed.
  Lemma into_iter_ok : forall l, same_step (NIter true l).
  Proof.
    intros l s st. cbn [src_sreq set_req].
    refine (iterate_ok F U (ss_IntoIter M) (is_some (it_back (ss_IntoIter m)))
       (chain_rep (map_rep (VFn ["Some"]) (fun i => VForeign (YIntoIter m i))) (item_rep (fun _ => none_)))
       rest_is false _ (rep st) (ss_into_iter M st) "into_iter" s _ _ _ l).
    - destruct st as [st [|]]; foreign_begin.
    - destruct st as [st [|]]; cbn; auto.
    - destruct st as [st n]. goes (ss_IntoIter m).
  Qed.
  Lemma step_ok : forall q, same_step q.
  Proof.
    intros [| |k|k|k| | | |[|] l]; try (apply plain_ok; exact Logic.I).
    - apply retain_ok. - apply into_iter_ok. - apply iter_ok.
  Qed.
  Lemma news : forall w s, exists t,
    invoke F U w (f_trait F) (f_storage F) "empty" [] [] s = (CVal (rep (ss_empty M w)), t, s).
  Proof.
    intros w s. unfold rep. cbn [ss_empty opt_set_storage os_some os_none].
    unfold invoke, go; repeat found; cbn iota; foreign_runs.
    match goal with |- exists t, (_, ?x, _) = _ => exists x; vm_compute; reflexivity end.
  Qed.
  Lemma option_set_told : forall w l s,
    told_by F U (src_sreq F U) w l s = Some (fst (answers (set_req U M) l s (ss_empty M w))).
  Proof.
    apply (new_told_ok F U (src_sreq F U) (set_req U M) rep (fun _ => True) (ss_empty M)); try exact news; auto.
    intros q s st _. split; [exact Logic.I | apply step_ok].
  Qed.
  Lemma option_set_compared : forall w1 w2 l1 l2 s,
    compare_new F U (src_sreq F U) w1 w2 l1 l2 s =
    Some (compared (set_req U M) (set_compare M) (ss_empty M w1) (ss_empty M w2) l1 l2 s).
  Proof.
    apply (new_compare_ok F U (src_sreq F U) (set_req U M) rep (fun _ => True) (ss_empty M)); try exact news; auto.
    - intros q s st _. split; [exact Logic.I | apply step_ok].
    - intros. apply eq_ok.
  Qed.
End OptionSet.

Section HashSet.
  Context {K V S : Type} (m : SetStorage K) (U : user_fns K V S).
  Hypothesis ext : forall (f g : set_retain_fn S K) s st,
    (forall s k, f s k = g s k) -> ss_retain m f s st = ss_retain m g s st.
  Notation F := (hash_set_file m V S hash_set_ast).
  Notation val := (val V (foreign_set m)).

  Definition hrep (st : ss_St m) : val := VData "HashbrownSetStorage" "" [("inner", VForeign (YSet m st))].
  Definition hsame_step (q : sreq K) : Prop := forall s st,
    src_sreq F U q s (hrep st) = let '(s1, st1, a) := set_req U m q s st in (s1, hrep st1, a).

  Ltac simple :=
    lazy beta iota zeta delta [set_req end_of set_compare]; unfold hrep; cbn [src_sreq];
    unfold call_on, invoke, self_arg, reclone, go; repeat found; cbn iota; foreign_runs.
  Lemma hplain_ok : forall q, match q with NIter _ _ | NRetain => False | _ => True end -> hsame_step q.
  Proof.
    intros [| |k|k|k| | | |] H; try contradiction; intros s st; simple; ms_finish.
  Qed.
  Lemma hretain_ok : hsame_step NRetain.
  Proof.
    intros s st; simple.
    match goal with
    | |- context [ss_retain m (keep1_by m true (callback F U) ?g) _ _] =>
        rewrite (ext (keep1_by m true (callback F U) g) (keep1_fn U))
    end.
    2: closure.
    match goal with |- context [ss_retain m ?f ?s ?st] => destruct (ss_retain m f s st) as [[? ?] [|]] end;
      cbn iota beta; foreign_runs; ms_finish.
  Qed.
  Lemma heq_ok : forall s a b, src_eq F U s (hrep a) (hrep b) = Some (set_compare m s a b).
  Proof.
    intros s a b; unfold set_compare, hrep, src_eq, go; foreign_runs; ms_finish.
  Qed.
  Ltac says_it := intros ?; unfold asks; ask_foreign_step; unfold hint_of; cbn; eauto.
  Ltac goes I :=
    constructor;
    [ intros it _; (split; [says_it | exact Logic.I])
    | intros it _; says_it
    | first [discriminate | intros _ it _; (split; [exact Logic.I | says_it])]
    | let E := fresh "E" in case_back I E; cbn; [|reflexivity];
      split; [reflexivity|]; intros it _; (split; [says_it | exact Logic.I]) ].
  Lemma hiter_ok : forall l, hsame_step (NIter false l).
  Proof.
    intros l s st. cbn [src_sreq set_req].
    refine (iterate_ok F U (ss_Iter m) (is_some (it_back (ss_Iter m)))
       (fun i => VData "Copied" "" [("it", VForeign (YIter m i))])
       (fun _ => True) true _ (hrep st) (ss_iter m st) "iter" s _ Logic.I _ l).
    - foreign_begin.
    - goes (ss_Iter m).
  Qed.
  Lemma hinto_iter_ok : forall l, hsame_step (NIter true l).
  Proof.
    intros l s st. cbn [src_sreq set_req].
    refine (iterate_ok F U (ss_IntoIter m) (is_some (it_back (ss_IntoIter m)))
       (fun i => VForeign (YIntoIter m i))
       (fun _ => True) false _ (hrep st) (ss_into_iter m st) "into_iter" s _ Logic.I _ l).
    - foreign_begin.
    - goes (ss_IntoIter m).
  Qed.
  Lemma hstep_ok : forall q, hsame_step q.
  Proof.
    intros [| |k|k|k| | | |[|] l]; try (apply hplain_ok; exact Logic.I).
    - apply hretain_ok. - apply hinto_iter_ok. - apply hiter_ok.
  Qed.
  Lemma hnews : forall w s, exists t,
    invoke F U w (f_trait F) (f_storage F) "empty" [] [] s = (CVal (hrep (ss_empty m w)), t, s).
  Proof.
    intros w s. unfold hrep, invoke, go; repeat found; cbn iota; foreign_runs.
    match goal with |- exists t, (_, ?x, _) = _ => exists x; vm_compute; reflexivity end.
  Qed.
  Lemma hash_set_told : forall w l s,
    told_by F U (src_sreq F U) w l s = Some (fst (answers (set_req U m) l s (ss_empty m w))).
  Proof.
    apply (new_told_ok F U (src_sreq F U) (set_req U m) hrep (fun _ => True) (ss_empty m)); try exact hnews; auto.
    intros q s st _. split; [exact Logic.I | apply hstep_ok].
  Qed.
  Lemma hash_set_compared : forall w1 w2 l1 l2 s,
    compare_new F U (src_sreq F U) w1 w2 l1 l2 s =
    Some (compared (set_req U m) (set_compare m) (ss_empty m w1) (ss_empty m w2) l1 l2 s).
  Proof.
    apply (new_compare_ok F U (src_sreq F U) (set_req U m) hrep (fun _ => True) (ss_empty m)); try exact hnews; auto.
    - intros q s st _. split; [exact Logic.I | apply hstep_ok].
  Qed.
End HashSet.
