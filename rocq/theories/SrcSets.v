(** Running src/set/storage/boolean.rs and src/set/storage/singleton.rs: they do what
    [bool_set_storage] and [single_set_storage] do. *)
Require Import List Arith NArith Bool String Lia.
Import ListNotations.
From Verif Require Import Std Traits MapStorages SetStorages SrcText SrcStd SrcParse SrcRun SrcSpec SrcFiles SrcProofs.
Open Scope string_scope.

Definition bool_set_ast : list item := Eval vm_compute in program bool_set_text.
Lemma bool_set_read : program bool_set_text = bool_set_ast.
Proof. vm_compute. reflexivity. Qed.
Definition single_set_ast : list item := Eval vm_compute in program single_set_text.
Lemma single_set_read : program single_set_text = single_set_ast.
Proof. vm_compute. reflexivity. Qed.

Section BoolSet.
  Context {V S : Type} (U : user_fns bool V S).
  Notation F := (bool_set_file V S bool_set_ast).
  Notation M := bool_set_storage.
  Notation val := (val V Empty_set).

  Definition rep (st : bool_set) : val := VData "BooleanSetStorage" "" [("bits", VNum (N.to_nat (bs_bits st)))].
  Definition two_bits (st : bool_set) : Prop := (bs_bits st < 4)%N.
  Lemma bits_cases : forall n, (n < 4)%N -> n = 0%N \/ n = 1%N \/ n = 2%N \/ n = 3%N.
  Proof. intros. lia. Qed.
  Ltac by_bits st :=
    let n := fresh "n" in let H := fresh "H" in
    destruct st as [n]; intro H; destruct (bits_cases n H) as [-> | [-> | [-> | ->]]]; clear H.
  Definition same_step (q : sreq bool) : Prop := forall s st, two_bits st ->
    two_bits (snd (fst (set_req U M q s st))) /\
    src_sreq F U q s (rep st) = let '(s1, st1, a) := set_req U M q s st in (s1, rep st1, a).

  Ltac two st :=
    by_bits st; (split; [cbv -[u_keep1]; repeat (user_call; cbv -[u_keep1]); auto | plain]).
  Lemma len_ok : same_step NLen.
  Proof. intros s st. two st. Qed.
  Lemma is_empty_ok : same_step NIsEmpty.
  Proof. intros s st. two st. Qed.
  Lemma contains_ok : forall k, same_step (NContains k).
  Proof. intros [|] s st; two st. Qed.
  Lemma insert_ok : forall k, same_step (NInsert k).
  Proof. intros [|] s st; two st. Qed.
  Lemma remove_ok : forall k, same_step (NRemove k).
  Proof. intros [|] s st; two st. Qed.
  Lemma retain_ok : same_step NRetain.
  Proof. intros s st. two st. Qed.
  Lemma clear_ok : same_step NClear.
  Proof. intros s st. two st. Qed.
  Lemma clone_ok : same_step NClone.
  Proof. intros s st. two st. Qed.

  Definition bits_rep (n : N) : val := VData "Iter" "" [("bits", VNum (N.to_nat n))].
  Ltac bits :=
    let it := fresh "it" in let H := fresh "H" in intros it H; destruct (bits_cases it H) as [-> | [-> | [-> | ->]]].
  Ltac goes :=
    constructor;
    [ bits; (split; [intros ?; ask_step; vm_compute; auto | vm_compute; auto])
    | bits; intros ?; ask_step; vm_compute; auto
    | first [discriminate | intros _; bits; (split; [vm_compute; auto | intros ?; ask_step])]
    | split; [reflexivity|];
      bits; (split; [intros ?; ask_step; vm_compute; auto | vm_compute; auto]) ].
  Lemma iter_ok : forall into l, same_step (NIter into l).
  Proof.
    intros [|] l s st Hst; (split; [exact Hst|]); cbn [src_sreq set_req].
    - refine (iterate_ok F U bits_it true bits_rep (fun n => (n < 4)%N)
              false _ (rep st) (ss_into_iter M st) "into_iter" s _ _ _ l).
      + revert Hst. by_bits st; begin.
      + exact Hst.
      + goes.
    - refine (iterate_ok F U bits_it true bits_rep (fun n => (n < 4)%N)
              true _ (rep st) (ss_iter M st) "iter" s _ _ _ l).
      + revert Hst. by_bits st; begin.
      + exact Hst.
      + goes.
  Qed.
  Lemma step_ok : forall q, same_step q.
  Proof.
    intros [| |k|k|k| | | |into l].
    - exact len_ok. - exact is_empty_ok. - apply contains_ok. - apply insert_ok. - apply remove_ok.
    - exact retain_ok. - exact clear_ok. - exact clone_ok. - apply iter_ok.
  Qed.
  Lemma eq_ok : forall s a b, two_bits a -> two_bits b ->
    src_eq F U s (rep a) (rep b) = Some (set_compare M s a b).
  Proof.
    intros s [a] [b] Ha Hb.
    destruct (bits_cases a Ha) as [-> | [-> | [-> | ->]]], (bits_cases b Hb) as [-> | [-> | [-> | ->]]];
      right_side; unfold src_eq, go; runs; finish.
  Qed.
  Lemma news : forall w s, exists t,
    invoke F U w (f_trait F) (f_storage F) "empty" [] [] s = (CVal (rep (ss_empty M w)), t, s).
  Proof. intros. new_step. Qed.
  Lemma bool_set_told : forall w l s,
    told_by F U (src_sreq F U) w l s = Some (fst (answers (set_req U M) l s (ss_empty M w))).
  Proof.
    apply (new_told_ok F U (src_sreq F U) (set_req U M) rep two_bits (ss_empty M));
      [exact news | intros; reflexivity | intros q s st; apply step_ok].
  Qed.
  Lemma bool_set_compared : forall w1 w2 l1 l2 s,
    compare_new F U (src_sreq F U) w1 w2 l1 l2 s =
    Some (compared (set_req U M) (set_compare M) (ss_empty M w1) (ss_empty M w2) l1 l2 s).
  Proof.
    apply (new_compare_ok F U (src_sreq F U) (set_req U M) rep two_bits (ss_empty M));
      [exact news | intros; reflexivity | intros q s st; apply step_ok | exact eq_ok].
  Qed.
End BoolSet.

Section SingleSet.
  Context {V S : Type} (U : user_fns unit V S).
  Notation F := (single_set_file V S single_set_ast).
  Notation M := single_set_storage.
  Notation val := (val V Empty_set).

  Definition srep (st : single_set) : val := VData "SingletonSetStorage" "" [("is_set", VBool (st_is_set st))].
  Definition same_step1 (q : sreq unit) : Prop := forall s st,
    src_sreq F U q s (srep st) = let '(s1, st1, a) := set_req U M q s st in (s1, srep st1, a).
  Lemma plain1_ok : forall q, match q with NIter _ _ => False | _ => True end -> same_step1 q.
  Proof. intros [| |[]|[]|[]| | | |] H s [[|]]; try contradiction; plain. Qed.
  Definition unit_rep (_ : unit) : val := unit_.
  Lemma iter1_ok : forall into l, same_step1 (NIter into l).
  Proof.
    intros [|] l s st; cbn [src_sreq set_req].
    - refine (iterate_ok F U (opt_it unit) true (item_rep unit_rep) (fun _ => True)
              false _ (srep st) (ss_into_iter M st) "into_iter" s _ _ _ l); [destruct st as [[|]]; begin | auto |].
      constructor; [intros [[]|] _|intros [[]|] _|discriminate|split; [reflexivity|]; intros [[]|] _];
        try split; try (intros ?; ask_step; vm_compute; auto); auto.
    - refine (iterate_ok F U (opt_it unit) true (item_rep unit_rep) (fun _ => True)
              true _ (srep st) (ss_iter M st) "iter" s _ _ _ l); [destruct st as [[|]]; begin | auto |].
      constructor; [intros [[]|] _|intros [[]|] _|intros _ [[]|] _|split; [reflexivity|]; intros [[]|] _];
        try split; try (intros ?; ask_step; vm_compute; auto); auto.
  Qed.
  Lemma step1_ok : forall q, same_step1 q.
  Proof.
    intros q. destruct q as [| |k|k|k| | | |into l]; try (apply plain1_ok; exact Logic.I). apply iter1_ok.
  Qed.
  Lemma eq1_ok : forall s a b, src_eq F U s (srep a) (srep b) = Some (set_compare M s a b).
  Proof. intros s [[|]] [[|]]; right_side; unfold src_eq, go; runs; finish. Qed.
  Lemma news1 : forall w s, exists t,
    invoke F U w (f_trait F) (f_storage F) "empty" [] [] s = (CVal (srep (ss_empty M w)), t, s).
  Proof. intros. new_step. Qed.
  Lemma single_set_told : forall w l s,
    told_by F U (src_sreq F U) w l s = Some (fst (answers (set_req U M) l s (ss_empty M w))).
  Proof.
    apply (new_told_ok F U (src_sreq F U) (set_req U M) srep (fun _ => True) (ss_empty M)); try exact news1; auto.
    intros q s st _. split; [exact Logic.I | apply step1_ok].
  Qed.
  Lemma single_set_compared : forall w1 w2 l1 l2 s,
    compare_new F U (src_sreq F U) w1 w2 l1 l2 s =
    Some (compared (set_req U M) (set_compare M) (ss_empty M w1) (ss_empty M w2) l1 l2 s).
  Proof.
    apply (new_compare_ok F U (src_sreq F U) (set_req U M) srep (fun _ => True) (ss_empty M)); try exact news1; auto.
    - intros q s st _. split; [exact Logic.I | apply step1_ok].
    - intros. apply eq1_ok.
  Qed.
End SingleSet.
