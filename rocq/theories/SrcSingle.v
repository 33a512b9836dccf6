(** Running src/map/storage/singleton.rs: it does what [single_map_storage] does. *)
Require Import List Arith NArith Bool String Lia.
Import ListNotations.
From Verif Require Import Std Traits MapStorages SrcText SrcStd SrcParse SrcRun SrcSpec SrcFiles SrcProofs.
Open Scope string_scope.

Definition single_map_ast : list item := Eval vm_compute in program single_map_text.
Lemma single_map_read : program single_map_text = single_map_ast.
Proof. vm_compute. reflexivity. Qed.

Section SingleMap.
  Context {V S : Type} (U : user_fns unit V S).
  Notation F := (single_map_file V S single_map_ast).
  Notation M := (single_map_storage V).
  Notation val := (val V Empty_set).

  Definition rep (st : single_map V) : val :=
    VData "SingletonMapStorage" "" [("inner", opt_rep user_rep (sm_inner st))].
  Definition same_step (q : req unit V) : Prop := forall s st,
    src_req F U q s (rep st) = let '(s1, st1, a) := map_req U M q s st in (s1, rep st1, a).

  Lemma len_ok : same_step MLen.
  Proof. intros s [[t|]]; plain. Qed.
  Lemma is_empty_ok : same_step MIsEmpty.
  Proof. intros s [[t|]]; plain. Qed.
  Lemma contains_ok : forall k, same_step (MContains k).
  Proof. intros [] s [[t|]]; plain. Qed.
  Lemma get_ok : forall k, same_step (MGet k).
  Proof. intros [] s [[t|]]; plain. Qed.
  Lemma insert_ok : forall k v, same_step (MInsert k v).
  Proof. intros [] v s [[t|]]; plain. Qed.
  Lemma set_ok : forall k v, same_step (MSet k v).
  Proof. intros [] v s [[t|]]; plain. Qed.
  Lemma remove_ok : forall k, same_step (MRemove k).
  Proof. intros [] s [[t|]]; plain. Qed.
  Lemma retain_ok : same_step MRetain.
  Proof. intros s [[t|]]; plain. Qed.
  Lemma clear_ok : same_step MClear.
  Proof. intros s [[t|]]; plain. Qed.
  Lemma clone_ok : same_step MClone.
  Proof. intros s [[t|]]; plain. Qed.
  Lemma entry_ok : forall k a, same_step (MEntry k a).
  Proof. intros [] [| |v|v|v|] s [[t|]]; entry. Qed.

  Definition here : list step := [Fld "inner"; Fld "0"].
  Definition ref_rep {A} (_ : A) : val := VRef (At 0 here).
  Definition keyed_rep {A} (f : A -> val) (e : unit * A) : val := tup_rep unit_ (f (snd e)).
  Definition of_st (st : single_map V) (it : option V) : Prop :=
    match it with Some v => sm_inner st = Some v | _ => True end.
  Definition of_st2 (st : single_map V) (it : option (unit * V)) : Prop :=
    match it with Some (_, v) => sm_inner st = Some v | _ => True end.

  Ltac begin_all st := destruct st as [[t|]]; begin.
  Ltac step st it rest :=
    destruct st as [t], it as [a|]; repeat match goal with p : (unit * _)%type |- _ => destruct p as [[] ?] end;
    intros Ha; simpl in Ha; subst; rest.
  Ltac goes st :=
    constructor;
    [ intros it; step st it ltac:(split; [intros ?; ask_step; vm_compute; auto 6 | vm_compute; auto])
    | intros it; step st it ltac:(intros ?; ask_step; vm_compute; auto)
    | first [discriminate | intros _ it; step st it ltac:(split; [vm_compute; auto | intros ?; ask_step])]
    | split; [reflexivity|];
      intros it; step st it ltac:(split; [intros ?; ask_step; vm_compute; auto 6 | vm_compute; auto]) ].

  Lemma iter_ok : forall l, same_step (MIter ByIter l).
  Proof.
    intros l s st. cbn [src_req map_req].
    refine (iterate_ok F U (opt_it (unit * V)) true (item_rep (keyed_rep ref_rep)) (of_st2 st) true _ (rep st)
              (ms_iter M st) "iter" s _ _ _ l).
    - begin_all st.
    - destruct st as [[t|]]; simpl; auto.
    - goes st.
  Qed.
  Lemma keys_ok : forall l, same_step (MIter ByKeys l).
  Proof.
    intros l s st. cbn [src_req map_req].
    refine (iterate_ok F U (opt_it unit) true (item_rep (fun _ => unit_)) (fun _ => True) true _ (rep st)
              (ms_keys M st) "keys" s _ _ _ l).
    - begin_all st.
    - auto.
    - constructor; [intros [[]|] _|intros [[]|] _|intros _ [[]|] _|split; [reflexivity|]; intros [[]|] _];
        try split; try (intros ?; ask_step; vm_compute; auto); auto.
  Qed.
  Lemma values_ok : forall l, same_step (MIter ByValues l).
  Proof.
    intros l s st. cbn [src_req map_req].
    refine (iterate_ok F U (opt_it V) true (item_rep ref_rep) (of_st st)
              true _ (rep st) (ms_values M st) "values" s _ _ _ l).
    - begin_all st.
    - destruct st as [[t|]]; simpl; auto.
    - goes st.
  Qed.
  Lemma into_iter_ok : forall l, same_step (MIter ByIntoIter l).
  Proof.
    intros l s st. cbn [src_req map_req].
    refine (iterate_ok F U (opt_it (unit * V)) true (item_rep (keyed_rep user_rep)) (fun _ => True)
              false _ (rep st) (ms_into_iter M st) "into_iter" s _ _ _ l).
    - begin_all st.
    - auto.
    - goes st.
  Qed.

  Definition no_ref (r : ref) : Prop := r = [].
  Definition to_step (r : ref) : list step := here.
  Lemma reads : forall st r, no_ref r ->
    seen_at F (rep st) (to_step r) = option_map (fun v => VUser v) (ms_load M st r).
  Proof. intros [[t|]] r ->; reflexivity. Qed.
  Lemma writes : forall st r v, no_ref r -> ms_load M st r <> None ->
    changed_at F (rep st) (to_step r) v = option_map rep (ms_store M st r v).
  Proof. intros [[t|]] r v -> H; try reflexivity; exfalso; apply H; reflexivity. Qed.
  Definition mut_ref (it : option ref) : Prop := match it with Some r => r = [] | None => True end.
  Definition mut_ref2 (it : option (unit * ref)) : Prop := match it with Some (_, r) => r = [] | None => True end.

  Lemma iter_mut_ok : forall g l, same_step (MIterMut g l).
  Proof.
    intros g l s st. cbn [src_req map_req].
    refine (iterate_mut_ok F U (opt_it (unit * ref)) true (item_rep (keyed_rep ref_rep)) mut_ref2 M _ rep
              no_ref to_step st (ms_iter_mut M st) "iter_mut" s _ _ _ reads writes _ l).
    - begin_all st.
    - destruct st as [[t|]]; simpl; auto.
    - goes st.
  Qed.
  Lemma values_mut_ok : forall g l, same_step (MValuesMut g l).
  Proof.
    intros g l s st. cbn [src_req map_req].
    refine (iterate_mut_ok F U (opt_it ref) true (item_rep ref_rep)
              mut_ref M _ rep no_ref to_step st (ms_values_mut M st) "values_mut" s _ _ _ reads writes _ l).
    - begin_all st.
    - destruct st as [[t|]]; simpl; auto.
    - goes st.
  Qed.

  Lemma step_ok : forall q, same_step q.
  Proof.
    intros [| |k|k|k v|k v|k| | | |[| | |] l|g l|g l|k a].
    - exact len_ok. - exact is_empty_ok. - apply contains_ok. - apply get_ok. - apply insert_ok. - apply set_ok.
    - apply remove_ok. - exact retain_ok. - exact clear_ok. - exact clone_ok. - apply iter_ok. - apply keys_ok.
    - apply values_ok. - apply into_iter_ok. - apply iter_mut_ok. - apply values_mut_ok. - apply entry_ok.
  Qed.
  Lemma eq_ok : forall s a b, src_eq F U s (rep a) (rep b) = Some (map_compare U M s a b).
  Proof. intros s [[t1|]] [[t2|]]; right_side; unfold src_eq, go; runs; finish. Qed.
  Lemma news : forall w s, exists t,
    invoke F U w (f_trait F) (f_storage F) "empty" [] [] s = (CVal (rep (ms_empty M w)), t, s).
  Proof. intros. new_step. Qed.
  Lemma single_map_told : forall w l s,
    told_by F U (src_req F U) w l s = Some (fst (answers (map_req U M) l s (ms_empty M w))).
  Proof.
    apply (new_told_ok F U (src_req F U) (map_req U M) rep (fun _ => True) (ms_empty M)); try exact news; auto.
    intros q s st _. split; [exact Logic.I | apply step_ok].
  Qed.
  Lemma single_map_compared : forall w1 w2 l1 l2 s,
    compare_new F U (src_req F U) w1 w2 l1 l2 s =
    Some (compared (map_req U M) (map_compare U M) (ms_empty M w1) (ms_empty M w2) l1 l2 s).
  Proof.
    apply (new_compare_ok F U (src_req F U) (map_req U M) rep (fun _ => True) (ms_empty M)); try exact news; auto.
    - intros q s st _. split; [exact Logic.I | apply step_ok].
    - intros. apply eq_ok.
  Qed.
End SingleMap.
