(** Running src/map/storage/hashbrown.rs: it does what the table does that it wraps. *)
Require Import List Arith NArith Bool String Lia.
Import ListNotations.
From Verif Require Import Std Traits MapStorages SrcText SrcStd SrcParse SrcRun SrcSpec SrcFiles SrcProofs SrcForeign.
Open Scope string_scope.

Definition hash_map_ast : list item := Eval vm_compute in program hash_map_text.
Lemma hash_map_read : program hash_map_text = hash_map_ast.
Proof. vm_compute. reflexivity. Qed.

Section HashMap.
  Context {K V S : Type} (m : MapStorage K V) (U : user_fns K V S).
  Hypothesis ext : forall (f g : retain_fn S K V) s st,
    (forall s k v, f s k v = g s k v) -> ms_retain m f s st = ms_retain m g s st.
  Notation F := (hash_map_file m S hash_map_ast).
  Notation val := (val V (foreign_map m)).

  Definition rep (st : ms_St m) : val := VData "HashbrownMapStorage" "" [("inner", VForeign (XMap m st))].
  Definition same_step (q : req K V) : Prop := forall s st,
    src_req F U q s (rep st) = let '(s1, st1, a) := map_req U m q s st in (s1, rep st1, a).

  Ltac model := lazy beta iota zeta delta [map_req use_entry if_ok put end_of map_compare].
  Ltac simple :=
    model; unfold rep; cbn [src_req];
    unfold call_on, invoke, self_arg, reclone, go; repeat found; cbn iota; foreign_runs.
  Lemma len_ok : same_step MLen.
  Proof. intros s st; simple; ms_finish. Qed.
  Lemma is_empty_ok : same_step MIsEmpty.
  Proof. intros s st; simple; ms_finish. Qed.
  Lemma contains_ok : forall k, same_step (MContains k).
  Proof. intros k s st; simple; ms_finish. Qed.
  Lemma get_ok : forall k, same_step (MGet k).
  Proof. intros k s st; simple; ms_finish. Qed.
  Lemma insert_ok : forall k v, same_step (MInsert k v).
  Proof. intros k v s st; simple; ms_finish. Qed.
  Lemma remove_ok : forall k, same_step (MRemove k).
  Proof. intros k s st; simple; ms_finish. Qed.
  Lemma clear_ok : same_step MClear.
  Proof. intros s st; simple; ms_finish. Qed.
  Lemma clone_ok : same_step MClone.
  Proof. intros s st; simple; ms_finish. Qed.
  Lemma set_ok : forall k v, same_step (MSet k v).
  Proof. intros k v s st; simple; ms_finish. Qed.
  Lemma entry_ok : forall k a, same_step (MEntry k a).
  Proof.
    intros k [| |v|v|v|] s st.
    all: model; unfold rep; cbn [src_req];
      unfold do_entry, invoke, go; repeat found; lazy beta iota zeta; foreign_runs; lazy beta iota zeta;
      repeat match goal with |- context [at_self ?F ?e] => ev (at_self F e) end;
      unfold on_entry, self_arg, invoke, go; repeat found; lazy beta iota zeta; foreign_runs.
    all: ms_finish.
  Qed.
  Lemma eq_ok : forall s a b, src_eq F U s (rep a) (rep b) = Some (map_compare U m s a b).
  Proof. intros s a b; model; unfold rep, src_eq, go; foreign_runs; ms_finish. Qed.
  Lemma retain_ok : same_step MRetain.
  Proof.
    intros s st; simple.
    match goal with
    | |- context [ms_retain m (keep_by m true (callback F U) ?g) _ _] =>
        rewrite (ext (keep_by m true (callback F U) g) (keep_fn U))
    end.
    2: closure.
    match goal with |- context [ms_retain m ?f ?s ?st] => destruct (ms_retain m f s st) as [[? ?] [|]] end;
      cbn iota beta; foreign_runs; ms_finish.
  Qed.

  (** ** Iterators *)
  Definition copy_clos (t : list pat) : val :=
    VClos t (ETup [EUnary "*" (EPath ["k"]); EPath ["v"]]) [] "HashbrownMapStorage".

  Ltac says_it := intros ?; unfold asks; ask_foreign_step; unfold hint_of; cbn; eauto 8.
  Ltac goes I :=
    constructor;
    [ intros it _; (split; [says_it | exact Logic.I])
    | intros it _; says_it
    | first [discriminate | intros _ it _; (split; [exact Logic.I | says_it])]
    | let E := fresh "E" in case_back I E; cbn; [|reflexivity];
      split; [reflexivity|]; intros it _; (split; [says_it | exact Logic.I]) ].

  Lemma iter_ok : forall l, same_step (MIter ByIter l).
  Proof.
    intros l s st. cbn [src_req map_req].
    refine (iterate_ok F U (ms_Iter m) (is_some (it_back (ms_Iter m)))
       (map_rep (copy_clos [PTup [PName "k"; PName "v"]]) (fun i => VForeign (XIter m i)))
       (fun _ => True) true _ (rep st) (ms_iter m st) "iter" s _ Logic.I _ l).
    - foreign_begin.
    - goes (ms_Iter m).
  Qed.
  Lemma into_iter_ok : forall l, same_step (MIter ByIntoIter l).
  Proof.
    intros l s st. cbn [src_req map_req].
    refine (iterate_ok F U (ms_IntoIter m) (is_some (it_back (ms_IntoIter m)))
       (fun i => VForeign (XIntoIter m i))
       (fun _ => True) false _ (rep st) (ms_into_iter m st) "into_iter" s _ Logic.I _ l).
    - foreign_begin.
    - goes (ms_IntoIter m).
  Qed.
  Lemma keys_ok : forall l, same_step (MIter ByKeys l).
  Proof.
    intros l s st. cbn [src_req map_req].
    refine (iterate_ok F U (ms_Keys m) (is_some (it_back (ms_Keys m)))
       (fun i => VData "Copied" "" [("it", VForeign (XKeys m i))])
       (fun _ => True) true _ (rep st) (ms_keys m st) "keys" s _ Logic.I _ l).
    - foreign_begin.
    - goes (ms_Keys m).
  Qed.
  Lemma values_ok : forall l, same_step (MIter ByValues l).
  Proof.
    intros l s st. cbn [src_req map_req].
    refine (iterate_ok F U (ms_Values m) (is_some (it_back (ms_Values m)))
       (fun i => VForeign (XValues m i))
       (fun _ => True) true _ (rep st) (ms_values m st) "values" s _ Logic.I _ l).
    - foreign_begin.
    - goes (ms_Values m).
  Qed.

  Definition to_step (r : ref) : list step := [Fld "inner"; Into r].
  Lemma reads : forall st r, True ->
    seen_at F (rep st) (to_step r) = option_map (fun v => VUser v) (ms_load m st r).
  Proof. intros st r _; reflexivity. Qed.
  Lemma writes : forall st r v, True -> ms_load m st r <> None ->
    changed_at F (rep st) (to_step r) v = option_map rep (ms_store m st r v).
  Proof. intros st r v _ _; cbv -[ms_load ms_store]; destruct (ms_store m st r v); reflexivity. Qed.
  Definition here : place := At 0 [Fld "inner"].
  Lemma iter_mut_ok : forall g l, same_step (MIterMut g l).
  Proof.
    intros g l s st. cbn [src_req map_req].
    refine (iterate_mut_ok F U (ms_IterMut m) (is_some (it_back (ms_IterMut m)))
       (map_rep (copy_clos [PTup [PName "k"; PName "v"]]) (fun i => VForeign (XIterMut m i here)))
       (fun _ => True) m _ rep (fun _ => True) to_step st (ms_iter_mut m st) "iter_mut" s _ Logic.I _ reads writes _ l).
    - foreign_begin.
    - goes (ms_IterMut m).
  Qed.
  Lemma values_mut_ok : forall g l, same_step (MValuesMut g l).
  Proof.
    intros g l s st. cbn [src_req map_req].
    refine (iterate_mut_ok F U (ms_ValuesMut m) (is_some (it_back (ms_ValuesMut m)))
       (fun i => VForeign (XValuesMut m i here))
       (fun _ => True) m _ rep (fun _ => True) to_step st (ms_values_mut m st) "values_mut" s _ Logic.I _ reads writes
       _ l).
    - foreign_begin.
    - goes (ms_ValuesMut m).
  Qed.

  Lemma step_ok : forall q, same_step q.
  Proof.
    intros [| |k|k|k v|k v|k| | | |[| | |] l|g l|g l|k a].
    - apply len_ok. - apply is_empty_ok. - apply contains_ok. - apply get_ok. - apply insert_ok. - apply set_ok.
    - apply remove_ok. - exact retain_ok. - apply clear_ok. - apply clone_ok. - apply iter_ok. - apply keys_ok.
    - apply values_ok. - apply into_iter_ok. - apply iter_mut_ok. - apply values_mut_ok. - apply entry_ok.
  Qed.
  Lemma news : forall w s, exists t,
    invoke F U w (f_trait F) (f_storage F) "empty" [] [] s = (CVal (rep (ms_empty m w)), t, s).
  Proof.
    intros w s. unfold rep, invoke, go; repeat found; cbn iota; foreign_runs.
    match goal with |- exists t, (_, ?x, _) = _ => exists x; vm_compute; reflexivity end.
  Qed.
  Lemma hash_map_told : forall w l s,
    told_by F U (src_req F U) w l s = Some (fst (answers (map_req U m) l s (ms_empty m w))).
  Proof.
    apply (new_told_ok F U (src_req F U) (map_req U m) rep (fun _ => True) (ms_empty m)); try exact news; auto.
    intros q s st _. split; [exact Logic.I | apply step_ok].
  Qed.
  Lemma hash_map_compared : forall w1 w2 l1 l2 s,
    compare_new F U (src_req F U) w1 w2 l1 l2 s =
    Some (compared (map_req U m) (map_compare U m) (ms_empty m w1) (ms_empty m w2) l1 l2 s).
  Proof.
    apply (new_compare_ok F U (src_req F U) (map_req U m) rep (fun _ => True) (ms_empty m)); try exact news; auto.
    - intros q s st _. split; [exact Logic.I | apply step_ok].
    - intros. apply eq_ok.
  Qed.
End HashMap.
