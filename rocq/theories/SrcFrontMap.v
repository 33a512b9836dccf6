(** Running src/map.rs: a [Map] does what its storage does. *)
Require Import List Arith NArith Bool String Lia.
Import ListNotations.
From Verif Require Import Std Traits Api MapStorages SrcText SrcStd SrcParse SrcRun SrcSpec SrcFiles SrcFront
  SrcProofs SrcForeign.
Open Scope string_scope.

(** What is asked of the user or of the storage. *)
Ltac front_step :=
  match goal with
  | |- context [answer ?F ?U ?w ?q ?s] =>
      let a1 := eval cbv beta delta [answer] in (answer F U w q s) in
      let a2 := eval pattern (callback F U) in a1 in
      lazymatch a2 with
      | ?f ?c =>
      let r := eval lazy beta iota zeta delta
        [user_answer call_keep f_as_key f_foreign f_load f_store
         map_file ref_file front_foreign ask_order
         foreign_answer ask_map ask_foreign ask_occ ask_vac says wrong says_new key_in key_out key_val pair_val
         new_ref part map_load map_store as_opt_key_val as_key_val option_of
         fst snd option_map result_val ends entry_type opt_val some_ none_ bounds_val]
        in f in
      let r' := eval cbv beta in (r c) in
      change (answer F U w q s) with r'
      end
  end;
  repeat match goal with
  | |- context [list_eq_dec string_dec ?a ?b] => ev (list_eq_dec string_dec a b)
  | |- context [map_at ?m ?a ?b] => ev (map_at m a b)
  end;
  cbn [app fst snd].
Ltac front_runs := repeat first [ms_call | back_call | drive1; repeat front_step; cbn iota beta | user_call; cbn iota beta].
Ltac front_user_step :=
  match goal with
  | |- context [user_answer ?F ?U ?o ?q ?s] =>
      let r := eval lazy beta iota zeta delta
        [user_answer call_keep f_as_key map_file as_key_val key_val option_of option_map] in (user_answer F U o q s) in
      change (user_answer F U o q s) with r
  end; cbn [app]; cbn iota beta.
Ltac front_closure :=
  intros; unfold keep_by, callback, keep_fn; cbn [f_prog];
  repeat first [drive1; try front_user_step; cbn [cells]; cbn iota beta | user_call; cbn iota beta]; reflexivity.
Ltac front_ask :=
  it_side; unfold ask_it, go; front_runs; cbn [fst snd];
  match goal with
  | |- exists a, ?x = _ /\ _ =>
      let y := eval vm_compute in x in
      lazymatch y with Some (?a, _, _, _) => exists a; split; [vm_compute; reflexivity | ] end
  | |- exists it0, ?x = _ =>
      let y := eval vm_compute in x in
      lazymatch y with Some (_, _, ?i, _) => exists i; vm_compute; reflexivity end
  end.
Ltac front_begin :=
  match goal with
  | |- begins ?F ?U ?m ?arg ?self ?it =>
      let it' := eval cbn in it in let self' := eval cbn in self in
      change (begins F U m arg self' it')
  end;
  intro; unfold invoke, self_arg, go; repeat found; lazy beta iota zeta; front_runs;
  match goal with |- exists t, (_, ?x, _) = _ /\ _ => exists x; split; [|split]; vm_compute; reflexivity end.

Lemma all_asked {K V X S C} (F : file K V X S) (U : user_fns K V S) (I : iterator C) both
  (rep : it_st I -> val V X) (inv : it_st I -> Prop) (clones : bool) (f : C -> option K * option V) self it s :
  goes_on F U I eq both clones (item_of F) bounds_of (fun o => Item (option_map f o)) hint_of rep inv self ->
  inv it -> forall l, asking_all F U both clones (item_of F) bounds_of l self (rep it) s =
    Some (say I clones (fun o => Item (option_map f o)) hint_of l it, s).
Proof.
  intros Hg Hi l.
  destruct (asking_ok F U I eq both clones _ _ _ _ rep inv self Hg l it s Hi) as (x & E' & HF).
  rewrite E', (Forall2_eq _ _ _ HF). reflexivity.
Qed.

Definition map_ast : list item := Eval vm_compute in program map_text.
Lemma map_read : program map_text = map_ast.
Proof. vm_compute. reflexivity. Qed.

Section FrontMap.
  Context {K V S : Type} (m : MapStorage K V) (U : user_fns K V S) (E : entry_fns K V S).
  Hypothesis ext : forall (f g : retain_fn S K V) s st,
    (forall s k v, f s k v = g s k v) -> ms_retain m f s st = ms_retain m g s st.
  Notation F := (map_file (S := S) m None map_ast).
  Notation val := (val V (foreign_map m)).
  Notation rep := (map_val m).
  Definition same_step (q : freq K V) : Prop := forall s st,
    front_req m map_ast U E q s (rep st) = let '(s1, st1, a) := fmap_req m U E q s st in (s1, rep st1, a).

  Ltac model := lazy beta iota zeta delta [fmap_req map_req use_entry if_ok put end_of map_compare].
  Ltac simple :=
    model; unfold map_val; cbn [front_req src_req];
    unfold call_on, invoke, self_arg, reclone, go; repeat found; cbn iota; front_runs.
  Lemma len_ok : same_step (FPlain MLen).
  Proof. intros s st; simple; ms_finish. Qed.
  Lemma is_empty_ok : same_step (FPlain MIsEmpty).
  Proof. intros s st; simple; ms_finish. Qed.
  Lemma contains_ok : forall k, same_step (FPlain (MContains k)).
  Proof. intros k s st; simple; ms_finish. Qed.
  Lemma get_ok : forall k, same_step (FPlain (MGet k)).
  Proof. intros k s st; simple; ms_finish. Qed.
  Lemma insert_ok : forall k v, same_step (FPlain (MInsert k v)).
  Proof. intros k v s st; simple; ms_finish. Qed.
  Lemma remove_ok : forall k, same_step (FPlain (MRemove k)).
  Proof. intros k s st; simple; ms_finish. Qed.
  Lemma clear_ok : same_step (FPlain MClear).
  Proof. intros s st; simple; ms_finish. Qed.
  Lemma clone_ok : same_step (FPlain MClone).
  Proof. intros s st; simple; ms_finish. Qed.
  Lemma set_ok : forall k v, same_step (FPlain (MSet k v)).
  Proof. intros k v s st; simple; ms_finish. Qed.
  Lemma eq_ok : forall s a b, src_eq F U s (rep a) (rep b) = Some (map_compare U m s a b).
  Proof. intros s a b; model; unfold map_val, src_eq, go; front_runs; ms_finish. Qed.
  Lemma retain_ok : same_step (FPlain MRetain).
  Proof.
    intros s st; simple.
    match goal with
    | |- context [ms_retain m (keep_by m false (callback F U) ?g) _ _] =>
        rewrite (ext (keep_by m false (callback F U) g) (keep_fn U))
    end.
    2: front_closure.
    match goal with |- context [ms_retain m ?f ?s ?st] => destruct (ms_retain m f s st) as [[? ?] [|]] end;
      cbn iota beta; front_runs; ms_finish.
  Qed.

  (** ** Iterators *)
  Ltac says_it := intros ?; unfold asks; front_ask; unfold hint_of; cbn; eauto 8.
  Ltac goes I :=
    constructor;
    [ intros it _; (split; [says_it | exact Logic.I])
    | intros it _; says_it
    | first [discriminate | intros _ it _; (split; [exact Logic.I | says_it])]
    | let E := fresh "E" in case_back I E; cbn; [|reflexivity];
      split; [reflexivity|]; intros it _; (split; [says_it | exact Logic.I]) ].

  Lemma iter_ok : forall l, same_step (FPlain (MIter ByIter l)).
  Proof.
    intros l s st. cbn [front_req fmap_req src_req map_req].
    refine (iterate_ok F U (ms_Iter m) (is_some (it_back (ms_Iter m)))
       (fun i => VForeign (XIter m i))
       (fun _ => True) true _ (rep st) (ms_iter m st) "iter" s _ Logic.I _ l).
    - front_begin.
    - goes (ms_Iter m).
  Qed.
  Lemma into_iter_ok : forall l, same_step (FPlain (MIter ByIntoIter l)).
  Proof.
    intros l s st. cbn [front_req fmap_req src_req map_req].
    refine (iterate_ok F U (ms_IntoIter m) (is_some (it_back (ms_IntoIter m)))
       (fun i => VForeign (XIntoIter m i))
       (fun _ => True) false _ (rep st) (ms_into_iter m st) "into_iter" s _ Logic.I _ l).
    - front_begin.
    - goes (ms_IntoIter m).
  Qed.
  Lemma keys_ok : forall l, same_step (FPlain (MIter ByKeys l)).
  Proof.
    intros l s st. cbn [front_req fmap_req src_req map_req].
    refine (iterate_ok F U (ms_Keys m) (is_some (it_back (ms_Keys m)))
       (fun i => VForeign (XKeys m i))
       (fun _ => True) true _ (rep st) (ms_keys m st) "keys" s _ Logic.I _ l).
    - front_begin.
    - goes (ms_Keys m).
  Qed.
  Lemma values_ok : forall l, same_step (FPlain (MIter ByValues l)).
  Proof.
    intros l s st. cbn [front_req fmap_req src_req map_req].
    refine (iterate_ok F U (ms_Values m) (is_some (it_back (ms_Values m)))
       (fun i => VForeign (XValues m i))
       (fun _ => True) true _ (rep st) (ms_values m st) "values" s _ Logic.I _ l).
    - front_begin.
    - goes (ms_Values m).
  Qed.
  Lemma ref_iter_ok : forall l, same_step (FRefIter l).
  Proof.
    intros l s st. cbn [front_req fmap_req].
    assert (B : exists t,
      invoke F U old "IntoIterator" "&Map" "into_iter" [VRef (At 0 [])] [rep st] s =
        (CVal (VForeign (XIter m (ms_iter m st))), t, s) /\ self_in t = rep st).
    { unfold map_val, invoke, go; repeat found; lazy beta iota zeta; front_runs.
      match goal with |- exists t, (_, ?x, _) = _ /\ _ => exists x; split; vm_compute; reflexivity end. }
    destruct B as (t & B & Ht). rewrite B, Ht.
    match goal with |- context [at_self F ?x] => change (at_self F x) with true end. cbn iota.
    enough (A : asking_all F U (both_ends m "iter") true (item_of F) bounds_of l (rep st)
                  (VForeign (XIter m (ms_iter m st))) s =
                Some (say (ms_Iter m) true (fun o => Item (option_map (fun e => (Some (fst e), Some (snd e))) o))
                        hint_of l (ms_iter m st), s)) by (rewrite A; reflexivity).
    clear t B Ht.
    refine (all_asked F U (ms_Iter m) (is_some (it_back (ms_Iter m))) (fun i => VForeign (XIter m i))
      (fun _ => True) true _ (rep st) (ms_iter m st) s _ Logic.I l).
    goes (ms_Iter m).
  Qed.

  Definition to_step (r : ref) : list step := [Fld "storage"; Into r].
  Lemma reads : forall st r, True ->
    seen_at F (rep st) (to_step r) = option_map (fun v => VUser v) (ms_load m st r).
  Proof. intros st r _; reflexivity. Qed.
  Lemma writes : forall st r v, True -> ms_load m st r <> None ->
    changed_at F (rep st) (to_step r) v = option_map rep (ms_store m st r v).
  Proof. intros st r v _ _; cbv -[ms_load ms_store]; destruct (ms_store m st r v); reflexivity. Qed.
  Definition here : place := At 0 [Fld "storage"].
  Lemma iter_mut_ok : forall g l, same_step (FPlain (MIterMut g l)).
  Proof.
    intros g l s st. cbn [front_req fmap_req src_req map_req].
    refine (iterate_mut_ok F U (ms_IterMut m) (is_some (it_back (ms_IterMut m)))
       (fun i => VForeign (XIterMut m i here))
       (fun _ => True) m _ rep (fun _ => True) to_step st (ms_iter_mut m st) "iter_mut" s _ Logic.I _ reads writes _ l).
    - front_begin.
    - goes (ms_IterMut m).
  Qed.
  Lemma values_mut_ok : forall g l, same_step (FPlain (MValuesMut g l)).
  Proof.
    intros g l s st. cbn [front_req fmap_req src_req map_req].
    refine (iterate_mut_ok F U (ms_ValuesMut m) (is_some (it_back (ms_ValuesMut m)))
       (fun i => VForeign (XValuesMut m i here))
       (fun _ => True) m _ rep (fun _ => True) to_step st (ms_values_mut m st) "values_mut" s _ Logic.I _ reads writes
       _ l).
    - front_begin.
    - goes (ms_ValuesMut m).
  Qed.
  Lemma ref_iter_mut_ok : forall g l, same_step (FRefIterMut g l).
  Proof.
    intros g l s st. cbn [front_req fmap_req].
    refine (iterate_mut_ok (ref_file m map_ast "&mut Map") U (ms_IterMut m) (is_some (it_back (ms_IterMut m)))
       (fun i => VForeign (XIterMut m i here))
       (fun _ => True) m _ rep (fun _ => True) to_step st (ms_iter_mut m st) "into_iter" s _ Logic.I _ reads writes _ l).
    - front_begin.
    - goes (ms_IterMut m).
  Qed.
End FrontMap.
