(** Running src/map/storage/option.rs: [retain] and the iterators. *)
Require Import List Arith NArith Bool String Lia.
Import ListNotations.
From Verif Require Import Std Traits MapStorages SrcText SrcStd SrcParse SrcRun SrcSpec SrcFiles SrcProofs SrcForeign
  SrcOption.
Open Scope string_scope.

Section OptionMap.
  Context {K V S : Type} (m : MapStorage K V) (U : user_fns (option K) V S).
  Hypothesis ext : forall (f g : retain_fn S K V) s st,
    (forall s k v, f s k v = g s k v) -> ms_retain m f s st = ms_retain m g s st.
  Notation F := (option_map_file m S option_map_ast).
  Notation M := (opt_map_storage m).
  Notation val := (val V (foreign_map m)).
  Notation rep := (rep m).
  Notation same_step := (same_step m U).

  Lemma retain_ok : same_step MRetain.
  Proof.
    intros s [st [n|]];
      model_side; unfold SrcOption.rep; cbn [om_some om_none opt_rep]; unfold user_rep; cbn [src_req];
      unfold call_on, invoke, self_arg, reclone, go; repeat found; cbn iota; foreign_runs.
    all: match goal with
    | |- context [ms_retain m (keep_by m false (callback F U) ?g) _ _] =>
        rewrite (ext (keep_by m false (callback F U) g) (fun s k v => keep_fn U s (Some k) v))
    end.
    2, 4: closure.
    all: match goal with |- context [ms_retain m ?f ?s ?st] => destruct (ms_retain m f s st) as [[? ?] [|]] end; cbn iota beta; unfold keep_fn; foreign_runs; ms_finish.
  Qed.

  (** ** Iterators *)
  Definition ref_rep {A} (_ : A) : val := VRef (At 0 [Fld "none"; Fld "0"]).
  Definition some_clos : val :=
    VClos [PTup [PName "k"; PName "b"]] (ETup [ECall (EPath ["Some"]) [EPath ["k"]]; EPath ["b"]]) []
      "OptionMapStorage".
  Definition none_clos : val :=
    VClos [PName "v"] (ETup [EPath ["None"]; EPath ["v"]]) [] "OptionMapStorage".
  Definition key_clos : val := VClos [PName "k"] (ECall (EPath ["Some"]) [EPath ["k"]]) [] "OptionMapStorage".

  (** What an iterator over [none] may hold. *)
  Definition rest_is {A B} (P : B -> Prop) (it : A * option (option B)) : Prop :=
    match snd it with Some (Some v) => P v | _ => True end.

  Ltac inside := unfold rest_is; it_side; cbn [snd];
    repeat match goal with
    | |- context [@it_next ?A ?I ?a] => destruct (@it_next A I a) as [[?|] ?]
    | H : it_back _ = Some ?b |- context [?b ?a] => destruct (b a) as [[?|] ?]
    end; cbn; auto.
  Ltac one it := unfold rest_is; destruct it as [[a|] [[b|]|]]; intros H; cbn [snd] in H; try contradiction; subst.
  Ltac says_it := intros ?; unfold asks; ask_foreign_step; unfold hint_of; cbn; repeat rewrite Nat.add_0_r; eauto 8.
  Ltac goes I :=
    constructor;
    [ intros it; one it; (split; [says_it | inside])
    | intros it; one it; says_it
    | first [discriminate | intros _ it; one it; (split; [inside | says_it])]
    | it_side; let E := fresh "E" in case_back I E; cbn; [|reflexivity];
      split; [reflexivity|]; intros it; one it; (split; [says_it | inside]) ].
  Ltac begins st := destruct st as [st [n|]]; foreign_begin.
  Ltac starts st := destruct st as [st [n|]]; cbn; auto.

  Lemma iter_ok : forall l, same_step (MIter ByIter l).
  Proof.
    intros l s st. cbn [src_req map_req].
    refine (iterate_ok F U (ms_Iter M) (is_some (it_back (ms_Iter m)))
       (chain_rep (map_rep some_clos (fun i => VForeign (XIter m i))) (map_rep none_clos (item_rep ref_rep)))
       (rest_is (fun v => om_none m st = Some v)) true _ (rep st) (ms_iter M st) "iter" s _ _ _ l).
    - begins st.
    - starts st.
    - destruct st as [st n]; cbn [om_none]. goes (ms_Iter m).
  Qed.
  Lemma into_iter_ok : forall l, same_step (MIter ByIntoIter l).
  Proof.
    intros l s st. cbn [src_req map_req].
    refine (iterate_ok F U (ms_IntoIter M) (is_some (it_back (ms_IntoIter m)))
       (chain_rep (map_rep some_clos (fun i => VForeign (XIntoIter m i))) (map_rep none_clos (item_rep user_rep)))
       (rest_is (fun v => True)) false _ (rep st) (ms_into_iter M st) "into_iter" s _ _ _ l).
    - begins st.
    - starts st.
    - destruct st as [st n]; cbn [om_none]. goes (ms_IntoIter m).
  Qed.
  Lemma keys_ok : forall l, same_step (MIter ByKeys l).
  Proof.
    intros l s st. cbn [src_req map_req].
    refine (iterate_ok F U (ms_Keys M) (is_some (it_back (ms_Keys m)))
       (chain_rep (map_rep key_clos (fun i => VForeign (XKeys m i))) (item_rep (fun _ => none_)))
       (rest_is (fun k => k = None)) true _ (rep st) (ms_keys M st) "keys" s _ _ _ l).
    - begins st.
    - starts st.
    - destruct st as [st n]; cbn [om_none]. goes (ms_Keys m).
  Qed.
  Lemma values_ok : forall l, same_step (MIter ByValues l).
  Proof.
    intros l s st. cbn [src_req map_req].
    refine (iterate_ok F U (ms_Values M) (is_some (it_back (ms_Values m)))
       (chain_rep (fun i => VForeign (XValues m i)) (item_rep ref_rep))
       (rest_is (fun v => om_none m st = Some v)) true _ (rep st) (ms_values M st) "values" s _ _ _ l).
    - begins st.
    - starts st.
    - destruct st as [st n]; cbn [om_none]. goes (ms_Values m).
  Qed.

  Definition good (r : ref) : Prop := (exists r', r = 0 :: r') \/ r = [1].
  Definition to_step (r : ref) : list step :=
    match r with 0 :: r' => [Fld "some"; Into r'] | _ => [Fld "none"; Fld "0"] end.
  Lemma reads : forall st r, good r ->
    seen_at F (rep st) (to_step r) = option_map (fun v => VUser v) (ms_load M st r).
  Proof. intros [st [n|]] r [(r' & ->) | ->]; reflexivity. Qed.
  Lemma writes : forall st r v, good r -> ms_load M st r <> None ->
    changed_at F (rep st) (to_step r) v = option_map rep (ms_store M st r v).
  Proof.
    intros [st [n|]] r v [(r' & ->) | ->] H; try reflexivity; try (exfalso; apply H; reflexivity);
      model_side; unfold SrcOption.rep; cbv -[ms_load ms_store]; destruct (ms_store m st r' v); reflexivity.
  Qed.
  Definition here : place := At 0 [Fld "some"].
  Lemma iter_mut_ok : forall g l, same_step (MIterMut g l).
  Proof.
    intros g l s st. cbn [src_req map_req].
    refine (iterate_mut_ok F U (ms_IterMut M) (is_some (it_back (ms_IterMut m)))
       (chain_rep (map_rep some_clos (fun i => VForeign (XIterMut m i here))) (map_rep none_clos (item_rep ref_rep)))
       (rest_is (fun r => match om_none m st with Some _ => r = [1] | None => False end)) M _ rep good to_step st (ms_iter_mut M st) "iter_mut" s _ _ _ reads writes _ l).
    - begins st.
    - starts st.
    - destruct st as [st [n|]]; cbn [om_none]; unfold good; goes (ms_IterMut m).
  Qed.
  Lemma values_mut_ok : forall g l, same_step (MValuesMut g l).
  Proof.
    intros g l s st. cbn [src_req map_req].
    refine (iterate_mut_ok F U (ms_ValuesMut M) (is_some (it_back (ms_ValuesMut m)))
       (chain_rep (fun i => VForeign (XValuesMut m i here)) (item_rep ref_rep))
       (rest_is (fun r => match om_none m st with Some _ => r = [1] | None => False end)) M _ rep good to_step st (ms_values_mut M st) "values_mut" s _ _ _ reads writes _ l).
    - begins st.
    - starts st.
    - destruct st as [st [n|]]; cbn [om_none]; unfold good; goes (ms_ValuesMut m).
  Qed.

  Lemma step_ok : forall q, same_step q.
  Proof.
    intros [| |k|k|k v|k v|k| | | |[| | |] l|g l|g l|k a].
    - apply len_ok. - apply is_empty_ok. - apply contains_ok. - apply get_ok. - apply insert_ok. - apply set_ok.
    - apply remove_ok. - exact retain_ok. - apply clear_ok. - apply clone_ok. - apply iter_ok. - apply keys_ok.
    - apply values_ok. - apply into_iter_ok. - apply iter_mut_ok. - apply values_mut_ok. - apply entry_ok.
  Qed.
  Lemma news : forall w s, exists t,
    invoke F U w (f_trait F) (f_storage F) "empty" [] [] s = (CVal (rep (ms_empty M w)), t, s).
  Proof.
    intros w s. unfold SrcOption.rep. cbn [ms_empty opt_map_storage om_some om_none].
    unfold invoke, go; repeat found; cbn iota; foreign_runs.
    match goal with |- exists t, (_, ?x, _) = _ => exists x; vm_compute; reflexivity end.
  Qed.
  Lemma option_map_told : forall w l s,
    told_by F U (src_req F U) w l s = Some (fst (answers (map_req U M) l s (ms_empty M w))).
  Proof.
    apply (new_told_ok F U (src_req F U) (map_req U M) rep (fun _ => True) (ms_empty M)); try exact news; auto.
    intros q s st _. split; [exact Logic.I | apply step_ok].
  Qed.
  Lemma option_map_compared : forall w1 w2 l1 l2 s,
    compare_new F U (src_req F U) w1 w2 l1 l2 s =
    Some (compared (map_req U M) (map_compare U M) (ms_empty M w1) (ms_empty M w2) l1 l2 s).
  Proof.
    apply (new_compare_ok F U (src_req F U) (map_req U M) rep (fun _ => True) (ms_empty M)); try exact news; auto.
    - intros q s st _. split; [exact Logic.I | apply step_ok].
    - intros. apply eq_ok.
  Qed.
End OptionMap.
