(** Running src/map/storage/boolean.rs: it does what [bool_map_storage] does. *)
Require Import List Arith NArith Bool String Lia.
Import ListNotations.
From Verif Require Import Std Traits MapStorages SrcText SrcStd SrcParse SrcRun SrcSpec SrcFiles SrcProofs.
Open Scope string_scope.

Definition bool_map_ast : list item := Eval vm_compute in program bool_map_text.
Lemma bool_map_read : program bool_map_text = bool_map_ast.
Proof. vm_compute. reflexivity. Qed.

Section BoolMap.
  Context {V S : Type} (U : user_fns bool V S).
  Notation F := (bool_map_file V S bool_map_ast).
  Notation M := (bool_map_storage V).
  Notation val := (val V Empty_set).

  Definition rep (st : bool_map V) : val :=
    VData "BooleanMapStorage" "" [("t", opt_rep user_rep (bm_t st)); ("f", opt_rep user_rep (bm_f st))].

  (** One request that does not concern iterators. *)
  Definition same_step (q : req bool V) : Prop := forall s st,
    src_req F U q s (rep st) = let '(s1, st1, a) := map_req U M q s st in (s1, rep st1, a).



  Lemma len_ok : same_step MLen.
  Proof. intros s [[t|] [f|]]; plain. Qed.
  Lemma is_empty_ok : same_step MIsEmpty.
  Proof. intros s [[t|] [f|]]; plain. Qed.
  Lemma contains_ok : forall k, same_step (MContains k).
  Proof. intros [|] s [[t|] [f|]]; plain. Qed.
  Lemma get_ok : forall k, same_step (MGet k).
  Proof. intros [|] s [[t|] [f|]]; plain. Qed.
  Lemma insert_ok : forall k v, same_step (MInsert k v).
  Proof. intros [|] v s [[t|] [f|]]; plain. Qed.
  Lemma set_ok : forall k v, same_step (MSet k v).
  Proof. intros [|] v s [[t|] [f|]]; plain. Qed.
  Lemma remove_ok : forall k, same_step (MRemove k).
  Proof. intros [|] s [[t|] [f|]]; plain. Qed.
  Lemma retain_ok : same_step MRetain.
  Proof. intros s [[t|] [f|]]. all: plain. Qed.
  Lemma clear_ok : same_step MClear.
  Proof. intros s [[t|] [f|]]. all: plain. Qed.
  Lemma clone_ok : same_step MClone.
  Proof. intros s [[t|] [f|]]. all: plain. Qed.
  Lemma entry_ok : forall k a, same_step (MEntry k a).
  Proof.
    intros [|] [| |v|v|v|] s [[t|] [f|]].
    all: entry.
  Qed.

  (** ** Iterators *)
  Definition at_t : list step := [Fld "t"; Fld "0"].
  Definition at_f : list step := [Fld "f"; Fld "0"].
  Definition ref_rep {A} (p : list step) (_ : A) : val := VRef (At 0 p).
  Definition clos (b : bool) : val := VClos [PName "v"] (ETup [EBool b; EPath ["v"]]) [] "BooleanMapStorage".
  Definition pair_rep {A} (f g : A -> val) : option (option A) * option (option A) -> val :=
    chain_rep (map_rep (clos true) (item_rep f)) (map_rep (clos false) (item_rep g)).
  Definition vals_rep {A} (f g : A -> val) : option (option A) * option (option A) -> val :=
    chain_rep (item_rep f) (item_rep g).

  Definition of_st (st : bool_map V) (it : option (option V) * option (option V)) : Prop :=
    match fst it with Some (Some v) => bm_t st = Some v | _ => True end /\
    match snd it with Some (Some v) => bm_f st = Some v | _ => True end.
  Definition mut_refs (it : option (option ref) * option (option ref)) : Prop :=
    match fst it with Some (Some r) => r = [0] | _ => True end /\
    match snd it with Some (Some r) => r = [1] | _ => True end.

  Ltac cases :=
    match goal with
    | H : Some _ = Some _ |- _ => injection H as H; subst
    | H : None = Some _ |- _ => discriminate
    end.
  Ltac begin_all st := destruct st as [[t|] [f|]]; begin.
  Ltac step st it rest :=
    destruct st as [t f], it as [[[a|]|] [[b|]|]];
    intros [Ha Hb]; simpl in Ha, Hb; subst; rest.
  Ltac goes st :=
    constructor;
    [ intros it; step st it ltac:(split; [intros ?; ask_step; vm_compute; auto 6 | vm_compute; auto])
    | intros it; step st it ltac:(intros ?; ask_step; vm_compute; auto)
    | first [discriminate | intros _ it; step st it ltac:(split; [vm_compute; auto | intros ?; ask_step])]
    | split; [reflexivity|];
      intros it; step st it ltac:(split; [intros ?; ask_step; vm_compute; auto 6 | vm_compute; auto]) ].

  Lemma iter_ok : forall l, same_step (MIter ByIter l).
  Proof.
    intros l s st. cbn [src_req map_req].
    refine (iterate_ok F U (bm_pair_it V) true (pair_rep (ref_rep at_t) (ref_rep at_f)) (of_st st) true _ (rep st)
              (ms_iter M st) "iter" s _ _ _ l).
    - begin_all st.
    - destruct st as [[t|] [f|]]; split; simpl; auto.
    - goes st.
  Qed.
  Lemma values_ok : forall l, same_step (MIter ByValues l).
  Proof.
    intros l s st. cbn [src_req map_req].
    refine (iterate_ok F U (chain_it (opt_it V) (opt_it V)) true (vals_rep (ref_rep at_t) (ref_rep at_f)) (of_st st)
              true _ (rep st) (ms_values M st) "values" s _ _ _ l).
    - begin_all st.
    - destruct st as [[t|] [f|]]; split; simpl; auto.
    - goes st.
  Qed.
  Lemma into_iter_ok : forall l, same_step (MIter ByIntoIter l).
  Proof.
    intros l s st. cbn [src_req map_req].
    refine (iterate_ok F U (bm_pair_it V) true (pair_rep user_rep user_rep) (fun _ => True /\ True)
              false _ (rep st) (ms_into_iter M st) "into_iter" s _ _ _ l).
    - begin_all st.
    - auto.
    - goes st.
  Qed.
  Definition bits_rep (n : N) : val := VData "Keys" "" [("bits", VNum (N.to_nat n))].
  Lemma bits_cases : forall n, (n < 4)%N -> n = 0%N \/ n = 1%N \/ n = 2%N \/ n = 3%N.
  Proof. intros. lia. Qed.
  Ltac bits it := intros it H; destruct (bits_cases it H) as [-> | [-> | [-> | ->]]].
  Lemma keys_ok : forall l, same_step (MIter ByKeys l).
  Proof.
    intros l s st. cbn [src_req map_req].
    refine (iterate_ok F U bits_it true bits_rep (fun n => (n < 4)%N)
              true _ (rep st) (ms_keys M st) "keys" s _ _ _ l).
    - begin_all st.
    - destruct st as [[t|] [f|]]; vm_compute; reflexivity.
    - constructor.
      + bits it; (split; [intros ?; ask_step; vm_compute; auto | vm_compute; auto]).
      + bits it; intros ?; ask_step; vm_compute; auto.
      + intros _; bits it; (split; [vm_compute; auto | intros ?; ask_step]).
      + split; [reflexivity|].
        bits it; (split; [intros ?; ask_step; vm_compute; auto | vm_compute; auto]).
  Qed.

  Definition two_refs (r : ref) : Prop := r = [0] \/ r = [1].
  Definition to_step (r : ref) : list step := match r with [0] => at_t | _ => at_f end.
  Lemma reads : forall st r, two_refs r ->
    seen_at F (rep st) (to_step r) = option_map (fun v => VUser v) (ms_load M st r).
  Proof. intros [[t|] [f|]] r [-> | ->]; reflexivity. Qed.
  Lemma writes : forall st r v, two_refs r -> ms_load M st r <> None ->
    changed_at F (rep st) (to_step r) v = option_map rep (ms_store M st r v).
  Proof. intros [[t|] [f|]] r v [-> | ->] H; try reflexivity; exfalso; apply H; reflexivity. Qed.

  Lemma iter_mut_ok : forall g l, same_step (MIterMut g l).
  Proof.
    intros g l s st. cbn [src_req map_req].
    refine (iterate_mut_ok F U (bm_pair_it ref) true (pair_rep (ref_rep at_t) (ref_rep at_f)) mut_refs M _ rep
              two_refs to_step st (ms_iter_mut M st) "iter_mut" s _ _ _ reads writes _ l).
    - begin_all st.
    - destruct st as [[t|] [f|]]; split; simpl; auto.
    - goes st.
  Qed.
  Lemma values_mut_ok : forall g l, same_step (MValuesMut g l).
  Proof.
    intros g l s st. cbn [src_req map_req].
    refine (iterate_mut_ok F U (chain_it (opt_it ref) (opt_it ref)) true (vals_rep (ref_rep at_t) (ref_rep at_f))
              mut_refs M _ rep two_refs to_step st (ms_values_mut M st) "values_mut" s _ _ _ reads writes _ l).
    - begin_all st.
    - destruct st as [[t|] [f|]]; split; simpl; auto.
    - goes st.
  Qed.

  Theorem step_ok : forall q, same_step q.
  Proof.
    intros [| |k|k|k v|k v|k| | | |[| | |] l|g l|g l|k a].
    - exact len_ok. - exact is_empty_ok. - apply contains_ok. - apply get_ok. - apply insert_ok. - apply set_ok.
    - apply remove_ok. - exact retain_ok. - exact clear_ok. - exact clone_ok. - apply iter_ok. - apply keys_ok.
    - apply values_ok. - apply into_iter_ok. - apply iter_mut_ok. - apply values_mut_ok. - apply entry_ok.
  Qed.

  Lemma eq_ok : forall s a b, src_eq F U s (rep a) (rep b) = Some (map_compare U M s a b).
  Proof.
    intros s [[t1|] [f1|]] [[t2|] [f2|]]; right_side; unfold src_eq, go; runs; finish.
  Qed.
  Lemma news : forall w s, exists t,
    invoke F U w (f_trait F) (f_storage F) "empty" [] [] s = (CVal (rep (ms_empty M w)), t, s).
  Proof. intros. new_step. Qed.
  Lemma bool_map_told : forall w l s,
    told_by F U (src_req F U) w l s = Some (fst (answers (map_req U M) l s (ms_empty M w))).
  Proof.
    apply (new_told_ok F U (src_req F U) (map_req U M) rep (fun _ => True) (ms_empty M)); try exact news; auto.
    intros q s st _. split; [exact Logic.I | apply step_ok].
  Qed.
  Lemma bool_map_compared : forall w1 w2 l1 l2 s,
    compare_new F U (src_req F U) w1 w2 l1 l2 s =
    Some (compared (map_req U M) (map_compare U M) (ms_empty M w1) (ms_empty M w2) l1 l2 s).
  Proof.
    apply (new_compare_ok F U (src_req F U) (map_req U M) rep (fun _ => True) (ms_empty M)); try exact news; auto.
    - intros q s st _. split; [exact Logic.I | apply step_ok].
    - intros. apply eq_ok.
  Qed.
End BoolMap.
