(** Running src/macro_support.rs. *)
Require Import List Arith NArith ZArith Bool String Lia.
Import ListNotations.
From Verif Require Import Std Traits DeriveUnit SrcText SrcStd SrcParse SrcRun SrcSpec SrcFiles SrcProofs SrcSupport.
Open Scope string_scope.

Definition support_ast : list item := Eval vm_compute in program support_text.
Lemma support_read : program support_text = support_ast.
Proof. vm_compute. reflexivity. Qed.

Lemma all_of_some : forall A B (f : A -> option B) g l, (forall x, f x = Some (g x)) -> all_of f l = Some (map g l).
Proof. intros A B f g l H. induction l as [|x l IH]; [reflexivity|]. cbn [all_of map]. now rewrite H, IH. Qed.
Lemma flatten_ok : forall V n (x : nat * option V),
  run_flatten support_ast opt_val (20 + n) ["flatten"] x = Some (ms_flatten x).
Proof. intros V n [i [v|]]; vm_compute; reflexivity. Qed.
Lemma test_ok : forall n (x : nat * bool),
  run_test (V := unit) support_ast VBool (20 + n) ["filter_bool"] x = Some (ms_filter_bool x).
Proof. intros n [i b]; vm_compute; reflexivity. Qed.
Lemma filter_map_map : forall A B (f : A -> option B) l, filter_map (fun o => o) (map f l) = filter_map f l.
Proof. intros A B f l. induction l as [|x l IH]; [reflexivity|]. cbn. rewrite IH. reflexivity. Qed.
Lemma filter_combine : forall A (f : A -> bool) l, map fst (filter snd (combine l (map f l))) = filter f l.
Proof.
  intros A f l. induction l as [|x l IH]; [reflexivity|]. cbn. destruct (f x); cbn; now rewrite IH.
Qed.
Lemma opt_pairs_ok : forall V n (l : list (option V)),
  opt_pairs support_ast (20 + n) (ZFilterMap ["flatten"] (enumerate l)) = Some (filter_map ms_flatten (enumerate l)).
Proof.
  intros V n l. unfold opt_pairs. rewrite (all_of_some _ _ _ ms_flatten _ (flatten_ok V n)).
  cbn [option_map]. now rewrite filter_map_map.
Qed.
Lemma bool_pairs_ok : forall n (l : list bool),
  bool_pairs support_ast (20 + n) (ZFilter ["filter_bool"] (enumerate l)) = Some (filter ms_filter_bool (enumerate l)).
Proof.
  intros n l. unfold bool_pairs. rewrite (all_of_some _ _ _ ms_filter_bool _ (test_ok n)).
  cbn [option_map]. now rewrite filter_combine.
Qed.

Ltac support_step :=
  match goal with
  | |- context [let (s', r) := ?a in drive ?ans ?act ?cs ?k (?l ++ [r])%list s'] =>
      let b := eval lazy beta iota zeta delta [support_answer] in a in change a with b
  end; cbn iota beta; cbn [app].
Ltac support_find :=
  match goal with |- context [find_free ?p ?s] => let r := eval vm_compute in (find_free p s) in change (find_free p s) with r end;
  cbn iota beta.
(** The seven questions; then the pairs that are compared are those of the model. *)
Ltac support_run a b con pairs ok :=
  unfold opt_call, bool_call, support_call; support_find;
  do 7 (drive1; support_step);
  match goal with |- context [pairs _ _ (con _ ?x)] => change x with (enumerate a) end; rewrite ok;
  match goal with |- context [pairs _ _ (con _ ?x)] => change x with (enumerate b) end; rewrite ok;
  cbn iota beta zeta.
Section Maps.
  Context {V S : Type} (pcmp : pcmp_fn S V) (cmp : cmp_fn S V).
  Lemma partial_cmp_ok : forall n s a b, 30 <= n ->
    opt_call support_ast pcmp cmp "__storage_iterator_partial_cmp" n s a b =
    Some (storage_iterator_partial_cmp_with pcmp s a b).
  Proof.
    intros n s a b Hn. replace n with (20 + (10 + (n - 30))) by lia. set (n' := n - 30). clearbody n'.
    support_run a b (@ZFilterMap (option V)) (@opt_pairs V) opt_pairs_ok.
    unfold storage_iterator_partial_cmp_with.
    match goal with |- context [iter_partial_cmp_with ?f ?s ?x ?y] => destruct (iter_partial_cmp_with f s x y) as [s' [o|]] end;
      cbn [fst snd]; cbn iota beta; cbn [app]; drive1; reflexivity.
  Qed.
  Lemma cmp_ok : forall n s a b, 30 <= n ->
    opt_call support_ast pcmp cmp "__storage_iterator_cmp" n s a b =
    Some (let '(s', o) := storage_iterator_cmp_with cmp s a b in (s', option_map Some o)).
  Proof.
    intros n s a b Hn. replace n with (20 + (10 + (n - 30))) by lia. set (n' := n - 30). clearbody n'.
    support_run a b (@ZFilterMap (option V)) (@opt_pairs V) opt_pairs_ok.
    unfold storage_iterator_cmp_with.
    match goal with |- context [iter_cmp_with ?f ?s ?x ?y] => destruct (iter_cmp_with f s x y) as [s' [o|]] end;
      cbn [fst snd option_map]; cbn iota beta; cbn [app]; drive1; reflexivity.
  Qed.
End Maps.
Lemma pure_partial : forall a b,
  iter_partial_cmp_with (pair_partial_cmp_with bool_pcmp) tt a b =
  (tt, Some (iter_partial_cmp (pair_partial_cmp (fun x y => Some (Nat.compare x y)) (fun x y => Some (bool_cmp x y))) a b)).
Proof.
  induction a as [|[i x] a IH]; intros [|[j y] b]; try reflexivity.
  cbn [iter_partial_cmp_with iter_partial_cmp]. unfold pair_partial_cmp_with at 1, pair_partial_cmp at 1, bool_pcmp. cbn [fst snd].
  destruct (Nat.compare i j); try reflexivity. destruct (bool_cmp x y); try reflexivity. apply IH.
Qed.
Lemma pure_cmp : forall a b,
  iter_cmp_with (pair_cmp_with bool_cmp1) tt a b = (tt, Some (iter_cmp (pair_cmp Nat.compare bool_cmp) a b)).
Proof.
  induction a as [|[i x] a IH]; intros [|[j y] b]; try reflexivity.
  cbn [iter_cmp_with iter_cmp]. unfold pair_cmp_with at 1, pair_cmp at 1, bool_cmp1. cbn [fst snd].
  destruct (Nat.compare i j); try reflexivity. destruct (bool_cmp x y); try reflexivity. apply IH.
Qed.
Lemma partial_cmp_bool_ok : forall n a b, 30 <= n ->
  bool_call support_ast "__storage_iterator_partial_cmp_bool" n tt a b =
  Some (tt, Some (storage_iterator_partial_cmp_bool a b)).
Proof.
  intros n a b Hn. replace n with (20 + (10 + (n - 30))) by lia. set (n' := n - 30). clearbody n'.
  support_run a b (@ZFilter bool) bool_pairs bool_pairs_ok.
  rewrite pure_partial. fold (storage_iterator_partial_cmp_bool a b). generalize (storage_iterator_partial_cmp_bool a b). intro o.
  cbn [fst snd]; cbn iota beta; cbn [app]; drive1; reflexivity.
Qed.
Lemma cmp_bool_ok : forall n a b, 30 <= n ->
  bool_call support_ast "__storage_iterator_cmp_bool" n tt a b =
  Some (tt, Some (Some (storage_iterator_cmp_bool a b))).
Proof.
  intros n a b Hn. replace n with (20 + (10 + (n - 30))) by lia. set (n' := n - 30). clearbody n'.
  support_run a b (@ZFilter bool) bool_pairs bool_pairs_ok.
  rewrite pure_cmp. fold (storage_iterator_cmp_bool a b). generalize (storage_iterator_cmp_bool a b). intro o.
  cbn [fst snd option_map]; cbn iota beta; cbn [app]; drive1; reflexivity.
Qed.
