(** C72: the source text of src/macro_support.rs, run by an interpreter. *)
Require Import List Arith Bool ZArith NArith String.
Import ListNotations.
From Verif Require Import Std Traits Key DeriveUnit Reach SrcFiles SrcSupport SrcSupportSpec SrcSupportProofs SrcSupportFacts.
Open Scope string_scope.

(** [__storage_iterator_partial_cmp]: the answer, and every call of the user's [partial_cmp]
    with its arguments, are those of the model, also when one unwinds. *)
Theorem C72_partial_cmp : forall V S (pcmp : pcmp_fn S V) cmp s a b,
  returns (fun n => opt_call (program support_text) pcmp cmp "__storage_iterator_partial_cmp" n s a b)
    (storage_iterator_partial_cmp_with pcmp s a b).
Proof. intros V S pcmp cmp s a b. rewrite support_read. eexists. intros n Hn. exact (partial_cmp_ok pcmp cmp n s a b Hn). Qed.
Print Assumptions C72_partial_cmp.
Theorem C72_cmp : forall V S (pcmp : pcmp_fn S V) cmp s a b,
  returns (fun n => opt_call (program support_text) pcmp cmp "__storage_iterator_cmp" n s a b)
    (let '(s', o) := storage_iterator_cmp_with cmp s a b in (s', option_map Some o)).
Proof. intros V S pcmp cmp s a b. rewrite support_read. eexists. intros n Hn. exact (cmp_ok pcmp cmp n s a b Hn). Qed.
Print Assumptions C72_cmp.
Theorem C72_partial_cmp_bool : forall a b,
  returns (fun n => bool_call (program support_text) "__storage_iterator_partial_cmp_bool" n tt a b)
    (tt, Some (storage_iterator_partial_cmp_bool a b)).
Proof. intros a b. rewrite support_read. eexists. intros n Hn. exact (partial_cmp_bool_ok n a b Hn). Qed.
Print Assumptions C72_partial_cmp_bool.
Theorem C72_cmp_bool : forall a b,
  returns (fun n => bool_call (program support_text) "__storage_iterator_cmp_bool" n tt a b)
    (tt, Some (Some (storage_iterator_cmp_bool a b))).
Proof. intros a b. rewrite support_read. eexists. intros n Hn. exact (cmp_bool_ok n a b Hn). Qed.
Print Assumptions C72_cmp_bool.

(** In terms of positions: two slices of the same length are compared at the first place that
    differs. *)
Theorem C72_order : forall V (c : V -> V -> comparison) a b, List.length a = List.length b ->
  exists o, compares c a b o /\
    returns (fun n => opt_call (program support_text) (fun s v w => (s, Some (Some (c v w)))) (fun s v w => (s, Some (c v w)))
      "__storage_iterator_cmp" n tt a b) (tt, Some (Some o)) /\
    returns (fun n => opt_call (program support_text) (fun s v w => (s, Some (Some (c v w)))) (fun s v w => (s, Some (c v w)))
      "__storage_iterator_partial_cmp" n tt a b) (tt, Some (Some o)).
Proof.
  intros V c a b L. destruct (compares_always c a b L) as [o H]. exists o. split; [exact H|].
  assert (E := compares_go c a b o H). split.
  - assert (R := C72_cmp V unit (fun s v w => (s, Some (Some (c v w)))) (fun s v w => (s, Some (c v w))) tt a b).
    rewrite E in R. exact R.
  - assert (R := C72_partial_cmp V unit (fun s v w => (s, Some (Some (c v w)))) (fun s v w => (s, Some (c v w))) tt a b).
    rewrite (partial_total V c a b o E) in R. exact R.
Qed.
Print Assumptions C72_order.
(** There is only one such answer. *)
Theorem C72_order_one : forall V (c : V -> V -> comparison) a b o o', compares c a b o -> compares c a b o' -> o = o'.
Proof.
  intros V c a b o o' H H'. apply compares_go in H. apply compares_go in H'. rewrite H in H'. now injection H' as ->.
Qed.
Print Assumptions C72_order_one.
Theorem C72_set_order : forall a b, List.length a = List.length b ->
  exists o, compares bool_cmp (map flag a) (map flag b) o /\
    returns (fun n => bool_call (program support_text) "__storage_iterator_cmp_bool" n tt a b) (tt, Some (Some o)) /\
    returns (fun n => bool_call (program support_text) "__storage_iterator_partial_cmp_bool" n tt a b) (tt, Some (Some o)).
Proof.
  intros a b L. destruct (compares_always bool_cmp (map flag a) (map flag b)) as [o H]; [now rewrite !map_length|].
  exists o. split; [exact H|]. assert (E := flags_go a b o H). split.
  - assert (R := C72_cmp_bool a b). rewrite E in R. exact R.
  - assert (R := C72_partial_cmp_bool a b). rewrite flags_partial, E in R. exact R.
Qed.
Print Assumptions C72_set_order.
(** The storages that are generated for enums without fields are compared by these functions:
    what [partial_cmp] and [cmp] of a [Map] answer is what the text answers of the arrays. *)
Theorem C72_maps : forall R V (u : units R) S (pcmp : pcmp_fn S V) cmp s (a b : ms_St (unit_map_storage u V)),
  exists f g, ms_partial_cmp_with (unit_map_storage u V) = Some f /\ ms_cmp_with (unit_map_storage u V) = Some g /\
    returns (fun n => opt_call (program support_text) pcmp cmp "__storage_iterator_partial_cmp" n s
      (arr_elems u (um_data a)) (arr_elems u (um_data b))) (f S pcmp s a b) /\
    returns (fun n => opt_call (program support_text) pcmp cmp "__storage_iterator_cmp" n s
      (arr_elems u (um_data a)) (arr_elems u (um_data b))) (let '(s', o) := g S cmp s a b in (s', option_map Some o)).
Proof.
  intros R V u S pcmp cmp s a b. eexists _, _. split; [reflexivity|]. split; [reflexivity|].
  split; [apply C72_partial_cmp|apply C72_cmp].
Qed.
Print Assumptions C72_maps.
Theorem C72_sets : forall R (u : units R) (a b : ss_St (unit_set_storage u)),
  exists f g, ss_partial_cmp (unit_set_storage u) = Some f /\ ss_cmp (unit_set_storage u) = Some g /\
    returns (fun n => bool_call (program support_text) "__storage_iterator_partial_cmp_bool" n tt
      (arr_elems u (us_data u a)) (arr_elems u (us_data u b))) (tt, Some (f a b)) /\
    returns (fun n => bool_call (program support_text) "__storage_iterator_cmp_bool" n tt
      (arr_elems u (us_data u a)) (arr_elems u (us_data u b))) (tt, Some (Some (g a b))).
Proof.
  intros R u a b. eexists _, _. split; [reflexivity|]. split; [reflexivity|].
  split; [apply C72_partial_cmp_bool|apply C72_cmp_bool].
Qed.
Print Assumptions C72_sets.

(** A user whose comparisons are recorded and unwind at 9. *)
Definition seen_pcmp : pcmp_fn (list nat) nat := fun s a b =>
  ((s ++ [a; b])%list, if Nat.eqb a 9 then None else Some (Some (Nat.compare a b))).
Definition seen_cmp : cmp_fn (list nat) nat := fun s a b =>
  ((s ++ [a; b])%list, if Nat.eqb a 9 then None else Some (Nat.compare a b)).
Example C72_runs :
  opt_call (program support_text) seen_pcmp seen_cmp "__storage_iterator_partial_cmp" 30 []
    [None; Some 3; Some 4] [None; Some 3; Some 5] = Some ([3; 3; 4; 5], Some (Some Lt)) /\
  opt_call (program support_text) seen_pcmp seen_cmp "__storage_iterator_cmp" 30 []
    [None; Some 3; Some 9; Some 1] [None; Some 3; Some 5; None] = Some ([3; 3; 9; 5], None) /\
  opt_call (program support_text) seen_pcmp seen_cmp "__storage_iterator_cmp" 30 []
    [None; Some 3; Some 9] [Some 1; Some 3; Some 5] = Some ([], Some (Some Gt)) /\
  bool_call (program support_text) "__storage_iterator_cmp_bool" 30 tt [true; true; false] [true; false; true] = Some (tt, Some (Some Lt)) /\
  bool_call (program support_text) "__storage_iterator_cmp_bool" 30 tt [true; true; false] [true; false; false] = Some (tt, Some (Some Gt)).
Proof. repeat split; vm_compute; reflexivity. Qed.
Example C72_order_example :
  compares Nat.compare [Some 1; Some 2; None] [Some 1; None; Some 0] Lt /\
  compares Nat.compare [Some 1; Some 2; Some 7] [Some 1; None; None] Gt /\
  compares Nat.compare [Some 1; Some 2] [Some 1; Some 3] Lt.
Proof.
  assert (A : Forall2 (alike Nat.compare) [Some 1] [Some 1]) by (repeat constructor).
  split; [|split].
  - exact (cmp_left Nat.compare [Some 1] [Some 1] 2 [None] [Some 0] A).
  - exact (cmp_left Nat.compare [Some 1] [Some 1] 2 [Some 7] [None] A).
  - exact (cmp_values Nat.compare [Some 1] [Some 1] 2 3 [] [] A ltac:(discriminate)).
Qed.
