(** Property theorems: sets of elements built from hand-written types (C54). *)
Require Import List Arith NArith ZArith Bool Lia.
Import ListNotations.
From Verif Require Import Std Traits MapStorages SetStorages DeriveAny Key Api Spec Reach SetHistory
  KeyLaws ComposeSpec ComposeSets ComposeSample ComposeSetSample.

(** * C54: composition of element types *)

Theorem C54_enum : forall R full (fs : fields R),
  payload_sets_act full fs -> acts_as_set full (any_set_storage fs).
Proof. exact @enum_set_acts. Qed.
Print Assumptions C54_enum.

Theorem C54_option : forall T (m : SetStorage T),
  acts_as_set false m -> acts_as_set false (opt_set_storage m).
Proof. exact @option_set_acts. Qed.
Print Assumptions C54_option.

(** [None] is why the results are left open: over any type, the first insertion of
    [None] claims that it was there already. *)
Theorem C54_option_contents_only : forall T (m : SetStorage T),
  ~ acts_as_set true (opt_set_storage m).
Proof. exact @option_set_not_full. Qed.
Print Assumptions C54_option_contents_only.

Theorem C54_builtin : forall t ki, derive t = Some ki ->
  ((forall k, leaf_of t k <> LUnit) -> acts_as_set false (ki_set ki)) /\
  ((forall k, leaf_of t k = LHash \/ leaf_of t k = LVariant) -> acts_as_set true (ki_set ki)).
Proof.
  intros t ki D. split; [exact (builtin_set_acts t ki D)|exact (builtin_set_acts_full t ki D)].
Qed.
Print Assumptions C54_builtin.

Theorem C54_history : forall T full (m : SetStorage T), acts_as_set full m -> forall w ops,
  exists xs st n0, (forall n, n0 <= n -> run_sops m n (set_new m w) ops = (xs, st)) /\
    spec_all (spec_results full) (fun _ => false) ops xs (set_contains m st).
Proof. exact @set_acts_history. Qed.
Print Assumptions C54_history.

(** [enum Key { Unit, Num(N), Other, Again(N) }] over an element type [N] whose
    storage is not one of the crate's. *)
Definition vec_ki : KeyImpl nat := MkKeyImpl rev_map_storage vec_set_storage.
Definition over_vec : fields _ := FUnit (FTuple vec_ki (FUnit (FTuple vec_ki FNil))).

Example C54_example :
  payload_sets_act true over_vec /\
  acts_as_set false (opt_set_storage vec_set_storage) /\
  fst (run_sops (any_set_storage over_vec) 20 (set_new (any_set_storage over_vec) (fun _ _ => []))
    [SInsert (inr (inl 5)); SInsert (inr (inl 6)); SInsert (inr (inl 5)); SIsEmpty;
     SInsert (inr (inr (inl tt))); SInsert (inr (inr (inr (inl 5)))); SIter;
     SRetain (fun log _ => if length log =? 1 then Discard else Keep);
     SRemove (inr (inl 5)); SContains (inr (inl 6)); SLen]) =
  [QBool true; QBool true; QBool false; QBool false; QBool true; QBool true;
   QList [inr (inl 6); inr (inl 5); inr (inr (inl tt)); inr (inr (inr (inl 5)))];
   QRetain [inr (inl 6); inr (inl 5); inr (inr (inl tt)); inr (inr (inr (inl 5)))] Done;
   QBool false; QBool true; QNat 3].
Proof.
  split; [|split].
  - split; [exact vec_acts|]. split; [exact vec_acts|exact I].
  - apply option_set_acts, full_acts, vec_acts.
  - vm_compute. reflexivity.
Qed.
