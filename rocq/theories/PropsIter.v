(** Properties of all iterators of maps and sets.  Each theorem is followed by a
    concrete instance of its hypotheses. *)
Require Import List Arith NArith ZArith Bool Lia.
Import ListNotations.
From Verif Require Import Std Traits OptionBucket Hashbrown MapStorages SetStorages Key Api Spec Reach
  SetCore SetLaws MapLaws KeyLaws IterProofs MapProofs SetProofs Samples.

(** * C09: iterators are deques *)

Theorem C09_map_iterators : forall t ki V (st : ms_St (ki_map ki V)),
  derive t = Some ki -> map_reachable (ki_map ki V) st ->
  (exists l, behaves_as_deque (ms_Iter (ki_map ki V)) (map_iter (ki_map ki V) st) l) /\
  (exists l, behaves_as_deque (ms_Keys (ki_map ki V)) (map_keys (ki_map ki V) st) l) /\
  (exists l, behaves_as_deque (ms_Values (ki_map ki V)) (map_values (ki_map ki V) st) l) /\
  (exists l, behaves_as_deque (ms_IterMut (ki_map ki V)) (map_iter_mut (ki_map ki V) st) l) /\
  (exists l, behaves_as_deque (ms_ValuesMut (ki_map ki V)) (map_values_mut (ki_map ki V) st) l) /\
  (exists l, behaves_as_deque (ms_IntoIter (ki_map ki V)) (map_into_iter (ki_map ki V) st) l).
Proof. intros t ki V st E R. exact (c09 (derive_map_laws t ki V E) st R). Qed.
Print Assumptions C09_map_iterators.

Theorem C09_set_iterators : forall t ki (st : ss_St (ki_set ki)),
  derive t = Some ki -> set_reachable (ki_set ki) st ->
  exists l, behaves_as_deque (ss_Iter (ki_set ki)) (set_iter (ki_set ki) st) l /\
            behaves_as_deque (ss_IntoIter (ki_set ki)) (set_into_iter (ki_set ki) st) l.
Proof. intros t ki st E R. exact (s_c09 (derive_set_laws t ki E) st R). Qed.
Print Assumptions C09_set_iterators.

(** The iterators are double-ended exactly when no hash table is involved. *)
Theorem C09_double_ended : forall t ki, derive t = Some ki ->
  (forall V, double_ended (ms_Iter (ki_map ki V)) = hash_free t /\
             double_ended (ms_Keys (ki_map ki V)) = hash_free t /\
             double_ended (ms_Values (ki_map ki V)) = hash_free t /\
             double_ended (ms_IterMut (ki_map ki V)) = hash_free t /\
             double_ended (ms_ValuesMut (ki_map ki V)) = hash_free t /\
             double_ended (ms_IntoIter (ki_map ki V)) = hash_free t) /\
  double_ended (ss_Iter (ki_set ki)) = hash_free t /\
  double_ended (ss_IntoIter (ki_set ki)) = hash_free t.
Proof. intros t ki E. exact (proj1 derive_ends t ki E). Qed.
Print Assumptions C09_double_ended.

(** A hash-free composite key: enum Mix { Flag(bool), Sub(Option<Dir>), Unit } *)
Definition mix_t : kty := KEnum false (VTuple KBool (VTuple (KOption dir_t) (VUnit VNil))).
Definition mix_ki : KeyImpl (key mix_t) :=
  DeriveAny.derive_any
    (DeriveAny.FTuple bool_ki
      (DeriveAny.FTuple (MkKeyImpl (fun V => opt_map_storage (ki_map dir_ki V)) (opt_set_storage (ki_set dir_ki)))
        (DeriveAny.FUnit DeriveAny.FNil))).
Definition mixes : ms_St (ki_map mix_ki nat) :=
  build (ki_map mix_ki nat) [(inr (inr (inl tt)), 1); (inl false, 2); (inr (inl (Some west)), 3);
                             (inr (inl None), 4); (inl true, 5)].

Example C09_example : derive mix_t = Some mix_ki /\ hash_free mix_t = true /\
  map_reachable (ki_map mix_ki nat) mixes /\
  option_map fst (run_it (ms_Values (ki_map mix_ki nat)) [Back; Front; Front; Back; Front; Back; Front]
    (map_values (ki_map mix_ki nat) mixes)) =
  Some [Some 1; Some 5; Some 2; Some 4; Some 3; None; None].
Proof. split; [reflexivity|]. split; [reflexivity|]. split; [apply build_reachable|reflexivity]. Qed.

(** * C37: size hints *)

Theorem C37_map_hints : forall t ki V (st : ms_St (ki_map ki V)),
  derive t = Some ki -> map_reachable (ki_map ki V) st ->
  hints_bracket (ms_Iter (ki_map ki V)) (map_iter (ki_map ki V) st) /\
  hints_bracket (ms_Keys (ki_map ki V)) (map_keys (ki_map ki V) st) /\
  hints_bracket (ms_Values (ki_map ki V)) (map_values (ki_map ki V) st) /\
  hints_bracket (ms_IterMut (ki_map ki V)) (map_iter_mut (ki_map ki V) st) /\
  hints_bracket (ms_ValuesMut (ki_map ki V)) (map_values_mut (ki_map ki V) st) /\
  hints_bracket (ms_IntoIter (ki_map ki V)) (map_into_iter (ki_map ki V) st).
Proof. intros t ki V st E R. exact (c37 (derive_map_laws t ki V E) st R). Qed.
Print Assumptions C37_map_hints.

Theorem C37_set_hints : forall t ki (st : ss_St (ki_set ki)),
  derive t = Some ki -> set_reachable (ki_set ki) st ->
  hints_bracket (ss_Iter (ki_set ki)) (set_iter (ki_set ki) st) /\
  hints_bracket (ss_IntoIter (ki_set ki)) (set_into_iter (ki_set ki) st).
Proof. intros t ki st E R. exact (s_c37 (derive_set_laws t ki E) st R). Qed.
Print Assumptions C37_set_hints.

(** [ExactSizeIterator] of the [bool] iterators. *)
Theorem C37_bool_exact : forall V (sm : ms_St (bool_map_storage V)) (ss : ss_St bool_set_storage),
  map_reachable (bool_map_storage V) sm -> set_reachable bool_set_storage ss ->
  hints_exact (ms_Keys (bool_map_storage V)) (map_keys (bool_map_storage V) sm) /\
  hints_exact (ss_Iter bool_set_storage) (set_iter bool_set_storage ss) /\
  hints_exact (ss_IntoIter bool_set_storage) (set_into_iter bool_set_storage ss).
Proof.
  intros V sm ss Rm Rs.
  pose (LM := derive_map_laws KBool bool_ki V eq_refl). pose (LS := derive_set_laws KBool bool_ki eq_refl).
  split; [|split]; apply exact_bits.
  - exact (proj1 (ml_keys _ _ LM sm (MapFacts.r_inv LM sm Rm))).
  - exact (proj1 (sl_iter _ _ LS ss (SetFacts.s_reach_inv LS ss Rs))).
  - exact (proj1 (sl_into_iter _ _ LS ss (SetFacts.s_reach_inv LS ss Rs))).
Qed.
Print Assumptions C37_bool_exact.

(** Likewise the iterators over the key [()] and over hash tables, in any
    state. *)
Theorem C37_option_hash_exact : forall A,
  (forall s, hints_exact (opt_it A) s) /\ (forall s, hints_exact (hash_it A) s).
Proof. intros A. split; [exact (exact_opt A)|exact (exact_hash A)]. Qed.
Print Assumptions C37_option_hash_exact.

(** Hints along an iteration over [Option<Dir>] keys. *)
Definition opt_dir_ki : KeyImpl (option (key dir_t)) :=
  MkKeyImpl (fun V => opt_map_storage (ki_map dir_ki V)) (opt_set_storage (ki_set dir_ki)).
Definition opt_dirs : ms_St (ki_map opt_dir_ki nat) :=
  build (ki_map opt_dir_ki nat) [(None, 1); (Some south, 2); (Some east, 3)].
Definition bools : ms_St (bool_map_storage nat) := build (bool_map_storage nat) [(false, 1); (true, 2)].

Example C37_example : derive (KOption dir_t) = Some opt_dir_ki /\
  map_reachable (ki_map opt_dir_ki nat) opt_dirs /\
  it_hint (ms_Iter (ki_map opt_dir_ki nat)) (map_iter (ki_map opt_dir_ki nat) opt_dirs) = (1, None) /\
  option_map (fun '(xs, s) => (length xs, it_hint (ms_Iter (ki_map opt_dir_ki nat)) s))
    (run_it (ms_Iter (ki_map opt_dir_ki nat)) [Back; Front] (map_iter (ki_map opt_dir_ki nat) opt_dirs)) =
    Some (2, (0, None)) /\
  map_reachable (bool_map_storage nat) bools /\
  option_map (fun '(_, s) => it_hint (ms_Keys (bool_map_storage nat)) s)
    (run_it (ms_Keys (bool_map_storage nat)) [Front] (map_keys (bool_map_storage nat) bools)) =
    Some (1, Some 1).
Proof.
  split; [reflexivity|]. split; [apply build_reachable|]. split; [reflexivity|].
  split; [reflexivity|]. split; [apply build_reachable|reflexivity].
Qed.
