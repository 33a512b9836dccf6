(** Property theorems: maps and sets over key types without hash tables (C55). *)
Require Import List Arith NArith ZArith Bool Lia.
Import ListNotations.
From Verif Require Import Std Traits MapStorages SetStorages DeriveUnit DeriveAny Key Api Spec Reach
  History SetHistory FullSpec FullProofs Samples.

(** * C55: what is iterated, computed from the declaration *)

(** The list of all keys is what it should be. *)
Theorem C55_all_keys : forall t, hash_free t = true ->
  NoDup (all_keys t) /\ (forall k, In k (all_keys t)) /\ sorted_by (key_before t) (all_keys t) /\
  length (all_keys t) = card t.
Proof. exact (proj1 all_ok). Qed.
Print Assumptions C55_all_keys.

Theorem C55_map_listing : forall t ki V (st : ms_St (ki_map ki V)), derive t = Some ki ->
  hash_free t = true -> map_reachable (ki_map ki V) st ->
  let l := entries_of (map_get (ki_map ki V) st) (all_keys t) in
  yields (ms_Iter (ki_map ki V)) (map_iter (ki_map ki V) st) l /\
  yields (ms_Values (ki_map ki V)) (map_values (ki_map ki V) st) (map snd l) /\
  yields (ms_IntoIter (ki_map ki V)) (map_into_iter (ki_map ki V) st) l /\
  map_len (ki_map ki V) st = length l.
Proof. exact full_map. Qed.
Print Assumptions C55_map_listing.

Theorem C55_set_listing : forall t ki (st : ss_St (ki_set ki)), derive t = Some ki ->
  hash_free t = true -> set_reachable (ki_set ki) st ->
  let l := filter (set_contains (ki_set ki) st) (all_keys t) in
  yields (ss_Iter (ki_set ki)) (set_iter (ki_set ki) st) l /\
  yields (ss_IntoIter (ki_set ki)) (set_into_iter (ki_set ki) st) l /\
  set_len (ki_set ki) st = length l.
Proof. exact full_set. Qed.
Print Assumptions C55_set_listing.

(** No map has more entries than there are keys; as many only if it is full. *)
Theorem C55_map_bound : forall t ki V (st : ms_St (ki_map ki V)), derive t = Some ki ->
  hash_free t = true -> map_reachable (ki_map ki V) st ->
  map_len (ki_map ki V) st <= card t /\
  (map_len (ki_map ki V) st = card t <-> forall k, map_get (ki_map ki V) st k <> None).
Proof. exact full_map_bound. Qed.
Print Assumptions C55_map_bound.

Theorem C55_set_bound : forall t ki (st : ss_St (ki_set ki)), derive t = Some ki ->
  hash_free t = true -> set_reachable (ki_set ki) st ->
  set_len (ki_set ki) st <= card t /\
  (set_len (ki_set ki) st = card t <-> forall k, set_contains (ki_set ki) st k = true).
Proof. exact full_set_bound. Qed.
Print Assumptions C55_set_bound.

(** Whole programs: every result is determined, as if the map were a table with
    one row per key in declaration order. *)
Theorem C55_map_program : forall t ki V, derive t = Some ki -> hash_free t = true -> forall w ops,
  exists xs st n0,
    (forall n, n0 <= n -> run_ops (ki_map ki V) n (map_new (ki_map ki V) w) ops = Ok (xs, st)) /\
    spec_all_listed (all_keys t) (fun _ => None) ops xs (map_get (ki_map ki V) st).
Proof. exact full_history. Qed.
Print Assumptions C55_map_program.

Theorem C55_set_program : forall t ki, derive t = Some ki -> hash_free t = true -> forall w ops,
  exists xs st n0,
    (forall n, n0 <= n -> run_sops (ki_set ki) n (set_new (ki_set ki) w) ops = (xs, st)) /\
    spec_all (spec_listed_set (all_keys t) (leaf_of t) (sibling t) (one_bitset t))
      (fun _ => false) ops xs (set_contains (ki_set ki) st).
Proof. exact full_set_history. Qed.
Print Assumptions C55_set_program.

(** enum Nested { Unit, Flag(Option<bool>), Sub(Dir) } *)
Definition nested_t : kty := KEnum false (VUnit (VTuple (KOption KBool) (VTuple dir_t VNil))).

Example C55_example : exists ki, derive nested_t = Some ki /\ hash_free nested_t = true /\
  card nested_t = 8 /\
  (let st := build (ki_map ki nat) [(inr (inr (inl south)), 1); (inr (inl None), 2); (inl tt, 3);
                                    (inr (inl (Some false)), 4)] in
   map_reachable (ki_map ki nat) st /\ map_len (ki_map ki nat) st = 4 /\
   entries_of (map_get (ki_map ki nat) st) (all_keys nested_t) =
     [(inl tt, 3); (inr (inl (Some false)), 4); (inr (inl None), 2); (inr (inr (inl south)), 1)]) /\
  let st := build_set (ki_set ki) (rev (all_keys nested_t)) in
  set_reachable (ki_set ki) st /\ set_len (ki_set ki) st = 8.
Proof.
  eexists. split; [reflexivity|]. split; [reflexivity|]. split; [reflexivity|].
  split; [split; [apply build_reachable|split; reflexivity]|].
  split; [apply build_set_reachable|reflexivity].
Qed.
