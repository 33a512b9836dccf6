(** The traits of fixed-map as records of functions. *)
Require Import List NArith ZArith.
From Verif Require Import Std.

(** Entry enum, src/map/entry.rs:6-14. *)
Inductive entry (Occ Vac : Type) : Type :=
| Occupied (o : Occ)
| Vacant (v : Vac).
Arguments Occupied {Occ Vac} o.
Arguments Vacant {Occ Vac} v.

(** A [retain] closure, src/map/storage.rs:93-95: state-passing, receives the
    key and the current value, leaves a new value behind and answers. *)
Definition retain_fn (S K V : Type) : Type := S -> K -> V -> S * V * answer.

(** A set [retain] closure, src/set/storage.rs:50-52. *)
Definition set_retain_fn (S K : Type) : Type := S -> K -> S * answer.

(** [V::clone] (called by src/map.rs:863-874) with its effects: the copy, or
    [None] when it unwinds. *)
Definition clone_fn (S V : Type) : Type := S -> V -> S * option V.

(** [V::eq] (called by src/map.rs:1012-1021) with its effects: the answer, or
    [None] when it unwinds. *)
Definition eq_fn (S V : Type) : Type := S -> V -> V -> S * option bool.

(** [V::partial_cmp] and [V::cmp] (called by src/map.rs:1143-1145, 1222-1224) with
    their effects: the answer, or [None] when they unwind. *)
Definition pcmp_fn (S V : Type) : Type := S -> V -> V -> S * option (option comparison).
(** See [pcmp_fn] (src/map.rs:1222-1224). *)
Definition cmp_fn (S V : Type) : Type := S -> V -> V -> S * option comparison.

(** Feeding something to a hasher (src/map.rs:1080-1085): the hasher is part of the
    surroundings; [true] when the call unwinds. *)
Definition hash_fn (S A : Type) : Type := S -> A -> S * bool.

(** [x && y] where [x] has effects and may unwind; also
    [if x != ... { return false; } y] (e.g. src/map/storage/option.rs:111). *)
Definition eq_and {S} (x : S * option bool) (y : S -> S * option bool) : S * option bool :=
  match x with
  | (s, Some true) => y s
  | _ => x
  end.

(** Trait [MapStorage<K, V>] (src/map/storage.rs:25-120) together with the
    entry traits of its associated types (src/map/storage.rs:124-422,
    426-518) and the std traits of the storage type that src/map.rs relies on
    (Clone 863-874, PartialEq 1012-1021, Hash 1074-1086, PartialOrd 1137-1166,
    Ord 1216-1246; [None] when the storage does not implement the trait).

    [empty] takes the randomness of the hash tables it creates (see [world]).
    [&self] methods take the state, [&mut self] methods return the new state.
    [ms_load] / [ms_store] are reading and assigning through a [&mut V] into
    the storage.  Entries hold [&mut] borrows: their methods take the borrowed
    storage as an argument.  [ms_clear_drop] is [clear], [ms_clone_with]
    is [clone] and [ms_eq_with] is [eq] with the destructor, [V::clone] and
    [V::eq] made visible; the other [_with] fields likewise.  [ms_drop] is what dropping
    the storage does, and [ms_clone_undo] is [clone] when the clones made before one
    unwinds are dropped too, as they are, with the destructor that is given
    ([ms_clone_with] leaves that out); both are added by the compiler.  Storages without
    [Hash] or [Ord] have no such functions. *)
Record MapStorage (K V : Type) : Type := MkMapStorage {
  ms_St : Type;
  (* associated iterator types, src/map/storage.rs:27-56 *)
  ms_Iter : iterator (K * V);
  ms_Keys : iterator K;
  ms_Values : iterator V;
  ms_IterMut : iterator (K * ref);
  ms_ValuesMut : iterator ref;
  ms_IntoIter : iterator (K * V);
  (* src/map/storage.rs:69-98 *)
  ms_empty : world -> ms_St;
  ms_len : ms_St -> nat;
  ms_is_empty : ms_St -> bool;
  ms_insert : ms_St -> K -> V -> option V * ms_St;
  ms_contains_key : ms_St -> K -> bool;
  ms_get : ms_St -> K -> option V;
  ms_get_mut : ms_St -> K -> option ref;
  ms_remove : ms_St -> K -> option V * ms_St;
  ms_retain : forall S : Type, retain_fn S K V -> S -> ms_St -> S * ms_St * outcome;
  ms_clear : ms_St -> ms_St;
  ms_clear_drop : forall D : Type, drop_fn D V -> D -> ms_St -> D * ms_St * outcome;
  (* src/map/storage.rs:101-116 *)
  ms_iter : ms_St -> it_st ms_Iter;
  ms_keys : ms_St -> it_st ms_Keys;
  ms_values : ms_St -> it_st ms_Values;
  ms_iter_mut : ms_St -> it_st ms_IterMut;
  ms_values_mut : ms_St -> it_st ms_ValuesMut;
  ms_into_iter : ms_St -> it_st ms_IntoIter;
  (* dereferencing and assigning &mut V *)
  ms_load : ms_St -> ref -> option V;
  ms_store : ms_St -> ref -> V -> option ms_St;
  (* entries, src/map/storage.rs:59-66, 119, 124-422, 426-518 *)
  ms_Occ : Type;
  ms_Vac : Type;
  ms_entry : ms_St -> K -> res (entry ms_Occ ms_Vac);
  ms_occ_key : ms_St -> ms_Occ -> res K;
  ms_occ_get : ms_St -> ms_Occ -> res V;
  ms_occ_get_mut : ms_St -> ms_Occ -> res ref;
  ms_occ_into_mut : ms_St -> ms_Occ -> res ref;
  ms_occ_insert : ms_St -> ms_Occ -> V -> res (V * ms_St);
  ms_occ_remove : ms_St -> ms_Occ -> res (V * ms_St);
  ms_vac_key : ms_St -> ms_Vac -> K;
  ms_vac_insert : ms_St -> ms_Vac -> V -> res (ref * ms_St);
  (* std traits of the storage *)
  ms_clone : (V -> V) -> ms_St -> ms_St;
  ms_clone_with : forall S : Type, clone_fn S V -> S -> ms_St -> S * option ms_St;
  ms_clone_undo : forall S : Type, clone_fn S V -> drop_fn S V -> S -> ms_St -> S * option ms_St;
  ms_drop : forall D : Type, drop_fn D V -> D -> ms_St -> D * bool;
  ms_eq : (V -> V -> bool) -> ms_St -> ms_St -> bool;
  ms_eq_with : forall S : Type, eq_fn S V -> S -> ms_St -> ms_St -> S * option bool;
  ms_hash_with : option (forall S : Type, hash_fn S Z -> hash_fn S V -> hash_fn S ms_St);
  ms_partial_cmp_with : option (forall S : Type, pcmp_fn S V -> pcmp_fn S ms_St);
  ms_cmp_with : option (forall S : Type, cmp_fn S V -> cmp_fn S ms_St);
  ms_hash : option ((V -> list Z) -> ms_St -> list Z);
  ms_partial_cmp : option ((V -> V -> option comparison) -> ms_St -> ms_St -> option comparison);
  ms_cmp : option ((V -> V -> comparison) -> ms_St -> ms_St -> comparison)
}.
Arguments MkMapStorage {K V}.
Arguments ms_St {K V}.
Arguments ms_Iter {K V}.
Arguments ms_Keys {K V}.
Arguments ms_Values {K V}.
Arguments ms_IterMut {K V}.
Arguments ms_ValuesMut {K V}.
Arguments ms_IntoIter {K V}.
Arguments ms_empty {K V}.
Arguments ms_len {K V}.
Arguments ms_is_empty {K V}.
Arguments ms_insert {K V}.
Arguments ms_contains_key {K V}.
Arguments ms_get {K V}.
Arguments ms_get_mut {K V}.
Arguments ms_remove {K V}.
Arguments ms_retain {K V} m {S}.
Arguments ms_clear {K V}.
Arguments ms_clear_drop {K V} m {D}.
Arguments ms_iter {K V}.
Arguments ms_keys {K V}.
Arguments ms_values {K V}.
Arguments ms_iter_mut {K V}.
Arguments ms_values_mut {K V}.
Arguments ms_into_iter {K V}.
Arguments ms_load {K V}.
Arguments ms_store {K V}.
Arguments ms_Occ {K V}.
Arguments ms_Vac {K V}.
Arguments ms_entry {K V}.
Arguments ms_occ_key {K V}.
Arguments ms_occ_get {K V}.
Arguments ms_occ_get_mut {K V}.
Arguments ms_occ_into_mut {K V}.
Arguments ms_occ_insert {K V}.
Arguments ms_occ_remove {K V}.
Arguments ms_vac_key {K V}.
Arguments ms_vac_insert {K V}.
Arguments ms_clone {K V}.
Arguments ms_clone_with {K V} m {S}.
Arguments ms_clone_undo {K V} m {S}.
Arguments ms_drop {K V} m {D}.
Arguments ms_eq {K V}.
Arguments ms_eq_with {K V} m {S}.
Arguments ms_hash_with {K V}.
Arguments ms_partial_cmp_with {K V}.
Arguments ms_cmp_with {K V}.
Arguments ms_hash {K V}.
Arguments ms_partial_cmp {K V}.
Arguments ms_cmp {K V}.

(** Trait [RawStorage], src/raw.rs, with the width of [Value] in bits. *)
Record RawStorage (St : Type) : Type := MkRawStorage {
  raw_bits : N;
  raw_as : St -> N;
  raw_from : N -> St
}.
Arguments MkRawStorage {St}.
Arguments raw_bits {St}.
Arguments raw_as {St}.
Arguments raw_from {St}.

(** Trait [SetStorage<T>] (src/set/storage.rs:22-62) and the std traits of the
    storage type that src/set.rs relies on (Clone 535-546, PartialEq 683-692,
    Hash 743-754, PartialOrd 806-835, Ord 885-915, RawStorage 446-507). *)
Record SetStorage (T : Type) : Type := MkSetStorage {
  ss_St : Type;
  ss_Iter : iterator T;
  ss_IntoIter : iterator T;
  ss_empty : world -> ss_St;
  ss_len : ss_St -> nat;
  ss_is_empty : ss_St -> bool;
  ss_insert : ss_St -> T -> bool * ss_St;
  ss_contains : ss_St -> T -> bool;
  ss_remove : ss_St -> T -> bool * ss_St;
  ss_retain : forall S : Type, set_retain_fn S T -> S -> ss_St -> S * ss_St * outcome;
  ss_clear : ss_St -> ss_St;
  ss_iter : ss_St -> it_st ss_Iter;
  ss_into_iter : ss_St -> it_st ss_IntoIter;
  ss_clone : ss_St -> ss_St;
  ss_eq : ss_St -> ss_St -> bool;
  ss_hash : option (ss_St -> list Z);
  ss_partial_cmp : option (ss_St -> ss_St -> option comparison);
  ss_cmp : option (ss_St -> ss_St -> comparison);
  ss_raw : option (RawStorage ss_St)
}.
Arguments MkSetStorage {T}.
Arguments ss_St {T}.
Arguments ss_Iter {T}.
Arguments ss_IntoIter {T}.
Arguments ss_empty {T}.
Arguments ss_len {T}.
Arguments ss_is_empty {T}.
Arguments ss_insert {T}.
Arguments ss_contains {T}.
Arguments ss_remove {T}.
Arguments ss_retain {T} s {S}.
Arguments ss_clear {T}.
Arguments ss_iter {T}.
Arguments ss_into_iter {T}.
Arguments ss_clone {T}.
Arguments ss_eq {T}.
Arguments ss_hash {T}.
Arguments ss_partial_cmp {T}.
Arguments ss_cmp {T}.
Arguments ss_raw {T}.

(** Trait [Key] (src/key.rs): the pair of storages chosen for a key type. *)
Record KeyImpl (K : Type) : Type := MkKeyImpl {
  ki_map : forall V : Type, MapStorage K V;
  ki_set : SetStorage K
}.
Arguments MkKeyImpl {K}.
Arguments ki_map {K}.
Arguments ki_set {K}.
