(** Which standard traits maps and sets implement: the [impl] blocks and [where]
    clauses of the runtime crate and of the generated code.  No proofs here. *)
Require Import List Bool.
Import ListNotations.
From Verif Require Import Std Traits OptionBucket Hashbrown MapStorages SetStorages
  DeriveUnit DeriveAny Key.

(** The traits considered (src/map.rs:863-1225, src/set.rs:535-900).  [Default] and
    [Debug] have no bound on the storage (src/map.rs:929-932, 957-961). *)
Inductive std_trait : Type :=
| TClone | TCopy | TPartialEq | TEq | THash | TPartialOrd | TOrd.

(** Which of them a type implements (the bounds on [V] in the clauses cited
    below, e.g. src/map/storage/option.rs:80-84). *)
Definition impls : Type := std_trait -> bool.

(** [impl Trait for K::MapStorage<V>] when [V] implements [v]:
    [bool]: derives at src/map/storage/boolean.rs:73;
    [()]: src/map/storage/singleton.rs:6, 11-21;
    hash tables: src/map/storage/hashbrown.rs:38-41, 51-55, 62-66 (the key types
    of src/key.rs:169-181 are [Clone + Eq + Hash]);
    [Option<K>]: src/map/storage/option.rs:80-84, 95-100, 103-107, 115-120;
    enums of unit variants: unit_variants.rs:175, 185, 189, 197, 200, 211, 219;
    other enums: any_variants.rs:168, 180, 194, 204.
    Simplification: a [where] clause is a conjunction of booleans. *)
Fixpoint map_storage_impls (t : kty) (v : impls) (tr : std_trait) : bool :=
  match t with
  | KBool | KUnit =>
      match tr with
      | TClone | TCopy | TPartialEq | TEq => v tr
      | _ => false
      end
  | KPrim _ =>
      match tr with
      | TClone | TPartialEq | TEq => v tr
      | _ => false
      end
  | KOption t =>
      match tr with
      | TClone | TCopy | TPartialEq | TEq => v tr && map_storage_impls t v tr
      | _ => false
      end
  | KEnum _ vs =>
      match as_units vs with
      | Some _ => v tr
      | None =>
          match tr with
          | TClone | TPartialEq | TEq => v tr
          | TCopy => v tr && fields_impl vs v tr
          | _ => false
          end
      end
  end
(** The bounds on the field storages, any_variants.rs:186-188, 204. *)
with fields_impl (vs : variants) (v : impls) (tr : std_trait) : bool :=
  match vs with
  | VNil => true
  | VUnit r => fields_impl r v tr
  | VTuple t r => map_storage_impls t v tr && fields_impl r v tr
  end.

(** [impl Trait for K::SetStorage]:
    [bool]: derives at src/set/storage/boolean.rs:52;
    [()]: derives at src/set/storage/singleton.rs:7;
    hash tables: src/set/storage/hashbrown.rs:33-35, 45-47, 55;
    [Option<K>]: src/set/storage/option.rs:57-60, 71-75, 78-81, 89-93;
    enums of unit variants: unit_variants.rs:422, 428, 436 (bitset) and 589, 595,
    603; other enums: any_variants.rs:450, 462, 477, 487. *)
Fixpoint set_storage_impls (t : kty) (tr : std_trait) : bool :=
  match t with
  | KBool =>
      match tr with
      | TClone | TCopy | TPartialEq | TEq => true
      | _ => false
      end
  | KUnit => true
  | KPrim _ =>
      match tr with
      | TClone | TPartialEq | TEq => true
      | _ => false
      end
  | KOption t =>
      match tr with
      | TClone | TCopy | TPartialEq | TEq => set_storage_impls t tr
      | _ => false
      end
  | KEnum _ vs =>
      match as_units vs with
      | Some _ => true
      | None =>
          match tr with
          | TPartialEq | TEq => true
          | TClone | TCopy => set_fields_impl vs tr
          | _ => false
          end
      end
  end
(** The bounds on the field storages, any_variants.rs:469-472, 477, 487. *)
with set_fields_impl (vs : variants) (tr : std_trait) : bool :=
  match vs with
  | VNil => true
  | VUnit r => set_fields_impl r tr
  | VTuple t r => set_storage_impls t tr && set_fields_impl r tr
  end.

(** [impl Trait for Map<K, V>] exactly if the storage implements it
    (src/map.rs:863-866, 904-907, 1012-1015, 1023-1026, 1074-1077, 1137-1140,
    1216-1219). *)
Definition map_impls (t : kty) (v : impls) (tr : std_trait) : bool :=
  map_storage_impls t v tr.

(** [impl Trait for Set<T>] exactly if the storage implements it
    (src/set.rs:535-538, 576-579, 683-686, 694-697, 743-746, 806-809, 885-888). *)
Definition set_impls (t : kty) (tr : std_trait) : bool := set_storage_impls t tr.

(** [Clone] for the owning iterator of a map, given whether [V] is [Clone]:
    option iterators (src/map/storage/boolean.rs:24-27,
    src/map/storage/singleton.rs:47), hashbrown's owning iterator, which is not
    [Clone] (src/map/storage/hashbrown.rs:154), chains
    (src/map/storage/option.rs:32-38), array iterators
    (unit_variants.rs:241-245), generated structs (any_variants.rs:1432-1435,
    1447). *)
Fixpoint map_into_iter_clones (t : kty) (v : bool) : bool :=
  match t with
  | KBool | KUnit => v
  | KPrim _ => false
  | KOption t => map_into_iter_clones t v && v
  | KEnum _ vs =>
      match as_units vs with
      | Some _ => v
      | None => v && fields_into_iter_clone vs v
      end
  end
(** The bounds on the field iterators, any_variants.rs:1432-1435. *)
with fields_into_iter_clone (vs : variants) (v : bool) : bool :=
  match vs with
  | VNil => true
  | VUnit r => fields_into_iter_clone r v
  | VTuple t r => map_into_iter_clones t v && fields_into_iter_clone r v
  end.

(** [Clone] for the owning iterator of a set: src/set/storage/boolean.rs:62, 120,
    src/set/storage/singleton.rs:17, src/set/storage/hashbrown.rs:65 (not
    [Clone]), src/set/storage/option.rs:12-15, unit_variants.rs:446, 613,
    any_variants.rs:1735-1741. *)
Fixpoint set_into_iter_clones (t : kty) : bool :=
  match t with
  | KBool | KUnit => true
  | KPrim _ => false
  | KOption t => set_into_iter_clones t
  | KEnum _ vs =>
      match as_units vs with
      | Some _ => true
      | None => set_fields_into_iter_clone vs
      end
  end
(** The bounds on the field iterators, any_variants.rs:1735-1741. *)
with set_fields_into_iter_clone (vs : variants) : bool :=
  match vs with
  | VNil => true
  | VUnit r => set_fields_into_iter_clone r
  | VTuple t r => set_into_iter_clones t && set_fields_into_iter_clone r
  end.
