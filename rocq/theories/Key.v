(** Key types and the storages chosen for them: src/key.rs and the dispatch in
    fixed-map-derive/src/lib.rs. *)
Require Import List NArith ZArith Bool.
Import ListNotations.
From Verif Require Import Std Traits OptionBucket Hashbrown MapStorages SetStorages
  DeriveUnit DeriveAny.

(** The key types stored in hash tables, src/key.rs:169-181. *)
Inductive prim : Type :=
| PChar | PU8 | PU32 | PU64 | PU128 | PUsize
| PI8 | PI32 | PI64 | PI128 | PIsize
| PStr | PBytes.

(** Values of these types (src/key.rs:169-181): integers (code points for
    [char]), sequences of code points or bytes.  Simplification: integers are
    not bounded, which only adds keys. *)
Definition prim_ty (p : prim) : Type :=
  match p with
  | PStr | PBytes => list Z
  | _ => Z
  end.

(** Equality of sequences ([Eq] of [str] and [[u8]], src/key.rs:180-181). *)
Fixpoint seq_eqb (a b : list Z) : bool :=
  match a, b with
  | [], [] => true
  | x :: a', y :: b' => Z.eqb x y && seq_eqb a' b'
  | _, _ => false
  end.

(** [Eq] of the key types stored in hash tables (src/key.rs:169-181,
    src/map/storage/hashbrown.rs:121). *)
Definition prim_eqb (p : prim) : prim_ty p -> prim_ty p -> bool :=
  match p return prim_ty p -> prim_ty p -> bool with
  | PStr | PBytes => seq_eqb
  | _ => Z.eqb
  end.

(** Types implementing [Key] (src/key.rs:127-182): [bool], [()], the hash table
    types, [Option<K>], and enums deriving [Key], which are given by the
    [#[key(bitset)]] flag and the list of variants, each a unit variant or a
    tuple variant with one element (fixed-map-derive/src/lib.rs:50-73).
    Discriminant values, names and generics do not influence the generated
    code. *)
Inductive kty : Type :=
| KBool
| KUnit
| KPrim (p : prim)
| KOption (t : kty)
| KEnum (bitset : bool) (vs : variants)
with variants : Type :=
| VNil
| VUnit (r : variants)
| VTuple (t : kty) (r : variants).

(** The values of a key type (src/key.rs:127-182).  Enum values are nested
    sums: [inl] is the first variant, [inr] one of the others. *)
Fixpoint key (t : kty) : Type :=
  match t with
  | KBool => bool
  | KUnit => unit
  | KPrim p => prim_ty p
  | KOption t => option (key t)
  | KEnum _ vs => keys vs
  end
with keys (vs : variants) : Type :=
  match vs with
  | VNil => Empty_set
  | VUnit r => (unit + keys r)%type
  | VTuple t r => (key t + keys r)%type
  end.

(** [is_all_unit_variants], fixed-map-derive/src/lib.rs:65-73; returns the list
    of unit variants if so. *)
Fixpoint as_units (vs : variants) : option (units (keys vs)) :=
  match vs return option (units (keys vs)) with
  | VNil => Some UNil
  | VUnit r => option_map UCons (as_units r)
  | VTuple _ _ => None
  end.

(** [impl Key] for every key type, src/key.rs:137-182; for enums
    [impl_storage], fixed-map-derive/src/lib.rs:50-63.  [None] when no
    implementation is generated. *)
Fixpoint derive (t : kty) : option (KeyImpl (key t)) :=
  match t return option (KeyImpl (key t)) with
  | KBool => Some (MkKeyImpl bool_map_storage bool_set_storage)
  | KUnit => Some (MkKeyImpl single_map_storage single_set_storage)
  | KPrim p => Some (MkKeyImpl (fun V => hash_map_storage (prim_eqb p))
                               (hash_set_storage (prim_eqb p)))
  | KOption t =>
      option_map (fun ki => MkKeyImpl (fun V => opt_map_storage (ki_map ki V))
                                      (opt_set_storage (ki_set ki)))
                 (derive t)
  | KEnum bitset vs =>
      match as_units vs with
      | Some u => derive_unit bitset u
      | None => option_map derive_any (derive_fields vs)
      end
  end
(** The fields of an enum with tuple variants, any_variants.rs:19-73. *)
with derive_fields (vs : variants) : option (fields (keys vs)) :=
  match vs return option (fields (keys vs)) with
  | VNil => Some FNil
  | VUnit r => option_map FUnit (derive_fields r)
  | VTuple t r =>
      match derive t, derive_fields r with
      | Some ki, Some fs => Some (FTuple ki fs)
      | _, _ => None
      end
  end.
