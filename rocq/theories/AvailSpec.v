(** Vocabulary for the statements about available traits. *)
Require Import Bool.
From Verif Require Import Std Traits Key Avail Spec.

(** An enum all of whose variants are unit variants. *)
Definition unit_enum (t : kty) : bool :=
  match t with KEnum _ vs => all_units vs | _ => false end.

(** What the key type of a map permits: copying unless there is a hash table,
    hashing and ordering for enums of unit variants, the rest always. *)
Definition map_allows (t : kty) (tr : std_trait) : bool :=
  match tr with
  | TClone | TPartialEq | TEq => true
  | TCopy => hash_free t
  | THash | TPartialOrd | TOrd => unit_enum t
  end.

(** The same for sets, where [()] is hashable and ordered too. *)
Definition set_allows (t : kty) (tr : std_trait) : bool :=
  match tr with
  | TClone | TPartialEq | TEq => true
  | TCopy => hash_free t
  | THash | TPartialOrd | TOrd =>
      match t with KUnit => true | _ => unit_enum t end
  end.

(** The supertraits of the standard library: [Copy: Clone], [Eq: PartialEq],
    [PartialOrd: PartialEq], [Ord: Eq + PartialOrd]. *)
Definition lawful_impls (v : impls) : Prop :=
  (v TCopy = true -> v TClone = true) /\
  (v TEq = true -> v TPartialEq = true) /\
  (v TPartialOrd = true -> v TPartialEq = true) /\
  (v TOrd = true -> v TEq = true) /\
  (v TOrd = true -> v TPartialOrd = true).

(** An operation is available. *)
Definition present {A} (o : option A) : bool :=
  match o with Some _ => true | None => false end.
