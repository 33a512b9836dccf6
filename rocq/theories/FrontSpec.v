(** Vocabulary for statements about the derive, independent of the model
    functions of Front.v. *)
Require Import List Arith NArith Bool.
Import ListNotations.
From Verif Require Import Traits Key Spec Front.

(** The declared variants are the variants [vs]: unit variants, or one unnamed
    field of a type that implements [Key]. *)
Inductive declares : list vfields -> variants -> Prop :=
| declares_nil : declares [] VNil
| declares_unit l vs : declares l vs -> declares (FieldsUnit :: l) (VUnit vs)
| declares_tuple t ki l vs : derive t = Some ki -> declares l vs ->
    declares (FieldsUnnamed [Some t] :: l) (VTuple t vs).

(** An attribute the derive knows: not its own, or [#[key(..)]] listing
    [bitset] only. *)
Definition known_attr (a : attr) : Prop :=
  match a with
  | AttrOther => True
  | AttrKeyBare => False
  | AttrKey items => Forall (eq (IBitset false)) items
  end.

(** [bitset] is written in some [#[key(..)]]. *)
Definition asks_bitset (i : input) : Prop :=
  exists items tail, In (AttrKey items) (in_attrs i) /\ In (IBitset tail) items.

(** [bitset] is written in some [#[key(..)]] before anything unknown. *)
Definition sees_bitset (i : input) : Prop :=
  exists n tail rest, In (AttrKey (repeat (IBitset false) n ++ IBitset tail :: rest)) (in_attrs i).

(** Everything about the input is supported, and [b] tells whether it asks for
    a bitset. *)
Definition supported (i : input) (b : bool) (vs : variants) : Prop :=
  Forall known_attr (in_attrs i) /\
  (b = true <-> asks_bitset i) /\
  (exists l, in_data i = DataEnum l /\ declares l vs) /\
  (b = true -> all_units vs = true /\ (N.of_nat (variant_count vs) <= 128)%N).

(** The variants as the declaration describes them, whatever the attributes. *)
Definition shape (i : input) (vs : variants) : Prop :=
  exists l, in_data i = DataEnum l /\ declares l vs.
