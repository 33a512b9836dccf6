(** Vocabulary for statements about orderings and raw integers, independent of
    the model functions. *)
Require Import List Arith NArith Bool.
Import ListNotations.
From Verif Require Import Std Traits Key Spec.

(** Enums of unit variants only: the keys whose maps are ordered and hashable. *)
Definition unit_enum (t : kty) : bool :=
  match t with KEnum _ vs => all_units vs | _ => false end.

(** Compare two entries: first the position of the variant in the declaration,
    then the values. *)
Definition by_entry {V} (vs : variants) (pc : V -> V -> option comparison)
  (x y : keys vs * V) : option comparison :=
  match Nat.compare (variant_index vs (fst x)) (variant_index vs (fst y)) with
  | Eq => pc (snd x) (snd y)
  | c => Some c
  end.

(** Compare two elements by the position of the variant in the declaration. *)
Definition by_variant (vs : variants) (x y : keys vs) : option comparison :=
  Some (Nat.compare (variant_index vs x) (variant_index vs y)).

(** The contract of [Ord] (with [Eq]), for the values satisfying [P]:
    consistency with [==], duality, transitivity of [<], [==] and [>]. *)
Record ord_laws {A} (P : A -> Prop) (eq : A -> A -> bool) (cmp : A -> A -> comparison)
  : Prop := MkOrdLaws {
  ord_eq : forall a b, P a -> P b -> (cmp a b = Eq <-> eq a b = true);
  ord_dual : forall a b, P a -> P b -> cmp b a = CompOpp (cmp a b);
  ord_trans : forall a b c o, P a -> P b -> P c -> cmp a b = o -> cmp b c = o -> cmp a c = o
}.

(** The contract of [PartialOrd], for the values satisfying [P]: consistency
    with [==], duality, transitivity of [<], and equal values compare alike. *)
Record partial_ord_laws {A} (P : A -> Prop) (eq : A -> A -> bool)
  (pc : A -> A -> option comparison) : Prop := MkPartialOrdLaws {
  po_eq : forall a b, P a -> P b -> (pc a b = Some Eq <-> eq a b = true);
  po_dual : forall a b, P a -> P b -> pc b a = option_map CompOpp (pc a b);
  po_trans : forall a b c, P a -> P b -> P c ->
    pc a b = Some Lt -> pc b c = Some Lt -> pc a c = Some Lt;
  po_congr : forall a b c, P a -> P b -> P c -> pc a b = Some Eq -> pc a c = pc b c
}.

(** The comparison operators of [PartialOrd] in terms of [partial_cmp]. *)
Definition operators {A} (P : A -> Prop) (pc : A -> A -> option comparison)
  (lt le gt ge : A -> A -> bool) : Prop :=
  forall a b, P a -> P b ->
    (lt a b = true <-> pc a b = Some Lt) /\
    (le a b = true <-> pc a b = Some Lt \/ pc a b = Some Eq) /\
    (gt a b = true <-> pc a b = Some Gt) /\
    (ge a b = true <-> pc a b = Some Gt \/ pc a b = Some Eq).

(** [max], [min] and [clamp] of [Ord] in terms of [cmp]: of two equal values,
    [max] returns the second and [min] the first; [clamp] panics if the bounds
    are in the wrong order. *)
Definition selectors {A} (P : A -> Prop) (cmp : A -> A -> comparison)
  (mx mn : A -> A -> A) (cl : A -> A -> A -> res A) : Prop :=
  (forall a b, P a -> P b ->
     (cmp a b = Gt -> mx a b = a) /\ (cmp a b <> Gt -> mx a b = b) /\
     (cmp a b = Gt -> mn a b = b) /\ (cmp a b <> Gt -> mn a b = a)) /\
  (forall a lo hi, P a -> P lo -> P hi ->
     (cmp lo hi = Gt -> cl a lo hi = Panic) /\
     (cmp lo hi <> Gt -> cmp a lo = Lt -> cl a lo hi = Ok lo) /\
     (cmp lo hi <> Gt -> cmp a hi = Gt -> cl a lo hi = Ok hi) /\
     (cmp lo hi <> Gt -> cmp a lo <> Lt -> cmp a hi <> Gt -> cl a lo hi = Ok a)).
