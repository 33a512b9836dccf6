(** Which values [clear] drops, leaks and keeps when a destructor unwinds (C51). *)
Require Import List Bool.
Import ListNotations.
From Verif Require Import Std Traits Key Spec EffectSpec DropSpec.

(** How two different keys are stored: in one array (those of an enum all of whose
    variants are units), in one hash table, or neither. *)
Inductive spot := OneArray | OneTable | Elsewhere.

Fixpoint placed (t : kty) : key t -> key t -> spot :=
  match t return key t -> key t -> spot with
  | KBool => fun _ _ => Elsewhere
  | KUnit => fun _ _ => Elsewhere
  | KPrim _ => fun _ _ => OneTable
  | KOption t => fun a b =>
      match a, b with
      | Some x, Some y => placed t x y
      | _, _ => Elsewhere
      end
  | KEnum _ vs => if all_units vs then fun _ _ => OneArray else placed_in vs
  end
with placed_in (vs : variants) : keys vs -> keys vs -> spot :=
  match vs return keys vs -> keys vs -> spot with
  | VNil => fun _ _ => Elsewhere
  | VUnit r => fun a b =>
      match a, b with
      | inr x, inr y => placed_in r x y
      | _, _ => Elsewhere
      end
  | VTuple t r => fun a b =>
      match a, b with
      | inl x, inl y => placed t x y
      | inr x, inr y => placed_in r x y
      | _, _ => Elsewhere
      end
  end.

Section Clear.
  Context {D K V : Type} (dr : drop_fn D V) (pl : K -> K -> spot).

  Definition in_array (k : K) (e : K * V) : bool := match pl k (fst e) with OneArray => true | _ => false end.
  Definition in_table (k : K) (e : K * V) : bool := match pl k (fst e) with OneTable => true | _ => false end.
  Definition elsewhere (k : K) (e : K * V) : bool := match pl k (fst e) with Elsewhere => true | _ => false end.

  (** [clears_to d l d' kept leaked oc]: the values are dropped in order.  When the
      destructor of one unwinds, those that follow in its array are dropped too, those
      that follow in its hash table are leaked, and the others are kept. *)
  Inductive clears_to : D -> list (K * V) -> D -> list (K * V) -> list (K * V) -> outcome -> Prop :=
  | ClNil d : clears_to d [] d [] [] Done
  | ClOk d k v d1 l d2 kept lk oc : dr d v = (d1, false) -> clears_to d1 l d2 kept lk oc ->
      clears_to d ((k, v) :: l) d2 kept lk oc
  | ClPanic d k v d1 l d2 oc : dr d v = (d1, true) ->
      drop_values dr d1 (map snd (filter (in_array k) l)) = (d2, oc) ->
      clears_to d ((k, v) :: l) d2 (filter (elsewhere k) l) (filter (in_table k) l) Unwound.

  (** The same when a second panic aborts the process: [n] panics are left to go in the
      end, of two. *)
  Inductive clears_some : D -> list (K * V) -> D -> nat -> list (K * V) -> list (K * V) -> Prop :=
  | CsNil d : clears_some d [] d 2 [] []
  | CsOk d k v d1 l d2 n kept lk : dr d v = (d1, false) -> clears_some d1 l d2 n kept lk ->
      clears_some d ((k, v) :: l) d2 n kept lk
  | CsPanic d k v d1 l d2 n : dr d v = (d1, true) ->
      drops_some dr (fun _ _ => True) 1 None d1 (filter (in_array k) l) d2 n [] ->
      clears_some d ((k, v) :: l) d2 n (filter (elsewhere k) l) (filter (in_table k) l).
End Clear.
