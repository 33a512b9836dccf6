(** What ordering and hashing a map are expected to do with the ordering and the hash
    of the values (C59). *)
Require Import List Arith ZArith.
Import ListNotations.
From Verif Require Import Traits Key Spec.

(** Comparing two lists of entries, both in declaration order, with a comparison of
    values that has effects and may unwind ([None]): entry by entry; the one whose
    variant is declared first is less; only values of the same variant are compared,
    the one of the left list first; the first answer other than "equal" (or
    unwinding) ends the comparison. *)
Fixpoint compare_entries {S V} (vs : variants) (f : pcmp_fn S V) (s : S)
  (a b : list (keys vs * V)) : S * option (option comparison) :=
  match a, b with
  | [], [] => (s, Some (Some Eq))
  | [], _ :: _ => (s, Some (Some Lt))
  | _ :: _, [] => (s, Some (Some Gt))
  | (k, v) :: a', (l, w) :: b' =>
      if variant_index vs k <? variant_index vs l then (s, Some (Some Lt))
      else if variant_index vs l <? variant_index vs k then (s, Some (Some Gt))
      else match f s v w with
           | (s1, Some (Some Eq)) => compare_entries vs f s1 a' b'
           | stop => stop
           end
  end.

(** Something fed to a hasher: an integer or a value. *)
Inductive fed (V : Type) : Type :=
| FedWord (z : Z)
| FedValue (v : V).
Arguments FedWord {V}.
Arguments FedValue {V}.

(** Feeding one thing after the other, until a call unwinds. *)
Fixpoint feed {S V} (word : hash_fn S Z) (h : hash_fn S V) (s : S) (l : list (fed V)) : S * bool :=
  match l with
  | [] => (s, false)
  | x :: r =>
      match (match x with FedWord z => word s z | FedValue v => h s v end) with
      | (s1, false) => feed word h s1 r
      | (s1, true) => (s1, true)
      end
  end.

(** What hashing a map with keys [ks] in declaration order feeds: the number of
    keys, then for each key whether it is present, followed by its value. *)
Definition to_feed {K V} (ks : list K) (get : K -> option V) : list (fed V) :=
  FedWord (Z.of_nat (length ks)) ::
  flat_map (fun k => match get k with
                     | None => [FedWord 0%Z]
                     | Some v => [FedWord 1%Z; FedValue v]
                     end) ks.
