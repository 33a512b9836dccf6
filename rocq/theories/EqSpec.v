(** What the calls of [V::eq] made by comparing two maps are expected to be (C58).
    Maps are functions from keys to optional values here. *)
Require Import List.
Import ListNotations.
From Verif Require Import Traits.

(** Calls of [V::eq] one after the other, each listed with the key that has the
    two values; every call but the last answered [true].  The last argument is
    the answer of the last call, [Some true] when there was none. *)
Inductive calls {S K V} (f : eq_fn S V) : S -> list (K * V * V) -> S -> option bool -> Prop :=
| calls_none s : calls f s [] s (Some true)
| calls_last s k v w s' r :
    f s v w = (s', r) -> r <> Some true -> calls f s [(k, v, w)] s' r
| calls_more s k v w s1 l s' r :
    f s v w = (s1, Some true) -> calls f s1 l s' r -> calls f s ((k, v, w) :: l) s' r.

(** Comparing [a] with [b], from surroundings [s] to surroundings [s'] with answer
    [r] ([None] is unwinding): only values under the same key are compared, the
    one of [a] first, no key twice; an answer other than [true] ends the
    comparison and is its answer; and when every answer was [true], so is the
    comparison, having compared every key of either map, or else it is [false]
    and some key is in one map only. *)
Definition compared {S K V} (f : eq_fn S V) (a b : K -> option V) (s s' : S)
  (r : option bool) : Prop :=
  exists l q,
    calls f s l s' q /\
    NoDup (map (fun e => fst (fst e)) l) /\
    (forall k v w, In (k, v, w) l -> a k = Some v /\ b k = Some w) /\
    match q with
    | Some true =>
        (r = Some true /\
         forall k, (a k = None /\ b k = None) \/ exists v w, In (k, v, w) l) \/
        (r = Some false /\
         exists k v, (a k = Some v /\ b k = None) \/ (a k = None /\ b k = Some v))
    | _ => r = q
    end.
