(** What dropping several values, and a clone that unwinds, should do (C66). *)
Require Import List Bool.
Import ListNotations.
From Verif Require Import Std Traits EffectSpec.

(** The values of the entries are dropped one after the other, each once, whether or not
    a destructor unwinds; but the second panic, counting the one under way if there is
    one, ends the process.  [n] panics are left to go.  Left out, and listed last, are
    only the entries directly after one whose destructor unwound that are not ordered
    behind it ([before]): those that follow it in the same hash table.  The optional key:
    that of the entry before the first, if its destructor unwound. *)
Inductive drops_some {S K V : Type} (dr : drop_fn S V) (before : K -> K -> Prop)
  : nat -> option K -> S -> list (K * V) -> S -> nat -> list (K * V) -> Prop :=
| DsNil n w s : drops_some dr before n w s [] s n []
| DsOk n w s k v s1 l s2 n2 lk : (forall j, w = Some j -> before j k) -> dr s v = (s1, false) ->
    drops_some dr before n None s1 l s2 n2 lk -> drops_some dr before n w s ((k, v) :: l) s2 n2 lk
| DsPanic n w s k v s1 l s2 n2 lk : (forall j, w = Some j -> before j k) -> dr s v = (s1, true) ->
    drops_some dr before (Datatypes.S n) (Some k) s1 l s2 n2 lk ->
    drops_some dr before (Datatypes.S (Datatypes.S n)) w s ((k, v) :: l) s2 n2 lk
| DsAbort w s k v s1 l : (forall j, w = Some j -> before j k) -> dr s v = (s1, true) ->
    drops_some dr before 1 w s ((k, v) :: l) s1 0 []
| DsLeak n j s k v l s2 n2 lk : ~ before j k ->
    drops_some dr before n (Some j) s l s2 n2 lk ->
    drops_some dr before n (Some j) s ((k, v) :: l) s2 n2 ((k, v) :: lk).

(** The values of the entries [es] are cloned one after the other, and the clone of one
    of them unwinds.  Until then [made] have been made. *)
Definition clones_until {S K V} (f : clone_fn S V) (s : S) (es : list (K * V)) (s1 : S) (made : list (K * V))
  : Prop :=
  exists done k v rest s0, es = done ++ (k, v) :: rest /\
    clone_values f s done = (s0, Some made) /\ f s0 v = (s1, None).
