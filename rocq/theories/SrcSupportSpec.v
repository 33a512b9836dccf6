(** The order of the slices that generated storages are compared by, in terms of positions
    (src/macro_support.rs:21-43). *)
Require Import List Bool.
Import ListNotations.
From Verif Require Import Std.

(** Two places hold the same: nothing, or equal values (macro_support.rs:40-42). *)
Definition alike {V} (c : V -> V -> comparison) (x y : option V) : Prop :=
  match x, y with
  | None, None => True
  | Some v, Some w => c v w = Eq
  | _, _ => False
  end.
(** [a] compared with [b]: decided at the first place that differs.  Where both hold a
    value, the values decide.  Where one is empty, it is the greater one if it holds anything
    later, and the smaller one otherwise (macro_support.rs:34-43). *)
Inductive compares {V} (c : V -> V -> comparison) : list (option V) -> list (option V) -> comparison -> Prop :=
| cmp_same a b : Forall2 (alike c) a b -> compares c a b Eq
| cmp_values pre pre' v w r r' : Forall2 (alike c) pre pre' -> c v w <> Eq ->
    compares c (pre ++ Some v :: r) (pre' ++ Some w :: r') (c v w)
| cmp_left pre pre' v r r' : Forall2 (alike c) pre pre' ->
    compares c (pre ++ Some v :: r) (pre' ++ None :: r') (if existsb is_some r' then Lt else Gt)
| cmp_right pre pre' w r r' : Forall2 (alike c) pre pre' ->
    compares c (pre ++ None :: r) (pre' ++ Some w :: r') (if existsb is_some r then Gt else Lt).
(** The flag of an element of a set (macro_support.rs:46-48). *)
Definition flag (b : bool) : option bool := if b then Some true else None.
