(** What destructors and [V::clone] are expected to see (C51, C52). *)
Require Import List.
Import ListNotations.
From Verif Require Import Std Traits.

(** Running the destructor on each value once, from left to right; [Unwound] when
    one of them unwound. *)
Fixpoint drop_values {D V} (dr : drop_fn D V) (d : D) (l : list V) : D * outcome :=
  match l with
  | [] => (d, Done)
  | v :: r =>
      let '(d1, p) := dr d v in
      let '(d2, o) := drop_values dr d1 r in
      (d2, if p then Unwound else o)
  end.

(** Cloning the values of a list of entries from left to right, each once,
    stopping at the first clone that unwinds. *)
Fixpoint clone_values {S K V} (f : clone_fn S V) (s : S) (l : list (K * V))
  : S * option (list (K * V)) :=
  match l with
  | [] => (s, Some [])
  | (k, v) :: r =>
      match f s v with
      | (s1, None) => (s1, None)
      | (s1, Some v1) =>
          match clone_values f s1 r with
          | (s2, None) => (s2, None)
          | (s2, Some r2) => (s2, Some ((k, v1) :: r2))
          end
      end
  end.
