(** Histories of calls on one set, and what a mathematical set (given by its
    membership function) says about them. *)
Require Import List Arith NArith ZArith Bool.
Import ListNotations.
From Verif Require Import Std Traits Key Api Spec Reach.

(** One call on a set.  [SRetain f]: the state of the predicate is the log of its
    calls so far. *)
Inductive sop (T : Type) : Type :=
| SInsert (k : T)
| SRemove (k : T)
| SContains (k : T)
| SLen
| SIsEmpty
| SClear
| SRetain (f : list T -> T -> answer)
| SIter.
Arguments SInsert {T}. Arguments SRemove {T}. Arguments SContains {T}. Arguments SLen {T}.
Arguments SIsEmpty {T}. Arguments SClear {T}. Arguments SRetain {T}. Arguments SIter {T}.

(** What a call returns; for [retain] the log of the predicate's calls. *)
Inductive sobs (T : Type) : Type :=
| QUnit
| QBool (b : bool)
| QNat (n : nat)
| QList (l : list T)
| QRetain (log : list T) (o : outcome)
| QOutOfFuel.
Arguments QUnit {T}. Arguments QBool {T}. Arguments QNat {T}. Arguments QList {T}.
Arguments QRetain {T}. Arguments QOutOfFuel {T}.

(** The predicate of [SRetain f], with its log. *)
Definition slogged {T} (f : list T -> T -> answer) : set_retain_fn (list T) T :=
  fun log k => (log ++ [k], f log k).

Section Run.
  Context {T : Type} (m : SetStorage T).

  Definition run_sop (fuel : nat) (st : ss_St m) (o : sop T) : sobs T * ss_St m :=
    match o with
    | SInsert k => let '(b, st') := set_insert m st k in (QBool b, st')
    | SRemove k => let '(b, st') := set_remove m st k in (QBool b, st')
    | SContains k => (QBool (set_contains m st k), st)
    | SLen => (QNat (set_len m st), st)
    | SIsEmpty => (QBool (set_is_empty m st), st)
    | SClear => (QUnit, set_clear m st)
    | SRetain f => let '(log, st', o) := set_retain m (slogged f) [] st in (QRetain log o, st')
    | SIter =>
        match drain (ss_Iter m) fuel (set_iter m st) with
        | Some l => (QList l, st)
        | None => (QOutOfFuel, st)
        end
    end.

  Fixpoint run_sops (fuel : nat) (st : ss_St m) (ops : list (sop T)) : list (sobs T) * ss_St m :=
    match ops with
    | [] => ([], st)
    | o :: ops =>
        let '(x, st1) := run_sop fuel st o in
        let '(xs, st2) := run_sops fuel st1 ops in (x :: xs, st2)
    end.
End Run.

Definition same_set {T} (p q : T -> bool) : Prop := forall x, p x = q x.

(** [q] is [p] with [k] added / removed. *)
Definition adds {T} (p : T -> bool) (k : T) (q : T -> bool) : Prop :=
  q k = true /\ forall x, x <> k -> q x = p x.
Definition drops {T} (p : T -> bool) (k : T) (q : T -> bool) : Prop :=
  q k = false /\ forall x, x <> k -> q x = p x.

(** Contents only: what each call does to the set, and the results of
    [contains], [len] and [iter].  The results of the other calls are left open
    (they are the subject of C26-C29). *)
Definition spec_contents {T} (p : T -> bool) (o : sop T) (x : sobs T) (q : T -> bool) : Prop :=
  match o with
  | SInsert k => adds p k q
  | SRemove k => drops p k q
  | SContains k => x = QBool (p k) /\ same_set p q
  | SLen => (exists l, elements p l /\ x = QNat (length l)) /\ same_set p q
  | SIsEmpty => same_set p q
  | SClear => forall k, q k = false
  | SRetain _ => True
  | SIter => (exists l, elements p l /\ x = QList l) /\ same_set p q
  end.

(** The documented results. *)
Definition spec_sop {T} (p : T -> bool) (o : sop T) (x : sobs T) (q : T -> bool) : Prop :=
  match o with
  | SInsert k => x = QBool (negb (p k)) /\ adds p k q
  | SRemove k => x = QBool (p k) /\ drops p k q
  | SIsEmpty => (exists b, x = QBool b /\ (b = true <-> forall k, p k = false)) /\ same_set p q
  | SClear => x = QUnit /\ forall k, q k = false
  | SRetain f =>
      exists l log l' o, elements p l /\ retain_elems (slogged f) [] l = (log, l', o) /\
        x = QRetain log o /\
        match o with
        | Done => elements q l'
        | Unwound => (forall k, q k = true -> p k = true) /\ (forall k, In k l' -> q k = true)
        end
  | _ => spec_contents p o x q
  end.

(** The results as they are, in terms of the kind of place of a key ([lf]) and of
    the other [bool] beside a [bool] key ([sb]): [insert] of a [bool] or [None]
    reports whether the key was already there, [remove] of a [bool] also reports
    the other one, [is_empty] expects every [None] to be there, and [retain] also
    visits absent [()]. *)
Definition spec_exact {T} (lf : T -> leaf) (sb : T -> option T)
  (p : T -> bool) (o : sop T) (x : sobs T) (q : T -> bool) : Prop :=
  match o with
  | SInsert k =>
      x = QBool (match lf k with LBool | LNone => p k | _ => negb (p k) end) /\ adds p k q
  | SRemove k =>
      x = QBool (p k || match sb k with Some y => p y | None => false end) /\ drops p k q
  | SIsEmpty =>
      (exists b, x = QBool b /\ (b = true <-> forall k, p k = true <-> lf k = LNone)) /\
      same_set p q
  | SClear => x = QUnit /\ forall k, q k = false
  | SRetain f =>
      exists vs log l' o,
        NoDup vs /\ (forall k, In k vs <-> p k = true \/ lf k = LUnit) /\
        retain_elems (slogged f) [] vs = (log, l', o) /\ x = QRetain log o /\
        match o with
        | Done => elements q l'
        | Unwound =>
            (forall k, q k = true -> p k = true \/ In k l' /\ lf k = LUnit) /\
            (forall k, p k = true -> In k l' -> q k = true)
        end
  | _ => spec_contents p o x q
  end.

Fixpoint spec_all {T} (spec : (T -> bool) -> sop T -> sobs T -> (T -> bool) -> Prop)
  (p : T -> bool) (ops : list (sop T)) (xs : list (sobs T)) (q : T -> bool) : Prop :=
  match ops, xs with
  | [], [] => same_set p q
  | o :: ops, x :: xs => exists p1, spec p o x p1 /\ spec_all spec p1 ops xs q
  | _, _ => False
  end.

Definition is_retain {T} (o : sop T) : bool := match o with SRetain _ => true | _ => false end.

(** The predicates in the history return. *)
Definition returning {T} (o : sop T) : Prop :=
  match o with SRetain f => forall log k, f log k <> Unwind | _ => True end.

(** Histories of insert, remove and clear on a set and on a map to [()]. *)
Inductive kop (T : Type) : Type := KInsert (k : T) | KRemove (k : T) | KClear.
Arguments KInsert {T}. Arguments KRemove {T}. Arguments KClear {T}.

Definition set_kops {T} (m : SetStorage T) (st : ss_St m) (ops : list (kop T)) : ss_St m :=
  fold_left (fun st o => match o with
                         | KInsert k => snd (set_insert m st k)
                         | KRemove k => snd (set_remove m st k)
                         | KClear => set_clear m st
                         end) ops st.

Definition map_kops {T} (m : MapStorage T unit) (st : ms_St m) (ops : list (kop T)) : ms_St m :=
  fold_left (fun st o => match o with
                         | KInsert k => snd (map_insert m st k tt)
                         | KRemove k => snd (map_remove m st k)
                         | KClear => map_clear m st
                         end) ops st.
