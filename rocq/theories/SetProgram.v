(** Programs that use several sets at once: sets are kept in variables, and are filled,
    read, compared, combined, cloned, moved, consumed and made from raw integers.  The
    predicate of [retain] is the user's, and may do anything to the state of the program
    or unwind. *)
Require Import List Arith NArith ZArith Bool.
Import ListNotations.
From Verif Require Import Std Traits Spec Api Reach Program.

(** Statements about variables [a], [b], [c]; each is a call of a function of src/set.rs,
    or a loop whose body is one. *)
Inductive pstmt (T : Type) : Type :=
| PNew (a : nat) (w : world)              (* a = Set::new(); *)
| PCollect (a : nat) (w : world) (l : list T) (* a = l.into_iter().collect(); *)
| PLen (a : nat)                          (* a.len() *)
| PIsEmpty (a : nat)                      (* a.is_empty() *)
| PContains (a : nat) (k : T)             (* a.contains(k) *)
| PInsert (a : nat) (k : T)               (* a.insert(k) *)
| PRemove (a : nat) (k : T)               (* a.remove(k) *)
| PClear (a : nat)                        (* a.clear() *)
| PRetain (a : nat)                       (* a.retain(keep) *)
| PKeepIn (a b : nat)                     (* a.retain(|k| b.contains(k)) *)
| PAddAll (a b : nat)                     (* for k in b.iter() { a.insert(k); } *)
| PIter (a : nat) (ds : list dir)         (* a.iter(), asked from either end *)
| PInter (a b n : nat)                    (* a.intersection(&b), asked n times *)
| PCollectInter (c : nat) (w : world) (a b : nat) (* c = a.intersection(&b).collect(); *)
| PEq (a b : nat)                         (* a == b *)
| PCmp (a b : nat)                        (* a.cmp(&b) *)
| PLess (a b : nat)                       (* a < b *)
| PHash (a : nat)                         (* a.hash(..) *)
| PAsRaw (a : nat)                        (* a.as_raw() *)
| PFromRaw (a : nat) (r : N)              (* a = Set::from_raw(r); *)
| PClone (a b : nat)                      (* b = a.clone(); *)
| PMove (a b : nat)                       (* b = a; *)
| PDrop (a : nat)                         (* drop(a) *)
| PIntoIter (a : nat) (ds : list dir).    (* a.into_iter(), asked from either end *)
Arguments PNew {T}.
Arguments PCollect {T}.
Arguments PLen {T}.
Arguments PIsEmpty {T}.
Arguments PContains {T}.
Arguments PInsert {T}.
Arguments PRemove {T}.
Arguments PClear {T}.
Arguments PRetain {T}.
Arguments PKeepIn {T}.
Arguments PAddAll {T}.
Arguments PIter {T}.
Arguments PInter {T}.
Arguments PCollectInter {T}.
Arguments PEq {T}.
Arguments PCmp {T}.
Arguments PLess {T}.
Arguments PHash {T}.
Arguments PAsRaw {T}.
Arguments PFromRaw {T}.
Arguments PClone {T}.
Arguments PMove {T}.
Arguments PDrop {T}.
Arguments PIntoIter {T}.

(** What the caller observes of a statement (of src/set.rs:153-1089).  [TInvalid]: the
    compiler rejects it (no such variable, one that was moved out of, a trait that is not
    implemented, a borrow, an integer that is too large for its type); nothing happens.
    [TPanicked]: the predicate of
    [retain] unwound; the program catches that and goes on.  [TDiverged]: a loop of the
    crate took more rounds than the sets have elements. *)
Inductive told (T : Type) : Type :=
| TFine | TNum (n : nat) | TTruth (b : bool) | TItems (l : list (option T))
| TOrder (c : comparison) | TBytes (l : list Z) | TBits (n : N)
| TPanicked | TInvalid | TDiverged.
Arguments TFine {T}.
Arguments TNum {T}.
Arguments TTruth {T}.
Arguments TItems {T}.
Arguments TOrder {T}.
Arguments TBytes {T}.
Arguments TBits {T}.
Arguments TPanicked {T}.
Arguments TInvalid {T}.
Arguments TDiverged {T}.

Section Program.
  (** [copies]: whether [Set<T>] is [Copy] (src/set.rs:576-581); then a variable can still
      be used after its set was moved.  [keep]: the predicate; [None] if it unwinds. *)
  Context {T S : Type} (m : SetStorage T) (copies : bool) (keep : S -> T -> S * option bool).
  Notation regs := (list (option (ss_St m))).
  Notation result := (S * regs * told T)%type.

  (** The predicate as [SetStorage::retain] uses it (src/set.rs:328-333). *)
  Definition asks : set_retain_fn S T := fun s k =>
    match keep s k with
    | (s1, None) => (s1, Unwind)
    | (s1, Some true) => (s1, Keep)
    | (s1, Some false) => (s1, Discard)
    end.

  (** Rounds that suffice for the loops over two sets (src/set/intersection.rs:58-66). *)
  Definition rounds (x y : ss_St m) : nat :=
    2 + set_len m x + set_len m x + set_len m y + set_len m y.

  (** One statement on the set [x]; what is not about one set is in [pexec].
      src/set.rs:181-183, 204-206, 234-236, 258-260, 328-333, 354-356, 377-379, 400-402,
      475-477, 749-753. *)
  Definition pexec_one (q : pstmt T) (s : S) (x : ss_St m) : S * ss_St m * told T :=
    match q with
    | PLen _ => (s, x, TNum (set_len m x))
    | PIsEmpty _ => (s, x, TTruth (set_is_empty m x))
    | PContains _ k => (s, x, TTruth (set_contains m x k))
    | PInsert _ k => let '(b, x') := set_insert m x k in (s, x', TTruth b)
    | PRemove _ k => let '(b, x') := set_remove m x k in (s, x', TTruth b)
    | PClear _ => (s, set_clear m x, TFine)
    | PRetain _ =>
        let '(s', x', o) := set_retain m asks s x in
        (s', x', match o with Done => TFine | Unwound => TPanicked end)
    | PIter _ ds =>
        match run_it (ss_Iter m) ds (set_iter m x) with
        | Some (l, _) => (s, x, TItems l)
        | None => (s, x, TInvalid)
        end
    | PHash _ =>
        (s, x, match set_hash m with Some f => TBytes (f x) | None => TInvalid end)
    | PAsRaw _ =>
        (s, x, match set_as_raw m with Some f => TBits (f x) | None => TInvalid end)
    | _ => (s, x, TInvalid)
    end.

  (** [a = set;] *)
  Definition pstore (s : S) (R : regs) (a : nat) (x : ss_St m) : result :=
    if Nat.ltb a (length R) then (s, set_var a (Some x) R, TFine) else (s, R, TInvalid).

  (** What becomes of a variable whose set is used by value (src/set.rs:576-581). *)
  Definition used (a : nat) (R : regs) : regs := if copies then R else set_var a None R.

  (** The statements about two sets [x], [y] that change none (src/set.rs:432-444,
      689-691, 817-819, 891-893). *)
  Definition pexec_two (q : pstmt T) (x y : ss_St m) : told T :=
    match q with
    | PInter _ _ n =>
        match inter_run m (rounds x y) n (set_intersection m x y) with
        | Some (l, _) => TItems l
        | None => TDiverged
        end
    | PEq _ _ => TTruth (set_eq m x y)
    | PCmp _ _ => match set_cmp m with Some f => TOrder (f x y) | None => TInvalid end
    | PLess _ _ => match set_lt m with Some f => TTruth (f x y) | None => TInvalid end
    | _ => TInvalid
    end.

  Definition on_two (a b : nat) (q : pstmt T) (s : S) (R : regs) : result :=
    match var a R, var b R with
    | Some x, Some y => (s, R, pexec_two q x y)
    | _, _ => (s, R, TInvalid)
    end.

  (** One statement: src/set.rs:153-157 ([new]), 432-444 ([intersection]), 502-506
      ([from_raw]), 541-545 ([clone]), 980-982 ([into_iter]), 990-1001 ([from_iter]), and
      those of [pexec_one] and [pexec_two].  In [PKeepIn] and [PAddAll] one set is
      borrowed while the other is changed, so they have to be different. *)
  Definition pexec (q : pstmt T) (s : S) (R : regs) : result :=
    match q with
    | PNew a w => pstore s R a (set_new m w)
    | PCollect a w l => pstore s R a (set_from_iter m w l)
    | PFromRaw a r =>
        match set_from_raw m, set_raw_bits m with
        | Some f, Some w => if N.ltb r (2 ^ w) then pstore s R a (f r) else (s, R, TInvalid)
        | _, _ => (s, R, TInvalid)
        end
    | PKeepIn a b =>
        match var a R, var b R with
        | Some x, Some y =>
            if Nat.eqb a b then (s, R, TInvalid) else
            let '(_, x', _) :=
              set_retain m (fun s k => (s, if set_contains m y k then Keep else Discard)) tt x in
            (s, set_var a (Some x') R, TFine)
        | _, _ => (s, R, TInvalid)
        end
    | PAddAll a b =>
        match var a R, var b R with
        | Some x, Some y =>
            if Nat.eqb a b then (s, R, TInvalid) else
            match drain (ss_Iter m) (rounds x y) (set_iter m y) with
            | Some l =>
                (s, set_var a (Some (fold_left (fun x k => snd (set_insert m x k)) l x)) R, TFine)
            | None => (s, R, TDiverged)
            end
        | _, _ => (s, R, TInvalid)
        end
    | PCollectInter c w a b =>
        match var a R, var b R with
        | Some x, Some y =>
            match inter_drain m (rounds x y) (set_intersection m x y) with
            | Some l => pstore s R c (set_from_iter m w l)
            | None => (s, R, TDiverged)
            end
        | _, _ => (s, R, TInvalid)
        end
    | PClone a b =>
        match var a R with
        | Some x => pstore s R b (set_clone m x)
        | None => (s, R, TInvalid)
        end
    | PMove a b =>
        match var a R with
        | Some x =>
            if Nat.ltb b (length R) then (s, set_var b (Some x) (used a R), TFine)
            else (s, R, TInvalid)
        | None => (s, R, TInvalid)
        end
    | PDrop a =>
        match var a R with
        | Some x => (s, used a R, TFine)
        | None => (s, R, TInvalid)
        end
    | PIntoIter a ds =>
        match var a R with
        | Some x =>
            match run_it (ss_IntoIter m) ds (set_into_iter m x) with
            | Some (l, _) => (s, used a R, TItems l)
            | None => (s, R, TInvalid)
            end
        | None => (s, R, TInvalid)
        end
    | PInter a b _ | PEq a b | PCmp a b | PLess a b => on_two a b q s R
    | PLen a | PIsEmpty a | PContains a _ | PInsert a _ | PRemove a _ | PClear a | PRetain a
    | PIter a _ | PHash a | PAsRaw a =>
        match var a R with
        | Some x => let '(s', x', y) := pexec_one q s x in (s', set_var a (Some x') R, y)
        | None => (s, R, TInvalid)
        end
    end.

  (** A program of such statements (src/set.rs:153-1089), and the answers. *)
  Fixpoint pexec_all (l : list (pstmt T)) (s : S) (R : regs) : S * regs * list (told T) :=
    match l with
    | [] => (s, R, [])
    | q :: r =>
        let '(s1, R1, x) := pexec q s R in
        let '(s2, R2, xs) := pexec_all r s1 R1 in (s2, R2, x :: xs)
    end.
End Program.
