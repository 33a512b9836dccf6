(** Programs that use several maps at once: maps are kept in variables, and are
    filled, read, compared, cloned, moved, consumed and dropped.  The values, the
    closures and the destructor are the user's, and may do anything to the state of the
    program or unwind. *)
Require Import List Bool.
Import ListNotations.
From Verif Require Import Std Traits Spec Api Reach Sources.

(** The user's code: the closure given to [Map::retain] (src/map.rs:666-671), which may
    change the value and unwind ([None]); [V::clone] (869-873), [V::eq] (1018-1020),
    and the destructor of [V]. *)
Record helpers (S K V : Type) : Type := MkHelpers {
  h_keep : S -> K -> V -> S * V * option bool;
  h_clone : clone_fn S V;
  h_eq : eq_fn S V;
  h_drop : drop_fn S V
}.
Arguments MkHelpers {S K V}.
Arguments h_keep {S K V}.
Arguments h_clone {S K V}.
Arguments h_eq {S K V}.
Arguments h_drop {S K V}.

(** The closure as [MapStorage::retain] uses it: a value that is not kept is dropped,
    by assigning [None] or by the table (src/map/storage/singleton.rs:100-109,
    src/map/storage/boolean.rs:289-303, src/map/storage/option.rs:313-323, and what is
    generated for enums). *)
Definition keep_or_drop {S K V} (U : helpers S K V) : retain_fn S K V := fun s k v =>
  match h_keep U s k v with
  | (s1, v1, None) => (s1, v1, Unwind)
  | (s1, v1, Some true) => (s1, v1, Keep)
  | (s1, v1, Some false) =>
      let '(s2, p) := h_drop U s1 v1 in (s2, v1, if p then DiscardUnwind else Discard)
  end.

(** Statements about variables [a], [b]; each is a call of one function of src/map.rs
    and src/map/entry.rs. *)
Inductive stmt (K V : Type) : Type :=
| SNew (a : nat) (w : world)      (* a = Map::new(); *)
| SLen (a : nat)                  (* a.len() *)
| SIsEmpty (a : nat)              (* a.is_empty() *)
| SContains (a : nat) (k : K)     (* a.contains_key(k) *)
| SGet (a : nat) (k : K)          (* a.get(k) *)
| SInsert (a : nat) (k : K) (v : V) (* a.insert(k, v) *)
| SRemove (a : nat) (k : K)       (* a.remove(k) *)
| SSet (a : nat) (k : K) (v : V)  (* if let Some(x) = a.get_mut(k) { *x = v; } *)
| SOrInsert (a : nat) (k : K) (v : V) (* a.entry(k).or_insert(v) *)
| SRetain (a : nat)               (* a.retain(keep) *)
| SClear (a : nat)                (* a.clear() *)
| SIter (a : nat) (ds : list dir) (* a.iter(), asked from either end *)
| SEq (a b : nat)                 (* a == b *)
| SClone (a b : nat)              (* b = a.clone(); *)
| SMove (a b : nat)               (* b = a; *)
| SDrop (a : nat)                 (* drop(a) *)
| SIntoIter (a : nat) (ds : list dir). (* a.into_iter(), asked, then dropped *)
Arguments SNew {K V}.
Arguments SLen {K V}.
Arguments SIsEmpty {K V}.
Arguments SContains {K V}.
Arguments SGet {K V}.
Arguments SInsert {K V}.
Arguments SRemove {K V}.
Arguments SSet {K V}.
Arguments SOrInsert {K V}.
Arguments SRetain {K V}.
Arguments SClear {K V}.
Arguments SIter {K V}.
Arguments SEq {K V}.
Arguments SClone {K V}.
Arguments SMove {K V}.
Arguments SDrop {K V}.
Arguments SIntoIter {K V}.

(** What the caller observes of a statement (of src/map.rs:183-1342).  [Invalid]: the
    compiler rejects it (no such variable, the variable has been moved out of, no [next_back]);
    nothing happens.  [Panicked]: a panic came out of the statement; the program
    catches it and goes on;
    so after [ItemsThenPanic].  [NoClone]: the same, out of [Clone::clone].  [Undefined]:
    undefined behaviour, or one of the crate's own panics. *)
Inductive said (K V : Type) : Type :=
| Fine | Num (n : nat) | Truth (b : bool) | Value (o : option V)
| Items (l : list (option (K * V)))
| ItemsThenPanic (l : list (option (K * V)))
| Panicked | NoClone | Invalid | Undefined.
Arguments Fine {K V}.
Arguments Num {K V}.
Arguments Truth {K V}.
Arguments Value {K V}.
Arguments Items {K V}.
Arguments ItemsThenPanic {K V}.
Arguments Panicked {K V}.
Arguments NoClone {K V}.
Arguments Invalid {K V}.
Arguments Undefined {K V}.

(** Variables: each uninitialised or moved out of ([None]), or holding a map
    (a [Map] is a plain struct, src/map.rs:110-115). *)
Definition var {A} (a : nat) (R : list (option A)) : option A := nth a R None.
Fixpoint set_var {A} (a : nat) (x : option A) (R : list (option A)) : list (option A) :=
  match R, a with
  | [], _ => []
  | _ :: r, 0 => x :: r
  | y :: r, Datatypes.S n => y :: set_var n x r
  end.

Section Program.
  Context {K V S : Type} (m : MapStorage K V) (U : helpers S K V).
  Notation regs := (list (option (ms_St m))).
  (** The state, the variables and the answer; [None] instead of the answer: the
      process was aborted. *)
  Notation result := (S * regs * option (said K V))%type.

  (** How a statement ends after dropping something, when [n] panics are left until the
      process is aborted (see [counted]); concerns every value dropped in src/map.rs. *)
  Definition after (n : nat) (fine bad : said K V) : option (said K V) :=
    match n with
    | 0 => None
    | 1 => Some bad
    | _ => Some fine
    end.

  (** Dropping what a variable holds (compiler-generated for src/map.rs:110-115). *)
  Definition drop_map (s : S) (o : option (ms_St m)) : S * nat :=
    match o with
    | None => (s, 2)
    | Some st => fst (map_drop m (counted (h_drop U)) (s, 2) st)
    end.

  (** [b = map;] where the expression has already been evaluated: the old map is
      dropped, and the variable holds the new one even if that unwinds. *)
  Definition assign_var (s : S) (R : regs) (b : nat) (st : ms_St m) : result :=
    let '(s', n) := drop_map s (var b R) in (s', set_var b (Some st) R, after n Fine Panicked).

  (** One value dropped. *)
  Definition drop_one (s : S) (v : V) (fine : said K V) : S * option (said K V) :=
    let '(s', p) := h_drop U s v in (s', Some (if p then Panicked else fine)).

  (** One statement on the map [st] in the variable [a]; what is not about one map is
      in [exec].  src/map.rs:211-213, 455-834; src/map/entry.rs:63-68.  In [SSet] the
      assignment drops the old value; the new value is dropped if there is no entry;
      [or_insert] drops its argument if there is one. *)
  Definition exec_one (q : stmt K V) (s : S) (st : ms_St m) : S * ms_St m * option (said K V) :=
    match q with
    | SLen _ => (s, st, Some (Num (map_len m st)))
    | SIsEmpty _ => (s, st, Some (Truth (map_is_empty m st)))
    | SContains _ k => (s, st, Some (Truth (map_contains_key m st k)))
    | SGet _ k => (s, st, Some (Value (map_get m st k)))
    | SInsert _ k v => let '(o, st') := map_insert m st k v in (s, st', Some (Value o))
    | SRemove _ k => let '(o, st') := map_remove m st k in (s, st', Some (Value o))
    | SSet _ k v =>
        match map_get_mut m st k with
        | None => let '(s', x) := drop_one s v Fine in (s', st, x)
        | Some r =>
            match deref m st r, assign m st r v with
            | Ok old, Ok st' => let '(s', x) := drop_one s old Fine in (s', st', x)
            | _, _ => (s, st, Some Undefined)
            end
        end
    | SOrInsert _ k v =>
        match map_entry m st k with
        | Ok e =>
            match entry_or_insert m st e v with
            | Ok (r, st') =>
                match deref m st' r with
                | Ok x =>
                    match e with
                    | Occupied _ => let '(s', y) := drop_one s v (Value (Some x)) in (s', st', y)
                    | Vacant _ => (s, st', Some (Value (Some x)))
                    end
                | _ => (s, st', Some Undefined)
                end
            | _ => (s, st, Some Undefined)
            end
        | _ => (s, st, Some Undefined)
        end
    | SRetain _ =>
        let '(s', st', o) := map_retain m (keep_or_drop U) s st in
        (s', st', Some (match o with Done => Fine | Unwound => Panicked end))
    | SClear _ =>
        let '((s', n), st', _) := map_clear_drop m (counted (h_drop U)) (s, 2) st in
        (s', st', after n Fine Panicked)
    | SIter _ ds =>
        match run_it (ms_Iter m) ds (map_iter m st) with
        | Some (l, _) => (s, st, Some (Items l))
        | None => (s, st, Some Invalid)
        end
    | _ => (s, st, Some Invalid)
    end.

  Definition on_var (a : nat) (q : stmt K V) (s : S) (R : regs) : result :=
    match var a R with
    | None => (s, R, Some Invalid)
    | Some st => let '(s', st', x) := exec_one q s st in (s', set_var a (Some st') R, x)
    end.

  (** One statement: src/map.rs:183-187 ([new]), 869-873 ([clone]), 1018-1020 ([eq]),
      1340-1342 ([into_iter]), and those of [exec_one].  A clone that unwinds leaves
      both variables as they are; the clones made until then are dropped.  The items
      taken out of [into_iter] belong to the caller, the others are dropped with the
      iterator. *)
  Definition exec (q : stmt K V) (s : S) (R : regs) : result :=
    match q with
    | SNew a w =>
        if Nat.ltb a (length R) then assign_var s R a (map_new m w) else (s, R, Some Invalid)
    | SEq a b =>
        match var a R, var b R with
        | Some x, Some y =>
            let '(s', r) := map_eq_with m (h_eq U) s x y in
            (s', R, Some (match r with Some c => Truth c | None => Panicked end))
        | _, _ => (s, R, Some Invalid)
        end
    | SClone a b =>
        match var a R with
        | Some st =>
            if Nat.ltb b (length R) then
              match map_clone_undo m (beside (h_clone U)) (counted (h_drop U)) (s, 1) st with
              | ((s', _), Some st') => assign_var s' R b st'
              | ((s', n), None) => (s', R, after n Fine NoClone)
              end
            else (s, R, Some Invalid)
        | None => (s, R, Some Invalid)
        end
    | SMove a b =>
        match var a R with
        | Some st =>
            if Nat.ltb b (length R) then assign_var s (set_var a None R) b st
            else (s, R, Some Invalid)
        | None => (s, R, Some Invalid)
        end
    | SDrop a =>
        match var a R with
        | Some st =>
            let '(s', n) := drop_map s (Some st) in (s', set_var a None R, after n Fine Panicked)
        | None => (s, R, Some Invalid)
        end
    | SIntoIter a ds =>
        match var a R with
        | Some st =>
            match run_it (ms_IntoIter m) ds (map_into_iter m st) with
            | None => (s, R, Some Invalid)
            | Some (l, it) =>
                let '(s', n, _) := it_drop (ms_IntoIter m) (counted (fun s e => h_drop U s (snd e))) (s, 2) it in
                (s', set_var a None R, after n (Items l) (ItemsThenPanic l))
            end
        | None => (s, R, Some Invalid)
        end
    | SLen a | SIsEmpty a | SContains a _ | SGet a _ | SInsert a _ _ | SRemove a _
    | SSet a _ _ | SOrInsert a _ _ | SRetain a | SClear a | SIter a _ => on_var a q s R
    end.

  (** A program of such statements (src/map.rs:183-1342): the answers, and whether
      it came to its end rather than being aborted. *)
  Fixpoint exec_all (l : list (stmt K V)) (s : S) (R : regs) : S * regs * list (said K V) * bool :=
    match l with
    | [] => (s, R, [], true)
    | q :: r =>
        match exec q s R with
        | (s1, R1, None) => (s1, R1, [], false)
        | (s1, R1, Some x) => let '(s2, R2, xs, e) := exec_all r s1 R1 in (s2, R2, x :: xs, e)
        end
    end.
End Program.
