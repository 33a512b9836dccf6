(** Histories: arbitrary sequences of calls on one map, as a program would make
    them, and what a finite map says about their results. *)
Require Import List Arith NArith ZArith Bool.
Import ListNotations.
From Verif Require Import Std Traits Key Api Spec Reach.

(** One call on a map.  [MRetain f]: the closure's state is the log of its calls
    so far, so [f] may answer anything, depending on all earlier calls. *)
Inductive mop (K V : Type) : Type :=
| MGet (k : K)
| MContains (k : K)
| MGetMut (k : K) (w : V)            (* if let Some(x) = get_mut(k) { replace(x, w) } *)
| MInsert (k : K) (v : V)
| MRemove (k : K)
| MLen
| MIsEmpty
| MClear
| MRetain (f : list (K * V) -> K -> V -> V * answer)
| MIter
| MIterMut (g : K -> V -> V)         (* for (k, x) in iter_mut() { *x = g(k, *x) } *)
| MEntryKey (k : K)                  (* entry(k).key() *)
| MOrInsert (k : K) (d : V)          (* *entry(k).or_insert(d) *)
| MOrInsertWith (k : K) (f : K -> option V) (* *entry(k).or_insert_with_key(f) *)
| MModify (k : K) (g : V -> V * outcome) (d : V) (* *entry(k).and_modify(g).or_insert(d) *)
| MEntryInsert (k : K) (v : V)       (* match entry(k) { Occupied(mut o) => Some(o.insert(v)),
                                         Vacant(x) => { x.insert(v); None } } *)
| MEntryRemove (k : K).              (* match entry(k) { Occupied(o) => Some(o.remove()),
                                         Vacant(_) => None } *)
Arguments MGet {K V}. Arguments MContains {K V}. Arguments MGetMut {K V}.
Arguments MInsert {K V}. Arguments MRemove {K V}. Arguments MLen {K V}.
Arguments MIsEmpty {K V}. Arguments MClear {K V}. Arguments MRetain {K V}.
Arguments MIter {K V}. Arguments MIterMut {K V}. Arguments MEntryKey {K V}.
Arguments MOrInsert {K V}. Arguments MOrInsertWith {K V}. Arguments MModify {K V}. Arguments MEntryInsert {K V}.
Arguments MEntryRemove {K V}.

(** What a call returns. *)
Inductive mobs (K V : Type) : Type :=
| RUnit
| RBool (b : bool)
| RNat (n : nat)
| ROption (o : option V)
| RValue (v : V)
| RKey (k : K)
| RList (l : list (K * V))
| RUnwound
| RRetain (log : list (K * V)) (o : outcome)
| ROutOfFuel.
Arguments RUnit {K V}. Arguments RBool {K V}. Arguments RNat {K V}.
Arguments ROption {K V}. Arguments RValue {K V}. Arguments RKey {K V}.
Arguments RUnwound {K V}. Arguments RList {K V}. Arguments RRetain {K V}. Arguments ROutOfFuel {K V}.

(** The closure of [MRetain f], with its log. *)
Definition logged {K V} (f : list (K * V) -> K -> V -> V * answer)
  : retain_fn (list (K * V)) K V :=
  fun log k v => let '(v', a) := f log k v in (log ++ [(k, v)], v', a).

Section Run.
  Context {K V : Type} (m : MapStorage K V).

  Fixpoint write_all (g : K -> V -> V) (l : list (K * ref)) (st : ms_St m) : res (ms_St m) :=
    match l with
    | [] => Ok st
    | (k, r) :: l =>
        res_bind (deref m st r) (fun v =>
        res_bind (assign m st r (g k v)) (write_all g l))
    end.

  Definition read_ref (p : ref * ms_St m) : res (mobs K V * ms_St m) :=
    res_map (fun v => (RValue v, snd p)) (deref m (snd p) (fst p)).

  (** Running one call on the model. *)
  Definition run_op (fuel : nat) (st : ms_St m) (o : mop K V) : res (mobs K V * ms_St m) :=
    match o with
    | MGet k => Ok (ROption (map_get m st k), st)
    | MContains k => Ok (RBool (map_contains_key m st k), st)
    | MGetMut k w =>
        match map_get_mut m st k with
        | None => Ok (ROption None, st)
        | Some r => res_bind (deref m st r) (fun v =>
                    res_map (fun st' => (ROption (Some v), st')) (assign m st r w))
        end
    | MInsert k v => let '(o, st') := map_insert m st k v in Ok (ROption o, st')
    | MRemove k => let '(o, st') := map_remove m st k in Ok (ROption o, st')
    | MLen => Ok (RNat (map_len m st), st)
    | MIsEmpty => Ok (RBool (map_is_empty m st), st)
    | MClear => Ok (RUnit, map_clear m st)
    | MRetain f =>
        let '(log, st', o) := map_retain m (logged f) [] st in Ok (RRetain log o, st')
    | MIter =>
        match drain (ms_Iter m) fuel (map_iter m st) with
        | Some l => Ok (RList l, st)
        | None => Ok (ROutOfFuel, st)
        end
    | MIterMut g =>
        match drain (ms_IterMut m) fuel (map_iter_mut m st) with
        | Some l => res_map (pair RUnit) (write_all g l st)
        | None => Ok (ROutOfFuel, st)
        end
    | MEntryKey k =>
        res_bind (map_entry m st k) (fun e =>
        res_map (fun k' => (RKey k', st)) (entry_key m st e))
    | MOrInsert k d =>
        res_bind (map_entry m st k) (fun e =>
        res_bind (entry_or_insert m st e d) read_ref)
    | MModify k g d =>
        res_bind (map_entry m st k) (fun e =>
        res_bind (entry_and_modify m st e (fun (_ : unit) v => (tt, fst (g v), snd (g v))) tt)
          (fun '(_, e', st') =>
           match e' with
           | Some e' => res_bind (entry_or_insert m st' e' d) read_ref
           | None => Ok (RUnwound, st')
           end))
    | MOrInsertWith k f =>
        res_bind (map_entry m st k) (fun e =>
        res_bind (entry_or_insert_with_key m st e (fun (_ : unit) k => (tt, f k)) tt)
          (fun '(_, r, st') =>
           match r with
           | Some r => read_ref (r, st')
           | None => Ok (RUnwound, st')
           end))
    | MEntryInsert k v =>
        res_bind (map_entry m st k) (fun e =>
        match e with
        | Occupied o => res_map (fun '(old, st') => (ROption (Some old), st')) (ms_occ_insert m st o v)
        | Vacant x => res_map (fun '(_, st') => (ROption None, st')) (ms_vac_insert m st x v)
        end)
    | MEntryRemove k =>
        res_bind (map_entry m st k) (fun e =>
        match e with
        | Occupied o => res_map (fun '(old, st') => (ROption (Some old), st')) (ms_occ_remove m st o)
        | Vacant _ => Ok (ROption None, st)
        end)
    end.

  (** Running a history. *)
  Fixpoint run_ops (fuel : nat) (st : ms_St m) (ops : list (mop K V))
    : res (list (mobs K V) * ms_St m) :=
    match ops with
    | [] => Ok ([], st)
    | o :: ops =>
        res_bind (run_op fuel st o) (fun '(x, st1) =>
        res_map (fun '(xs, st2) => (x :: xs, st2)) (run_ops fuel st1 ops))
    end.
End Run.

(** [f'] is [f] with [o] at [k]. *)
Definition updates {K V} (f : fmap K V) (k : K) (o : option V) (f' : fmap K V) : Prop :=
  f' k = o /\ forall k', k' <> k -> f' k' = f k'.

Definition keeps {K V} (f f' : fmap K V) : Prop := forall k, f' k = f k.

(** What one call does to a finite map [f] and may return.  Only the order in
    which entries are listed is left open. *)
Definition spec_op {K V} (f : fmap K V) (o : mop K V) (x : mobs K V) (f' : fmap K V) : Prop :=
  match o with
  | MGet k => x = ROption (f k) /\ keeps f f'
  | MContains k => x = RBool (match f k with Some _ => true | None => false end) /\ keeps f f'
  | MGetMut k w =>
      x = ROption (f k) /\
      match f k with Some _ => updates f k (Some w) f' | None => keeps f f' end
  | MInsert k v => x = ROption (f k) /\ updates f k (Some v) f'
  | MRemove k => x = ROption (f k) /\ updates f k None f'
  | MLen => (exists l, lists f l /\ x = RNat (length l)) /\ keeps f f'
  | MIsEmpty => (exists b, x = RBool b /\ (b = true <-> forall k, f k = None)) /\ keeps f f'
  | MClear => x = RUnit /\ forall k, f' k = None
  | MRetain g =>
      exists l log l' o, lists f l /\ retain_list (logged g) [] l = (log, l', o) /\
                         x = RRetain log o /\ lists f' l'
  | MIter => (exists l, lists f l /\ x = RList l) /\ keeps f f'
  | MIterMut g => x = RUnit /\ forall k, f' k = option_map (g k) (f k)
  | MEntryKey k => x = RKey k /\ keeps f f'
  | MOrInsert k d =>
      match f k with
      | Some v => x = RValue v /\ keeps f f'
      | None => x = RValue d /\ updates f k (Some d) f'
      end
  | MOrInsertWith k g =>
      match f k, g k with
      | Some v, _ => x = RValue v /\ keeps f f'
      | None, Some d => x = RValue d /\ updates f k (Some d) f'
      | None, None => x = RUnwound /\ keeps f f'
      end
  | MModify k g d =>
      match f k with
      | Some v =>
          x = match snd (g v) with Done => RValue (fst (g v)) | Unwound => RUnwound end /\
          updates f k (Some (fst (g v))) f'
      | None => x = RValue d /\ updates f k (Some d) f'
      end
  | MEntryInsert k v => x = ROption (f k) /\ updates f k (Some v) f'
  | MEntryRemove k => x = ROption (f k) /\ updates f k None f'
  end.

(** The results [xs] of the history [ops] on the finite map [f] are as they
    should be and lead to [f']. *)
Fixpoint spec_ops {K V} (f : fmap K V) (ops : list (mop K V)) (xs : list (mobs K V))
  (f' : fmap K V) : Prop :=
  match ops, xs with
  | [], [] => keeps f f'
  | o :: ops, x :: xs => exists f1, spec_op f o x f1 /\ spec_ops f1 ops xs f'
  | _, _ => False
  end.

(** * Programs holding an entry *)

(** Calls on an occupied entry that keep it: [key()], [get()],
    [*get_mut() = w], [insert(w)]; and calls that consume it: dropping it,
    [*into_mut() = w], [remove()]. *)
Inductive eop (V : Type) : Type := EKey | EGet | EWrite (w : V) | EInsert (w : V).
Inductive efin (V : Type) : Type := EDrop | EIntoMut (w : V) | ERemove.
Arguments EKey {V}. Arguments EGet {V}. Arguments EWrite {V}. Arguments EInsert {V}.
Arguments EDrop {V}. Arguments EIntoMut {V}. Arguments ERemove {V}.

(** What to do with an entry: a program for the occupied case, and for the
    vacant case [None] (drop it) or [Some (v, w)] ([*insert(v) = w]). *)
Record eprog (V : Type) : Type := MkEprog {
  ep_ops : list (eop V);
  ep_fin : efin V;
  ep_vac : option (V * V)
}.
Arguments MkEprog {V}. Arguments ep_ops {V}. Arguments ep_fin {V}. Arguments ep_vac {V}.

(** What the calls return: the key, or the value read or handed back. *)
Inductive eobs (K V : Type) : Type := SKey (k : K) | SValue (v : V) | SUnit.
Arguments SKey {K V}. Arguments SValue {K V}. Arguments SUnit {K V}.

Section RunEntry.
  Context {K V : Type} (m : MapStorage K V).

  Definition run_eop (st : ms_St m) (o : ms_Occ m) (p : eop V) : res (eobs K V * ms_St m) :=
    match p with
    | EKey => res_map (fun k => (SKey k, st)) (ms_occ_key m st o)
    | EGet => res_map (fun v => (SValue v, st)) (ms_occ_get m st o)
    | EWrite w => res_bind (ms_occ_get_mut m st o) (fun r => res_map (pair SUnit) (assign m st r w))
    | EInsert w => res_map (fun '(v, st') => (SValue v, st')) (ms_occ_insert m st o w)
    end.

  Definition run_efin (st : ms_St m) (o : ms_Occ m) (p : efin V) : res (eobs K V * ms_St m) :=
    match p with
    | EDrop => Ok (SUnit, st)
    | EIntoMut w =>
        res_bind (ms_occ_into_mut m st o) (fun r => res_map (pair SUnit) (assign m st r w))
    | ERemove => res_map (fun '(v, st') => (SValue v, st')) (ms_occ_remove m st o)
    end.

  Fixpoint run_eops (st : ms_St m) (o : ms_Occ m) (ps : list (eop V)) (fin : efin V)
    : res (list (eobs K V) * ms_St m) :=
    match ps with
    | [] => res_map (fun '(x, st') => ([x], st')) (run_efin st o fin)
    | p :: ps =>
        res_bind (run_eop st o p) (fun '(x, st1) =>
        res_map (fun '(xs, st2) => (x :: xs, st2)) (run_eops st1 o ps fin))
    end.

  (** [entry(k)] followed by the program. *)
  Definition run_entry (st : ms_St m) (k : K) (p : eprog V) : res (list (eobs K V) * ms_St m) :=
    res_bind (map_entry m st k) (fun e =>
    match e with
    | Occupied o => run_eops st o (ep_ops p) (ep_fin p)
    | Vacant x =>
        match ep_vac p with
        | None => Ok ([], st)
        | Some (v, w) =>
            res_bind (ms_vac_insert m st x v) (fun '(r, st1) =>
            res_map (fun st2 => ([], st2)) (assign m st1 r w))
        end
    end).
End RunEntry.

(** The same on a plain value [v] stored under [k]: results and the value left
    ([None]: removed). *)
Definition spec_efin {K V} (v : V) (p : efin V) : eobs K V * option V :=
  match p with
  | EDrop => (SUnit, Some v)
  | EIntoMut w => (SUnit, Some w)
  | ERemove => (SValue v, None)
  end.

Fixpoint spec_eops {K V} (k : K) (v : V) (ps : list (eop V)) (fin : efin V)
  : list (eobs K V) * option V :=
  match ps with
  | [] => let '(x, o) := spec_efin v fin in ([x], o)
  | p :: ps =>
      let '(x, v') := match p with
                      | EKey => (SKey k, v)
                      | EGet => (SValue v, v)
                      | EWrite w => (SUnit, w)
                      | EInsert w => (SValue v, w)
                      end in
      let '(xs, o) := spec_eops k v' ps fin in (x :: xs, o)
  end.

(** The whole program, given what is stored under [k]. *)
Definition spec_entry {K V} (k : K) (cur : option V) (p : eprog V) : list (eobs K V) * option V :=
  match cur with
  | Some v => spec_eops k v (ep_ops p) (ep_fin p)
  | None => ([], option_map snd (ep_vac p))
  end.
