(** src/option_bucket.rs: unsafe access to options known to be Some / None. *)
Require Import List.
From Verif Require Import Std Traits.

(** Memory made of [Option<V>] places inside a storage: what a
    [&mut Option<V>] (src/option_bucket.rs:110, 305) can read and write.
    [None] means the reference does not point to an [Option<V>] place. *)
Record cells (St V : Type) : Type := MkCells {
  cell_get : St -> ref -> option (option V);
  cell_set : St -> ref -> option V -> option St
}.
Arguments MkCells {St V}.
Arguments cell_get {St V}.
Arguments cell_set {St V}.

(** [struct SomeBucket { outer: &mut Option<T> }], src/option_bucket.rs:109-111. *)
Record some_bucket : Type := MkSomeBucket { sb_outer : ref }.

(** [struct NoneBucket { outer: &mut Option<T> }], src/option_bucket.rs:304-306. *)
Record none_bucket : Type := MkNoneBucket { nb_outer : ref }.

(** [enum OptionBucket], src/option_bucket.rs:388-393. *)
Inductive option_bucket : Type :=
| OBSome (b : some_bucket)
| OBNone (b : none_bucket).

Section Buckets.
  Context {St V : Type} (c : cells St V).

  (** Reading [*outer]; a dangling reference is UB.  Used by every method of
      src/option_bucket.rs:113-421. *)
  Definition cell_read (st : St) (r : ref) : res (option V) :=
    match cell_get c st r with Some o => Ok o | None => UB end.

  (** Overwriting [*outer] (dropping the old content).  src/option_bucket.rs:260. *)
  Definition cell_write (st : St) (r : ref) (o : option V) : res St :=
    match cell_set c st r o with Some st' => Ok st' | None => UB end.

  (** [Option::unwrap_unchecked], src/option_bucket.rs:166, 187, 220, 260, 366. *)
  Definition unwrap_unchecked {A} (o : option A) : res A :=
    match o with Some a => Ok a | None => UB end.

  (** [SomeBucket::new_unchecked], src/option_bucket.rs:124-131. *)
  Definition some_new_unchecked (st : St) (opt : ref) : res some_bucket :=
    res_bind (cell_read st opt) (fun o =>
      if is_some o then Ok (MkSomeBucket opt) else UB).

  (** [SomeBucket::new], src/option_bucket.rs:138-145. *)
  Definition some_new (st : St) (opt : ref) : res (option some_bucket) :=
    res_bind (cell_read st opt) (fun o =>
      if is_some o then res_map Some (some_new_unchecked st opt) else Ok None).

  (** [SomeBucket::as_ref], src/option_bucket.rs:163-167. *)
  Definition some_as_ref (st : St) (b : some_bucket) : res V :=
    res_bind (cell_read st (sb_outer b)) unwrap_unchecked.

  (** [SomeBucket::as_mut], src/option_bucket.rs:184-188.  A reference to the
      content of an option has the same path as the option. *)
  Definition some_as_mut (st : St) (b : some_bucket) : res ref :=
    res_bind (cell_read st (sb_outer b)) (fun o =>
      res_map (fun _ => sb_outer b) (unwrap_unchecked o)).

  (** [SomeBucket::into_mut], src/option_bucket.rs:217-221. *)
  Definition some_into_mut (st : St) (b : some_bucket) : res ref :=
    res_bind (cell_read st (sb_outer b)) (fun o =>
      res_map (fun _ => sb_outer b) (unwrap_unchecked o)).

  (** [SomeBucket::replace], src/option_bucket.rs:239-241:
      [mem::replace(self.as_mut(), value)]. *)
  Definition some_replace (st : St) (b : some_bucket) (value : V)
    : res (V * St) :=
    res_bind (some_as_mut st b) (fun r =>
    res_bind (cell_read st r) (fun o =>
    res_bind (unwrap_unchecked o) (fun old =>
    res_bind (cell_write st r (Some value)) (fun st' => Ok (old, st'))))).

  (** [SomeBucket::take], src/option_bucket.rs:257-261. *)
  Definition some_take (st : St) (b : some_bucket) : res (V * St) :=
    res_bind (cell_read st (sb_outer b)) (fun o =>
    res_bind (cell_write st (sb_outer b) None) (fun st' =>
    res_bind (unwrap_unchecked o) (fun old => Ok (old, st')))).

  (** [NoneBucket::new_unchecked], src/option_bucket.rs:319-326. *)
  Definition none_new_unchecked (st : St) (opt : ref) : res none_bucket :=
    res_bind (cell_read st opt) (fun o =>
      if is_none o then Ok (MkNoneBucket opt) else UB).

  (** [NoneBucket::new], src/option_bucket.rs:333-340. *)
  Definition none_new (st : St) (opt : ref) : res (option none_bucket) :=
    res_bind (cell_read st opt) (fun o =>
      if is_none o then res_map Some (none_new_unchecked st opt) else Ok None).

  (** [NoneBucket::insert], src/option_bucket.rs:358-367: [write] does not drop
      the old content, so overwriting a [Some] leaks it. *)
  Definition none_insert (st : St) (b : none_bucket) (value : V)
    : res (ref * St) :=
    res_bind (cell_read st (nb_outer b)) (fun o =>
      match o with
      | Some _ => Leak
      | None =>
          res_bind (cell_write st (nb_outer b) (Some value)) (fun st' =>
          res_bind (cell_read st' (nb_outer b)) (fun o' =>
          res_map (fun _ => (nb_outer b, st')) (unwrap_unchecked o')))
      end).

  (** [OptionBucket::new], src/option_bucket.rs:412-420. *)
  Definition option_bucket_new (st : St) (opt : ref) : res option_bucket :=
    res_bind (cell_read st opt) (fun o =>
      if is_some o
      then res_map OBSome (some_new_unchecked st opt)
      else res_map OBNone (none_new_unchecked st opt)).

  (** Reading through a [&mut V] that points into an option place
      (e.g. the result of src/map/storage/boolean.rs:271-277). *)
  Definition cell_load (st : St) (r : ref) : option V :=
    match cell_get c st r with Some (Some v) => Some v | _ => None end.

  (** Assigning through such a [&mut V] (e.g. the result of
      src/map/storage/boolean.rs:271-277). *)
  Definition cell_store (st : St) (r : ref) (v : V) : option St :=
    match cell_get c st r with
    | Some (Some _) => cell_set c st r (Some v)
    | _ => None
    end.
End Buckets.

(** [Option::as_mut] on the option at path [r] with content [o]: the reference
    inside, if any (e.g. src/map/storage/singleton.rs:91). *)
Definition opt_as_mut {V} (r : ref) (o : option V) : option ref :=
  match o with Some _ => Some r | None => None end.

(** [place = None] on one option place (e.g. src/map/storage/singleton.rs:113):
    drops the old value; the assignment takes place even when that unwinds. *)
Definition drop_cell {D V} (dr : drop_fn D V) (d : D) (o : option V)
  : D * option V * outcome :=
  match o with
  | None => (d, None, Done)
  | Some v => let '(d', p) := dr d v in (d', None, if p then Unwound else Done)
  end.

(** [Clone] of [Option<V>] (e.g. derived at src/map/storage/singleton.rs:6). *)
Definition clone_cell {S V} (f : clone_fn S V) (s : S) (o : option V)
  : S * option (option V) :=
  match o with
  | None => (s, Some None)
  | Some v => let '(s', r) := f s v in (s', option_map Some r)
  end.

(** [==] of [Option<V>] (e.g. src/map/storage/singleton.rs:17). *)
Definition eq_cell {S V} (f : eq_fn S V) (s : S) (a b : option V) : S * option bool :=
  match a, b with
  | Some v, Some w => f s v w
  | None, None => (s, Some true)
  | _, _ => (s, Some false)
  end.

(** [if !func(key, val) { place = None }] on one option place, the pattern of
    every [retain] (e.g. src/map/storage/singleton.rs:104-108): runs the closure
    when the place is filled.  An unwinding closure leaves the place filled
    with the value it had written; when dropping the old value unwinds, the
    assignment of [None] still takes place. *)
Definition retain_cell {S K V} (f : retain_fn S K V) (s : S) (k : K)
  (o : option V) : S * option V * outcome :=
  match o with
  | None => (s, None, Done)
  | Some v =>
      match f s k v with
      | (s', v', Keep) => (s', Some v', Done)
      | (s', v', Discard) => (s', None, Done)
      | (s', v', Unwind) => (s', Some v', Unwound)
      | (s', v', DiscardUnwind) => (s', None, Unwound)
      end
  end.
