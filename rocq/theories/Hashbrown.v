(** Model of the external crate hashbrown, as used by
    src/map/storage/hashbrown.rs and src/set/storage/hashbrown.rs.

    Trusted: with lawful [Eq]/[Hash] keys a [HashMap] is a sequence of entries
    with pairwise different keys (the occupied buckets in table order).
    Lookups find the entry with an equal key; replacing a value, removing an
    entry and [retain] keep the order of the other entries; inserting a new key
    may reorder the table arbitrarily (bucket choice, growth, rehash). *)
Require Import List Arith Bool.
Import ListNotations.
From Verif Require Import Std Traits.

(** Insert [x] at position [n] of [l] (at the end if [n] is too large).  Used to
    describe the bucket order (src/map/storage/hashbrown.rs:185). *)
Fixpoint insert_at {A} (n : nat) (x : A) (l : list A) : list A :=
  match n, l with
  | S m, y :: r => y :: insert_at m x r
  | _, _ => x :: l
  end.

(** Rearrange [l] as directed by [ns]; every permutation of [l] is obtained by
    some [ns].  Models the bucket order after inserting a new key
    (src/map/storage/hashbrown.rs:185, src/set/storage/hashbrown.rs:85). *)
Fixpoint permute {A} (ns : list nat) (l : list A) : list A :=
  match ns, l with
  | n :: ns', x :: r => insert_at n x (permute ns' r)
  | _, _ => l
  end.

(** [hashbrown::HashMap], src/map/storage/hashbrown.rs:34-36: the occupied
    buckets in table order.  [ht_orders] stands for the hasher and the bucket
    placement: it tells how the table will be arranged each time a new key is
    added.  It is chosen arbitrarily when the table is created, so every order
    the crate can produce in an execution is covered by some choice. *)
Record htable (K V : Type) : Type := MkTable {
  ht_orders : nat -> list nat;
  ht_entries : list (K * V)
}.
Arguments MkTable {K V}.
Arguments ht_orders {K V}.
Arguments ht_entries {K V}.

Section Hash.
  Context {K V : Type}.
  (** [Eq] of the key type (src/map/storage/hashbrown.rs:121). *)
  Variable eqb : K -> K -> bool.

  (** Number of the bucket holding the key, if any
      (src/map/storage/hashbrown.rs:189-200). *)
  Fixpoint h_find (k : K) (t : list (K * V)) : option nat :=
    match t with
    | [] => None
    | (k', _) :: r => if eqb k k' then Some 0 else option_map S (h_find k r)
    end.

  (** [HashMap::get], src/map/storage/hashbrown.rs:194-196. *)
  Fixpoint h_get (k : K) (t : list (K * V)) : option V :=
    match t with
    | [] => None
    | (k', v) :: r => if eqb k k' then Some v else h_get k r
    end.

  (** Overwrite the value of an existing entry in place
      (src/map/storage/hashbrown.rs:185, 95). *)
  Fixpoint h_replace (k : K) (v : V) (t : list (K * V)) : list (K * V) :=
    match t with
    | [] => []
    | (k', v') :: r =>
        if eqb k k' then (k', v) :: r else (k', v') :: h_replace k v r
    end.

  (** Add a key that is not in the table, consuming one order
      (src/map/storage/hashbrown.rs:185, 115). *)
  Definition h_add (k : K) (v : V) (t : htable K V) : htable K V :=
    MkTable (fun n => ht_orders t (S n))
            (permute (ht_orders t 0) ((k, v) :: ht_entries t)).

  (** [HashMap::insert], src/map/storage/hashbrown.rs:184-186. *)
  Definition h_insert (k : K) (v : V) (t : htable K V)
    : option V * htable K V :=
    match h_get k (ht_entries t) with
    | Some old => (Some old, MkTable (ht_orders t) (h_replace k v (ht_entries t)))
    | None => (None, h_add k v t)
    end.

  (** Delete the entry of a key (src/map/storage/hashbrown.rs:204-206). *)
  Fixpoint h_delete (k : K) (t : list (K * V)) : list (K * V) :=
    match t with
    | [] => []
    | (k', v') :: r => if eqb k k' then r else (k', v') :: h_delete k r
    end.

  (** [HashMap::remove], src/map/storage/hashbrown.rs:204-206. *)
  Definition h_remove (k : K) (t : htable K V) : option V * htable K V :=
    (h_get k (ht_entries t), MkTable (ht_orders t) (h_delete k (ht_entries t))).

  (** [HashMap::retain], src/map/storage/hashbrown.rs:209-214: walks the
      buckets, erasing those for which the closure answers [false] (a bucket is
      erased before its value is dropped). *)
  Fixpoint h_retain_entries {S} (f : retain_fn S K V) (s : S) (t : list (K * V))
    : S * list (K * V) * outcome :=
    match t with
    | [] => (s, [], Done)
    | (k, v) :: r =>
        match f s k v with
        | (s1, v1, Keep) =>
            let '(s2, r2, o) := h_retain_entries f s1 r in (s2, (k, v1) :: r2, o)
        | (s1, v1, Discard) => h_retain_entries f s1 r
        | (s1, v1, Unwind) => (s1, (k, v1) :: r, Unwound)
        | (s1, v1, DiscardUnwind) => (s1, r, Unwound)
        end
    end.

  (** [HashMap::retain] on the whole table, src/map/storage/hashbrown.rs:209-214. *)
  Definition h_retain {S} (f : retain_fn S K V) (s : S) (t : htable K V)
    : S * htable K V * outcome :=
    let '(s1, l, o) := h_retain_entries f s (ht_entries t) in
    (s1, MkTable (ht_orders t) l, o).

  (** Dropping the entries of the buckets in order; when one destructor unwinds
      the remaining entries are not dropped (hashbrown's [RawTable::clear],
      src/map/storage/hashbrown.rs:217-219). *)
  Fixpoint h_drop_entries {D} (dr : drop_fn D V) (d : D) (t : list (K * V)) : D * outcome :=
    match t with
    | [] => (d, Done)
    | (_, v) :: r =>
        let '(d1, p) := dr d v in if p then (d1, Unwound) else h_drop_entries dr d1 r
    end.

  (** [HashMap::clear], src/map/storage/hashbrown.rs:217-219: a guard empties the
      table even when a destructor unwinds, leaking what was not dropped. *)
  Definition h_clear_drop {D} (dr : drop_fn D V) (d : D) (t : htable K V)
    : D * htable K V * outcome :=
    let '(d1, o) := h_drop_entries dr d (ht_entries t) in
    (d1, MkTable (ht_orders t) [], o).

  (** Cloning the entries bucket by bucket (hashbrown's [RawTable::clone],
      src/map/storage/hashbrown.rs:43-48). *)
  Fixpoint h_clone_entries {S} (f : clone_fn S V) (s : S) (t : list (K * V))
    : S * option (list (K * V)) :=
    match t with
    | [] => (s, Some [])
    | (k, v) :: r =>
        match f s v with
        | (s1, None) => (s1, None)
        | (s1, Some v1) =>
            let '(s2, r2) := h_clone_entries f s1 r in (s2, option_map (cons (k, v1)) r2)
        end
    end.

  (** [HashMap::clone], src/map/storage/hashbrown.rs:43-48: the copy has the
      buckets and the hasher of the original. *)
  Definition h_clone_with {S} (f : clone_fn S V) (s : S) (t : htable K V)
    : S * option (htable K V) :=
    let '(s1, l) := h_clone_entries f s (ht_entries t) in
    (s1, option_map (MkTable (ht_orders t)) l).

  (** The same with the clones made so far, in order (hashbrown's [RawTable::clone] counts
      the buckets it has filled; src/map/storage/hashbrown.rs:43-48). *)
  Fixpoint h_clone_made {S} (f : clone_fn S V) (s : S) (t : list (K * V))
    : S * list (K * V) * option (list (K * V)) :=
    match t with
    | [] => (s, [], Some [])
    | (k, v) :: r =>
        match f s v with
        | (s1, None) => (s1, [], None)
        | (s1, Some v1) =>
            let '(s2, made, r2) := h_clone_made f s1 r in
            (s2, (k, v1) :: made, option_map (cons (k, v1)) r2)
        end
    end.

  (** [HashMap::clone], src/map/storage/hashbrown.rs:43-48, with the guard that drops the
      filled buckets of the copy when a clone unwinds. *)
  Definition h_clone_undo {S} (f : clone_fn S V) (dr : drop_fn S V) (s : S) (t : htable K V)
    : S * option (htable K V) :=
    match h_clone_made f s (ht_entries t) with
    | (s1, _, Some l) => (s1, Some (MkTable (ht_orders t) l))
    | (s1, made, None) => (fst (table_drop (fun s e => dr s (snd e)) s1 made), None)
    end.

  (** Dropping the table, src/map/storage/hashbrown.rs:34-36. *)
  Definition h_drop_table {D} (dr : drop_fn D V) (d : D) (t : htable K V) : D * bool :=
    table_drop (fun d e => dr d (snd e)) d (ht_entries t).

  (** Reading the value of bucket [i] through a reference to it
      (src/map/storage/hashbrown.rs:199-201). *)
  Definition h_load (t : list (K * V)) (i : nat) : option V :=
    option_map snd (nth_error t i).

  (** Assigning the value of bucket [i] through a reference to it
      (src/map/storage/hashbrown.rs:199-201). *)
  Fixpoint h_store (t : list (K * V)) (i : nat) (v : V) : option (list (K * V)) :=
    match t, i with
    | [], _ => None
    | (k, _) :: r, 0 => Some ((k, v) :: r)
    | e :: r, S j => option_map (cons e) (h_store r j v)
    end.

  (** Removing bucket [i] (occupied entry, src/map/storage/hashbrown.rs:99-101). *)
  Fixpoint h_take (t : list (K * V)) (i : nat) : option (K * V * list (K * V)) :=
    match t, i with
    | [], _ => None
    | (k, v) :: r, 0 => Some (k, v, r)
    | e :: r, S j =>
        match h_take r j with
        | Some (k, v, r') => Some (k, v, e :: r')
        | None => None
        end
    end.

  (** [HashMap == HashMap], src/map/storage/hashbrown.rs:57-59: same length and
      every entry of one has an equal value in the other. *)
  Definition h_eq (veq : V -> V -> bool) (a b : list (K * V)) : bool :=
    Nat.eqb (length a) (length b) &&
    forallb (fun e => match h_get (fst e) b with
                      | Some v => veq (snd e) v
                      | None => false
                      end) a.

  (** [iter().all(..)] of [HashMap == HashMap] (src/map/storage/hashbrown.rs:57-59)
      with the calls of [V::eq] visible: bucket by bucket, until one answer is
      [false]. *)
  Fixpoint h_eq_entries {S} (f : eq_fn S V) (s : S) (a b : list (K * V)) : S * option bool :=
    match a with
    | [] => (s, Some true)
    | (k, v) :: r =>
        match h_get k b with
        | None => (s, Some false)
        | Some w => eq_and (f s v w) (fun s1 => h_eq_entries f s1 r b)
        end
    end.

  (** [HashMap == HashMap], src/map/storage/hashbrown.rs:57-59, with the calls of
      [V::eq] visible: none when the lengths differ. *)
  Definition h_eq_with {S} (f : eq_fn S V) (s : S) (a b : list (K * V)) : S * option bool :=
    if Nat.eqb (length a) (length b) then h_eq_entries f s a b else (s, Some false).

  (** References to the values of all buckets, in table order, numbered from
      [i] (src/map/storage/hashbrown.rs:238-246). *)
  Fixpoint h_refs (i : nat) (t : list (K * V)) : list (K * ref) :=
    match t with
    | [] => []
    | (k, _) :: r => (k, [i]) :: h_refs (S i) r
    end.
End Hash.
