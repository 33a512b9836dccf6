(** Parts of the Rust standard library used by fixed-map.

    These definitions model [core], not code of /repo; every comment cites the
    place in /repo where the item is used.  Their behaviour is trusted. *)
Require Import List Arith NArith ZArith.
Import ListNotations.

(** Result of code containing [unsafe] blocks or panics.
    - [UB]: an unsafe precondition was violated
      (src/option_bucket.rs:124-131, 166, 187, 220, 260, 319-326, 366);
    - [Leak]: [ptr::write] overwrote a live value without dropping it
      (src/option_bucket.rs:360-363);
    - [Panic]: a panic raised by std ([Ord::clamp], src/map.rs:1241-1243). *)
Inductive res (A : Type) : Type :=
| Ok (a : A)
| UB
| Leak
| Panic.
Arguments Ok {A} a.
Arguments UB {A}.
Arguments Leak {A}.
Arguments Panic {A}.

(** Sequencing of the above (ordinary control flow). Models no line. *)
Definition res_bind {A B} (r : res A) (f : A -> res B) : res B :=
  match r with
  | Ok a => f a
  | UB => UB
  | Leak => Leak
  | Panic => Panic
  end.

(** Map over a successful result (ordinary control flow). Models no line. *)
Definition res_map {A B} (f : A -> B) (r : res A) : res B :=
  res_bind r (fun a => Ok (f a)).

(** A mutable reference [&mut V] (or [&mut Option<V>]) into a storage: the path
    of struct fields / array indices / hash table slots leading to the place.
    Used for src/map.rs:361 (iter_mut), 432 (values_mut), 544 (get_mut),
    src/option_bucket.rs:109-111, 304-306.  Simplification: lifetimes are not
    modelled; the storage is passed next to the reference. *)
Definition ref := list nat.

(** Randomness chosen when a storage is created ([HashMap::new] picks a random
    hasher, src/map/storage/hashbrown.rs:169): for every hash table inside the
    storage (given by its path of struct fields) a sequence of bucket orders, see
    Hashbrown.v. *)
Definition world := list nat -> nat -> list nat.

(** The randomness of the struct field number [i]
    (e.g. src/map/storage/option.rs:255-260). *)
Definition sub_world (i : nat) (w : world) : world := fun p => w (i :: p).

(** Answer of a [retain] closure (src/map.rs:666, src/set.rs:328): [true],
    [false], or unwinding out of the call.  [DiscardUnwind] is [false] for a value
    whose destructor, run when [retain] removes the entry, unwinds; a set drops
    nothing (keys are [Copy], src/key.rs:36), so there it is the same as
    [Discard]. *)
Inductive answer : Type := Keep | Discard | Unwind | DiscardUnwind.

(** How a [retain] call ended: returned normally or unwound. *)
Inductive outcome : Type := Done | Unwound.

(** [Option::is_some] (e.g. src/map/storage/singleton.rs:66). *)
Definition is_some {A} (o : option A) : bool :=
  match o with Some _ => true | None => false end.

(** [Option::is_none] (e.g. src/map/storage/singleton.rs:71). *)
Definition is_none {A} (o : option A) : bool :=
  match o with Some _ => false | None => true end.

(** [usize::from(bool)] (e.g. src/map/storage/singleton.rs:66). *)
Definition usize_from (b : bool) : nat := if b then 1 else 0.

(** Derived [PartialEq] of [Option<V>]
    (e.g. src/map/storage/singleton.rs:17). *)
Definition option_eq {A} (eq : A -> A -> bool) (a b : option A) : bool :=
  match a, b with
  | Some x, Some y => eq x y
  | None, None => true
  | _, _ => false
  end.

(** [mem::replace] (src/set/storage/boolean.rs:141) and [Option::replace]
    (src/map/storage/singleton.rs:76): new place content and old one. *)
Definition mem_replace {A} (place new : A) : A * A := (place, new).

(** * Destructors *)

(** The destructor of [V] (run by src/map/storage.rs:98): changes the surroundings
    and may unwind ([true]). *)
Definition drop_fn (D V : Type) : Type := D -> V -> D * bool.

(** Dropping one thing after another, as the fields of a struct (e.g.
    src/map/storage/boolean.rs:73-77): a destructor that unwinds does not stop that.
    Whether anything unwound.  Simplification: a second destructor that unwinds would
    abort the process; callers that care give a destructor that does nothing then. *)
Definition then_drop {D} (x : D * bool) (next : D -> D * bool) : D * bool :=
  let '(d1, p) := x in let '(d2, q) := next d1 in (d2, orb p q).

(** Dropping an [Option<V>] (e.g. src/map/storage/singleton.rs:8). *)
Definition opt_drop {D V} (dr : drop_fn D V) (d : D) (o : option V) : D * bool :=
  match o with None => (d, false) | Some v => dr d v end.

(** Dropping the elements of an array or slice, in order
    (fixed-map-derive/src/unit_variants.rs:170-172). *)
Fixpoint slice_drop {D A} (dr : D -> A -> D * bool) (d : D) (l : list A) : D * bool :=
  match l with
  | [] => (d, false)
  | x :: r => then_drop (dr d x) (fun d1 => slice_drop dr d1 r)
  end.

(** Dropping the entries of a hash table in order (src/map/storage/hashbrown.rs:34-36,
    and its [IntoIter], 248-251): hashbrown's loop stops at a destructor that unwinds,
    and the entries after it are leaked. *)
Fixpoint table_drop {D A} (dr : D -> A -> D * bool) (d : D) (l : list A) : D * bool :=
  match l with
  | [] => (d, false)
  | x :: r => let '(d1, p) := dr d x in if p then (d1, true) else table_drop dr d1 r
  end.

(** * Iterators *)

(** An iterator type: [Iterator::next], [DoubleEndedIterator::next_back] when
    that trait is implemented, [Iterator::size_hint] and [Clone::clone].
    Used by the associated types of src/map/storage.rs:26-61 and
    src/set/storage.rs:23-29.  Simplification: [it_clone] is given for every
    iterator, also for the mutable ones, which do not implement [Clone]; cloning
    an item that is owned by the iterator is taken to be a copy.  [it_drop] drops the
    items an owning iterator still holds, when the iterator is dropped; for the others
    it has no meaning and is not used. *)
Record iterator (A : Type) : Type := MkIterator {
  it_st : Type;
  it_next : it_st -> option A * it_st;
  it_back : option (it_st -> option A * it_st);
  it_hint : it_st -> nat * option nat;
  it_clone : it_st -> it_st;
  it_drop : forall D : Type, drop_fn D A -> D -> it_st -> D * bool
}.
Arguments MkIterator {A}.
Arguments it_st {A}.
Arguments it_next {A}.
Arguments it_back {A}.
Arguments it_hint {A}.
Arguments it_clone {A}.
Arguments it_drop {A} i {D}.

(** [core::option::IntoIter] / [Iter] / [IterMut]
    (src/map/storage/singleton.rs:28-47): [next] and [next_back] take the
    option. *)
Definition opt_take {A} (s : option A) : option A * option A := (s, None).

(** Derived [Clone] of the option iterators
    (src/map/storage/singleton.rs:28-47). *)
Definition opt_clone {A} (s : option A) : option A :=
  match s with Some x => Some x | None => None end.

(** The option iterators as an [iterator]
    (src/map/storage/singleton.rs:28-47). *)
Definition opt_it (A : Type) : iterator A := {|
  it_st := option A;
  it_next := opt_take;
  it_back := Some opt_take;
  it_hint := fun s => let n := usize_from (is_some s) in (n, Some n);
  it_clone := opt_clone;
  it_drop := fun D dr d s => opt_drop dr d s
|}.

(** Front and back of a sequence: how slice and array iterators proceed
    (fixed-map-derive/src/unit_variants.rs:333-364). *)
Definition pop_front {A} (l : list A) : option A * list A :=
  match l with
  | [] => (None, [])
  | x :: r => (Some x, r)
  end.

(** Iteration over a hash table (src/map/storage/hashbrown.rs:222-251): forward
    only, exact size. *)
Definition hash_it (A : Type) : iterator A := {|
  it_st := list A;
  it_next := pop_front;
  it_back := None;
  it_hint := fun s => (length s, Some (length s));
  it_clone := fun s => s;
  it_drop := fun D dr d s => table_drop dr d s
|}.

(** One step of [Iterator::map] (e.g. src/map/storage/option.rs:332-338). *)
Definition map_step {A B S} (f : A -> B) (r : option A * S) : option B * S :=
  (option_map f (fst r), snd r).

(** [core::iter::Map] as an [iterator]
    (e.g. src/map/storage/option.rs:332-338). *)
Definition map_it {A B} (f : A -> B) (i : iterator A) : iterator B := {|
  it_st := it_st i;
  it_next := fun s => map_step f (it_next i s);
  it_back := option_map (fun b s => map_step f (b s)) (it_back i);
  it_hint := it_hint i;
  it_clone := it_clone i;
  it_drop := fun D dr d s => it_drop i (fun d x => dr d (f x)) d s
|}.

(** [and_then_or_clear] of core's [Chain] and [Flatten]: poll an optional
    iterator, dropping it once it is exhausted
    (used through src/map/storage/option.rs:332-338). *)
Definition poll_or_clear {A S} (step : S -> option A * S) (s : option S)
  : option A * option S :=
  match s with
  | None => (None, None)
  | Some s0 =>
      match step s0 with
      | (Some x, s1) => (Some x, Some s1)
      | (None, _) => (None, None)
      end
  end.

(** Plain poll of an optional iterator: [self.b.as_mut()?.next()]
    (used through src/map/storage/option.rs:332-338). *)
Definition poll {A S} (step : S -> option A * S) (s : option S)
  : option A * option S :=
  match s with
  | None => (None, None)
  | Some s0 => let '(x, s1) := step s0 in (x, Some s1)
  end.

(** [Chain::next] (src/map/storage/option.rs:332-338,
    src/map/storage/boolean.rs:312-318). *)
Definition chain_next {A} (a b : iterator A)
  (s : option (it_st a) * option (it_st b))
  : option A * (option (it_st a) * option (it_st b)) :=
  match poll_or_clear (it_next a) (fst s) with
  | (Some x, sa) => (Some x, (sa, snd s))
  | (None, sa) => let '(x, sb) := poll (it_next b) (snd s) in (x, (sa, sb))
  end.

(** [Chain::next_back] (src/map/storage/option.rs:332-338). *)
Definition chain_back {A} (a b : iterator A)
  (back_a : it_st a -> option A * it_st a)
  (back_b : it_st b -> option A * it_st b)
  (s : option (it_st a) * option (it_st b))
  : option A * (option (it_st a) * option (it_st b)) :=
  match poll_or_clear back_b (snd s) with
  | (Some x, sb) => (Some x, (fst s, sb))
  | (None, sb) => let '(x, sa) := poll back_a (fst s) in (x, (sa, sb))
  end.

(** [size_hint] of two optional iterators run after one another: sum of the
    bounds, upper bound missing if either is missing
    (used through src/map/storage/option.rs:332-338).  Simplification: no
    [usize] overflow. *)
Definition hint_opt {A} (i : iterator A) (s : option (it_st i))
  : nat * option nat :=
  match s with None => (0, Some 0) | Some s0 => it_hint i s0 end.

(** Sum of two size hints (see above; src/map/storage/option.rs:332-338). *)
Definition hint_add (h1 h2 : nat * option nat) : nat * option nat :=
  (fst h1 + fst h2,
   match snd h1, snd h2 with
   | Some a, Some b => Some (a + b)
   | _, _ => None
   end).

(** Dropping an optional iterator (a field of core's [Chain],
    src/map/storage/option.rs:332-338). *)
Definition drop_some {A D} (i : iterator A) (dr : drop_fn D A) (d : D) (s : option (it_st i))
  : D * bool :=
  match s with None => (d, false) | Some s0 => it_drop i dr d s0 end.

(** [core::iter::Chain] as an [iterator] (src/map/storage/option.rs:332-338,
    src/map/storage/boolean.rs:312-318). *)
Definition chain_it {A} (a b : iterator A) : iterator A := {|
  it_st := option (it_st a) * option (it_st b);
  it_next := chain_next a b;
  it_back := match it_back a, it_back b with
             | Some ba, Some bb => Some (chain_back a b ba bb)
             | _, _ => None
             end;
  it_hint := fun s => hint_add (hint_opt a (fst s)) (hint_opt b (snd s));
  it_clone := fun s => (option_map (it_clone a) (fst s), option_map (it_clone b) (snd s));
  it_drop := fun D dr d s =>
    then_drop (drop_some a dr d (fst s)) (fun d1 => drop_some b dr d1 (snd s))
|}.

(** State of [core::iter::Flatten] / [FlatMap] over an array (or slice)
    iterator of options (fixed-map-derive/src/unit_variants.rs:333-364): the
    remaining array items, the front inner iterator, the back inner iterator.
    Simplification for [FlatMap]: the closure is applied when the iterator is
    created; it is pure at all use sites. *)
Record flatten_st (A : Type) : Type := MkFlatten {
  fl_items : list (option A);
  fl_front : option (option A);
  fl_back : option (option A)
}.
Arguments MkFlatten {A}.
Arguments fl_items {A}.
Arguments fl_front {A}.
Arguments fl_back {A}.

(** [FlattenCompat::next]: the part after the front iterator is exhausted
    (used by fixed-map-derive/src/unit_variants.rs:333-364). *)
Fixpoint flatten_next_items {A} (items : list (option A))
  (back : option (option A)) : option A * flatten_st A :=
  match items with
  | [] =>
      let '(x, b) := poll_or_clear opt_take back in
      (x, MkFlatten [] None b)
  | inner :: rest =>
      match poll_or_clear opt_take (Some inner) with
      | (Some x, f) => (Some x, MkFlatten rest f back)
      | (None, _) => flatten_next_items rest back
      end
  end.

(** [FlattenCompat::next]
    (used by fixed-map-derive/src/unit_variants.rs:333-364). *)
Definition flatten_next {A} (s : flatten_st A) : option A * flatten_st A :=
  match poll_or_clear opt_take (fl_front s) with
  | (Some x, f) => (Some x, MkFlatten (fl_items s) f (fl_back s))
  | (None, _) => flatten_next_items (fl_items s) (fl_back s)
  end.

(** [FlattenCompat::next_back], on the reversed remaining items
    (used by fixed-map-derive/src/unit_variants.rs:333-364). *)
Fixpoint flatten_back_items {A} (rev_items : list (option A))
  (front : option (option A)) : option A * flatten_st A :=
  match rev_items with
  | [] =>
      let '(x, f) := poll_or_clear opt_take front in
      (x, MkFlatten [] f None)
  | inner :: rest =>
      match poll_or_clear opt_take (Some inner) with
      | (Some x, b) => (Some x, MkFlatten (rev rest) front b)
      | (None, _) => flatten_back_items rest front
      end
  end.

(** [FlattenCompat::next_back]
    (used by fixed-map-derive/src/unit_variants.rs:333-364). *)
Definition flatten_back {A} (s : flatten_st A) : option A * flatten_st A :=
  match poll_or_clear opt_take (fl_back s) with
  | (Some x, b) => (Some x, MkFlatten (fl_items s) (fl_front s) b)
  | (None, _) => flatten_back_items (rev (fl_items s)) (fl_front s)
  end.

(** [FlattenCompat::size_hint]: exact knowledge only once the outer iterator
    is exhausted (used by fixed-map-derive/src/unit_variants.rs:333-364).  Newer
    std versions give tighter bounds for options. *)
Definition flatten_hint {A} (s : flatten_st A) : nat * option nat :=
  let h := hint_add (hint_opt (opt_it A) (fl_front s))
                    (hint_opt (opt_it A) (fl_back s)) in
  match fl_items s with
  | [] => h
  | _ :: _ => (fst h, None)
  end.

(** Derived [Clone] of [Flatten] / [FlatMap]
    (used by fixed-map-derive/src/unit_variants.rs:333-364). *)
Definition flatten_clone {A} (s : flatten_st A) : flatten_st A :=
  MkFlatten (List.map opt_clone (fl_items s)) (option_map opt_clone (fl_front s))
    (option_map opt_clone (fl_back s)).

(** Dropping [Flatten] / [FlatMap]: the fields are the outer iterator, the front and the
    back one (used by fixed-map-derive/src/unit_variants.rs:333-364). *)
Definition flatten_drop {A D} (dr : drop_fn D A) (d : D) (s : flatten_st A) : D * bool :=
  then_drop (slice_drop (opt_drop dr) d (fl_items s)) (fun d1 =>
    then_drop (opt_drop (opt_drop dr) d1 (fl_front s)) (fun d2 =>
      opt_drop (opt_drop dr) d2 (fl_back s))).

(** [Flatten] / [FlatMap] as an [iterator]
    (used by fixed-map-derive/src/unit_variants.rs:333-364). *)
Definition flatten_it (A : Type) : iterator A := {|
  it_st := flatten_st A;
  it_next := flatten_next;
  it_back := Some flatten_back;
  it_hint := flatten_hint;
  it_clone := flatten_clone;
  it_drop := fun D dr d s => flatten_drop dr d s
|}.

(** [Iterator::flatten(IntoIterator::into_iter([..]))]
    (fixed-map-derive/src/unit_variants.rs:341, 507). *)
Definition flatten_of {A} (items : list (option A)) : flatten_st A :=
  MkFlatten items None None.

(** * Fixed-width unsigned integers *)

(** [!x] on a [w]-bit unsigned integer (src/set/storage/boolean.rs:76, 152,
    fixed-map-derive/src/unit_variants.rs:480). *)
Definition not_bits (w x : N) : N := N.lxor x (N.ones w).

(** [count_ones] (src/set/storage/boolean.rs:89,
    fixed-map-derive/src/unit_variants.rs:457). *)
Fixpoint pos_ones (p : positive) : nat :=
  match p with
  | xH => 1
  | xO q => pos_ones q
  | xI q => S (pos_ones q)
  end.

(** [count_ones] (src/set/storage/boolean.rs:89). *)
Definition count_ones (x : N) : nat :=
  match x with N0 => 0 | Npos p => pos_ones p end.

(** * Comparison helpers *)

(** [Iterator::partial_cmp] (src/macro_support.rs:29, 59): lexicographic. *)
Fixpoint iter_partial_cmp {A} (cmp : A -> A -> option comparison)
  (a b : list A) : option comparison :=
  match a, b with
  | [], [] => Some Eq
  | [], _ :: _ => Some Lt
  | _ :: _, [] => Some Gt
  | x :: a', y :: b' =>
      match cmp x y with
      | Some Eq => iter_partial_cmp cmp a' b'
      | o => o
      end
  end.

(** [Iterator::cmp] (src/macro_support.rs:42, 71): lexicographic. *)
Fixpoint iter_cmp {A} (cmp : A -> A -> comparison) (a b : list A)
  : comparison :=
  match a, b with
  | [], [] => Eq
  | [], _ :: _ => Lt
  | _ :: _, [] => Gt
  | x :: a', y :: b' =>
      match cmp x y with
      | Eq => iter_cmp cmp a' b'
      | o => o
      end
  end.

(** [PartialOrd] of pairs [(usize, &T)] (src/macro_support.rs:29). *)
Definition pair_partial_cmp {A B} (ca : A -> A -> option comparison)
  (cb : B -> B -> option comparison) (x y : A * B) : option comparison :=
  match ca (fst x) (fst y) with
  | Some Eq => cb (snd x) (snd y)
  | o => o
  end.

(** [Ord] of pairs [(usize, &T)] (src/macro_support.rs:42). *)
Definition pair_cmp {A B} (ca : A -> A -> comparison)
  (cb : B -> B -> comparison) (x y : A * B) : comparison :=
  match ca (fst x) (fst y) with
  | Eq => cb (snd x) (snd y)
  | o => o
  end.

(** [Iterator::partial_cmp] (src/macro_support.rs:29) with a comparison that has
    effects and may unwind ([None]): stops at the first pair that is not equal. *)
Fixpoint iter_partial_cmp_with {S A}
  (cmp : S -> A -> A -> S * option (option comparison)) (s : S) (a b : list A)
  : S * option (option comparison) :=
  match a, b with
  | [], [] => (s, Some (Some Eq))
  | [], _ :: _ => (s, Some (Some Lt))
  | _ :: _, [] => (s, Some (Some Gt))
  | x :: a', y :: b' =>
      match cmp s x y with
      | (s1, Some (Some Eq)) => iter_partial_cmp_with cmp s1 a' b'
      | o => o
      end
  end.

(** [Iterator::cmp] (src/macro_support.rs:42) likewise. *)
Fixpoint iter_cmp_with {S A} (cmp : S -> A -> A -> S * option comparison) (s : S)
  (a b : list A) : S * option comparison :=
  match a, b with
  | [], [] => (s, Some Eq)
  | [], _ :: _ => (s, Some Lt)
  | _ :: _, [] => (s, Some Gt)
  | x :: a', y :: b' =>
      match cmp s x y with
      | (s1, Some Eq) => iter_cmp_with cmp s1 a' b'
      | o => o
      end
  end.

(** [PartialOrd] of pairs [(usize, &T)] (src/macro_support.rs:29) where the
    comparison of [T] has effects. *)
Definition pair_partial_cmp_with {S B} (cb : S -> B -> B -> S * option (option comparison))
  (s : S) (x y : nat * B) : S * option (option comparison) :=
  match Nat.compare (fst x) (fst y) with
  | Eq => cb s (snd x) (snd y)
  | o => (s, Some (Some o))
  end.

(** [Ord] of pairs [(usize, &T)] (src/macro_support.rs:42) likewise. *)
Definition pair_cmp_with {S B} (cb : S -> B -> B -> S * option comparison)
  (s : S) (x y : nat * B) : S * option comparison :=
  match Nat.compare (fst x) (fst y) with
  | Eq => cb s (snd x) (snd y)
  | o => (s, Some o)
  end.

(** [Ord] of [bool] (src/macro_support.rs:71,
    src/set/storage/singleton.rs:7). *)
Definition bool_cmp (a b : bool) : comparison :=
  match a, b with
  | false, true => Lt
  | true, false => Gt
  | _, _ => Eq
  end.

(** [Iterator::enumerate] with a running index (src/macro_support.rs:27). *)
Fixpoint enumerate_from {A} (n : nat) (l : list A) : list (nat * A) :=
  match l with
  | [] => []
  | x :: r => (n, x) :: enumerate_from (S n) r
  end.

(** [Iterator::enumerate] (src/macro_support.rs:27). *)
Definition enumerate {A} (l : list A) : list (nat * A) := enumerate_from 0 l.

(** [Iterator::filter_map] over a finite sequence (src/macro_support.rs:27). *)
Fixpoint filter_map {A B} (f : A -> option B) (l : list A) : list B :=
  match l with
  | [] => []
  | x :: r => match f x with
              | Some y => y :: filter_map f r
              | None => filter_map f r
              end
  end.
