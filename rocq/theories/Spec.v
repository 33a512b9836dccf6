(** Vocabulary of the property statements, independent of the model functions:
    plain lists, finite maps and orders on keys.  Only data types of the model
    ([kty], [key], [answer], ...) are mentioned. *)
Require Import List Arith NArith ZArith Bool.
Import ListNotations.
From Verif Require Import Std Traits Key.

(** * Retain on a plain list *)

(** Visit the entries from left to right, each once, threading the closure
    state; keep the accepted ones with the value the closure left behind.  When
    the closure unwinds, the current entry (with the value left behind) and all
    later ones stay.  When the destructor of a rejected value unwinds, all later
    entries stay. *)
Fixpoint retain_list {S K V} (f : retain_fn S K V) (s : S) (l : list (K * V))
  : S * list (K * V) * outcome :=
  match l with
  | [] => (s, [], Done)
  | (k, v) :: r =>
      match f s k v with
      | (s1, v1, Keep) =>
          let '(s2, r2, o) := retain_list f s1 r in (s2, (k, v1) :: r2, o)
      | (s1, _, Discard) => retain_list f s1 r
      | (s1, v1, Unwind) => (s1, (k, v1) :: r, Unwound)
      | (s1, _, DiscardUnwind) => (s1, r, Unwound)
      end
  end.

(** The same for a list of elements. *)
Fixpoint retain_elems {S T} (f : set_retain_fn S T) (s : S) (l : list T)
  : S * list T * outcome :=
  match l with
  | [] => (s, [], Done)
  | k :: r =>
      match f s k with
      | (s1, Keep) =>
          let '(s2, r2, o) := retain_elems f s1 r in (s2, k :: r2, o)
      | (s1, (Discard | DiscardUnwind)) => retain_elems f s1 r
      | (s1, Unwind) => (s1, k :: r, Unwound)
      end
  end.

(** The same when rejections may be undone: when the closure unwinds at an element [j],
    then of the elements visited before, the rejected ones [k] with [late j k] are in
    the set after all, and of the others those that were, by [has].  Besides the list of
    elements it returns the one at which the closure unwound. *)
Fixpoint retain_undo {S T} (f : set_retain_fn S T) (late : T -> T -> bool) (has : T -> bool)
  (s : S) (l : list T) : S * list T * option T :=
  match l with
  | [] => (s, [], None)
  | k :: r =>
      match f s k with
      | (s1, Keep) =>
          let '(s2, r2, w) := retain_undo f late has s1 r in (s2, k :: r2, w)
      | (s1, (Discard | DiscardUnwind)) =>
          let '(s2, r2, w) := retain_undo f late has s1 r in
          (s2, if match w with Some j => late j k | None => false end then k :: r2 else r2, w)
      | (s1, Unwind) => (s1, filter has (k :: r), Some k)
      end
  end.

(** * Keys *)

(** [key_before t a b]: the documented iteration order puts [a] before [b].
    Enum variants come in declaration order, keys of one variant in the order of
    the nested key type, [true] before [false], [Some _] before [None]; two keys
    of one hash table are unordered. *)
Fixpoint key_before (t : kty) : key t -> key t -> Prop :=
  match t return key t -> key t -> Prop with
  | KBool => fun a b => a = true /\ b = false
  | KUnit => fun _ _ => False
  | KPrim _ => fun _ _ => False
  | KOption t => fun a b =>
      match a, b with
      | Some x, Some y => key_before t x y
      | Some _, None => True
      | None, _ => False
      end
  | KEnum _ vs => keys_before vs
  end
with keys_before (vs : variants) : keys vs -> keys vs -> Prop :=
  match vs return keys vs -> keys vs -> Prop with
  | VNil => fun _ _ => False
  | VUnit r => fun a b =>
      match a, b with
      | inl _, inl _ => False
      | inl _, inr _ => True
      | inr _, inl _ => False
      | inr x, inr y => keys_before r x y
      end
  | VTuple t r => fun a b =>
      match a, b with
      | inl x, inl y => key_before t x y
      | inl _, inr _ => True
      | inr _, inl _ => False
      | inr x, inr y => keys_before r x y
      end
  end.

(** No hash table is involved. *)
Fixpoint hash_free (t : kty) : bool :=
  match t with
  | KPrim _ => false
  | KBool | KUnit => true
  | KOption t => hash_free t
  | KEnum _ vs => hash_free_variants vs
  end
with hash_free_variants (vs : variants) : bool :=
  match vs with
  | VNil => true
  | VUnit r => hash_free_variants r
  | VTuple t r => hash_free t && hash_free_variants r
  end.

(** Where a key ends up: the innermost storage it selects. *)
Inductive leaf : Type := LBool | LUnit | LHash | LNone | LVariant.

(** The kind of place of a key: a [bool] key, the key [()], a hash table key,
    the [None] of an [Option] key, a unit variant of an enum. *)
Fixpoint leaf_of (t : kty) : key t -> leaf :=
  match t return key t -> leaf with
  | KBool => fun _ => LBool
  | KUnit => fun _ => LUnit
  | KPrim _ => fun _ => LHash
  | KOption t => fun k => match k with Some x => leaf_of t x | None => LNone end
  | KEnum _ vs => leaves_of vs
  end
with leaves_of (vs : variants) : keys vs -> leaf :=
  match vs return keys vs -> leaf with
  | VNil => fun _ => LVariant
  | VUnit r => fun k => match k with inl _ => LVariant | inr x => leaves_of r x end
  | VTuple t r => fun k => match k with inl x => leaf_of t x | inr x => leaves_of r x end
  end.

(** The other [bool] in the place of a [bool] key. *)
Fixpoint sibling (t : kty) : key t -> option (key t) :=
  match t return key t -> option (key t) with
  | KBool => fun b => Some (negb b)
  | KUnit => fun _ => None
  | KPrim _ => fun _ => None
  | KOption t => fun k =>
      match k with Some x => option_map Some (sibling t x) | None => None end
  | KEnum _ vs => siblings vs
  end
with siblings (vs : variants) : keys vs -> option (keys vs) :=
  match vs return keys vs -> option (keys vs) with
  | VNil => fun _ => None
  | VUnit r => fun k =>
      match k with inl _ => None | inr x => option_map inr (siblings r x) end
  | VTuple t r => fun k =>
      match k with
      | inl x => option_map inl (sibling t x)
      | inr x => option_map inr (siblings r x)
      end
  end.

(** * Finite maps, sets and sequences *)

(** A finite map or set given by its lookup function. *)
Definition fmap (K V : Type) : Type := K -> option V.

(** [lists f l]: [l] lists the entries of [f], each exactly once. *)
Definition lists {K V} (f : fmap K V) (l : list (K * V)) : Prop :=
  NoDup (map fst l) /\ forall k v, In (k, v) l <-> f k = Some v.

(** [elements p l]: [l] lists the members of [p], each exactly once. *)
Definition elements {T} (p : T -> bool) (l : list T) : Prop :=
  NoDup l /\ forall x, In x l <-> p x = true.

(** [sorted_by before l]: no later item of [l] comes before an earlier one. *)
Fixpoint sorted_by {A} (before : A -> A -> Prop) (l : list A) : Prop :=
  match l with
  | [] => True
  | x :: r => (forall y, In y r -> ~ before y x) /\ sorted_by before r
  end.

(** [last_value l k v]: the last pair of [l] with key [k] has value [v]. *)
Definition last_value {K V} (l : list (K * V)) (k : K) (v : V) : Prop :=
  exists a b, l = a ++ (k, v) :: b /\ ~ In k (map fst b).

(** Two results, compared with an arbitrary equality of values. *)
Definition same_option {V} (veq : V -> V -> bool) (a b : option V) : Prop :=
  match a, b with
  | None, None => True
  | Some x, Some y => veq x y = true
  | _, _ => False
  end.

(** * Deques *)

Inductive dir : Type := Front | Back.

(** Popping items off a fixed sequence, from either end: the results and what
    is left. *)
Fixpoint deque {A} (ds : list dir) (l : list A) : list (option A) * list A :=
  match ds with
  | [] => ([], l)
  | Front :: ds => let '(o, r) := deque ds (tl l) in (hd_error l :: o, r)
  | Back :: ds => let '(o, r) := deque ds (removelast l) in (hd_error (rev l) :: o, r)
  end.

(** * Lexicographic order *)

(** Compare two sequences item by item; a proper prefix is smaller. *)
Fixpoint lex {A} (cmp : A -> A -> option comparison) (a b : list A) : option comparison :=
  match a, b with
  | [], [] => Some Eq
  | [], _ :: _ => Some Lt
  | _ :: _, [] => Some Gt
  | x :: a', y :: b' =>
      match cmp x y with
      | Some Eq => lex cmp a' b'
      | o => o
      end
  end.

(** Position of the variant in the declaration of the enum. *)
Fixpoint variant_index (vs : variants) : keys vs -> nat :=
  match vs return keys vs -> nat with
  | VNil => fun _ => 0
  | VUnit r => fun k => match k with inl _ => 0 | inr x => S (variant_index r x) end
  | VTuple _ r => fun k => match k with inl _ => 0 | inr x => S (variant_index r x) end
  end.

(** Number of variants. *)
Fixpoint variant_count (vs : variants) : nat :=
  match vs with
  | VNil => 0
  | VUnit r => S (variant_count r)
  | VTuple _ r => S (variant_count r)
  end.

(** All variants are unit variants. *)
Fixpoint all_units (vs : variants) : bool :=
  match vs with
  | VNil => true
  | VUnit r => all_units r
  | VTuple _ _ => false
  end.

(** Two elements are in one bit set: they are of one enum with [#[key(bitset)]] all of
    whose variants are units. *)
Fixpoint one_bitset (t : kty) : key t -> key t -> bool :=
  match t return key t -> key t -> bool with
  | KBool | KUnit | KPrim _ => fun _ _ => false
  | KOption t => fun a b =>
      match a, b with
      | Some x, Some y => one_bitset t x y
      | _, _ => false
      end
  | KEnum bitset vs =>
      if all_units vs then fun _ _ => bitset else in_one_bitset vs
  end
with in_one_bitset (vs : variants) : keys vs -> keys vs -> bool :=
  match vs return keys vs -> keys vs -> bool with
  | VNil => fun _ _ => false
  | VUnit r => fun a b =>
      match a, b with
      | inr x, inr y => in_one_bitset r x y
      | _, _ => false
      end
  | VTuple t r => fun a b =>
      match a, b with
      | inl x, inl y => one_bitset t x y
      | inr x, inr y => in_one_bitset r x y
      | _, _ => false
      end
  end.

(** * Values and closures of retain *)

(** The value of each entry after [retain]'s closure has seen it (entries not
    visited keep their value). *)
Fixpoint left_behind {S K V} (f : retain_fn S K V) (s : S) (l : list (K * V)) : list V :=
  match l with
  | [] => []
  | (k, v) :: r =>
      match f s k v with
      | (s1, v1, (Unwind | DiscardUnwind)) => v1 :: map snd r
      | (s1, v1, _) => v1 :: left_behind f s1 r
      end
  end.

(** The values rejected by the closure. *)
Fixpoint rejected {S K V} (f : retain_fn S K V) (s : S) (l : list (K * V)) : list V :=
  match l with
  | [] => []
  | (k, v) :: r =>
      match f s k v with
      | (s1, _, Keep) => rejected f s1 r
      | (s1, v1, Discard) => v1 :: rejected f s1 r
      | (_, _, Unwind) => []
      | (_, v1, DiscardUnwind) => [v1]
      end
  end.

(** What an optional result hands back. *)
Definition opt_list {A} (o : option A) : list A :=
  match o with Some x => [x] | None => [] end.
