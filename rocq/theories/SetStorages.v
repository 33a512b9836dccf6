(** The set storages of src/set/storage/. *)
Require Import List Arith NArith ZArith Bool.
Import ListNotations.
From Verif Require Import Std Traits Hashbrown MapStorages.

(** [if *flag { *flag = f(value) }] on one [bool] place: the pattern of
    src/set/storage/option.rs:155-157 and of the generated set storages
    (fixed-map-derive/src/unit_variants.rs:668, any_variants.rs:609-611). *)
Definition retain_flag {S T} (f : set_retain_fn S T) (s : S) (k : T)
  (b : bool) : S * bool * outcome :=
  if b then
    match f s k with
    | (s', Keep) => (s', true, Done)
    | (s', (Discard | DiscardUnwind)) => (s', false, Done)
    | (s', Unwind) => (s', b, Unwound)
    end
  else (s, b, Done).

(** [bool::then_some] (e.g. src/set/storage/singleton.rs:64). *)
Definition then_some {A} (b : bool) (a : A) : option A :=
  if b then Some a else None.

(** Derived [Hash] of [bool]: writes one byte
    (src/set/storage/singleton.rs:7). *)
Definition hash_bool (b : bool) : list Z := [if b then 1%Z else 0%Z].

(** * SingletonSetStorage, src/set/storage/singleton.rs *)

(** [struct SingletonSetStorage { is_set: bool }], singleton.rs:6-10. *)
Record single_set : Type := MkSingleSet { st_is_set : bool }.

(** [insert], singleton.rs:35-37. *)
Definition sst_insert (st : single_set) (_ : unit) : bool * single_set :=
  let '(old, new) := mem_replace (st_is_set st) true in
  (negb old, MkSingleSet new).

(** [remove], singleton.rs:45-47. *)
Definition sst_remove (st : single_set) (_ : unit) : bool * single_set :=
  let '(old, new) := mem_replace (st_is_set st) false in
  (old, MkSingleSet new).

(** [retain], singleton.rs:50-55: calls the closure whether or not the element
    is present, and stores its answer. *)
Definition sst_retain (S : Type) (f : set_retain_fn S unit) (s : S)
  (st : single_set) : S * single_set * outcome :=
  match f s tt with
  | (s', Keep) => (s', MkSingleSet true, Done)
  | (s', (Discard | DiscardUnwind)) => (s', MkSingleSet false, Done)
  | (s', Unwind) => (s', st, Unwound)
  end.

(** [impl SetStorage<T> for SingletonSetStorage], singleton.rs:12-71, derived
    traits singleton.rs:7. *)
Definition single_set_storage : SetStorage unit := {|
  ss_St := single_set;
  ss_Iter := opt_it unit;
  ss_IntoIter := opt_it unit;
  ss_empty := fun _ => MkSingleSet false;                              (* 20-22 *)
  ss_len := fun st => usize_from (st_is_set st);                 (* 25-27 *)
  ss_is_empty := fun st => negb (st_is_set st);                  (* 30-32 *)
  ss_insert := sst_insert;
  ss_contains := fun st _ => st_is_set st;                       (* 40-42 *)
  ss_remove := sst_remove;
  ss_retain := sst_retain;
  ss_clear := fun _ => MkSingleSet false;                        (* 58-60 *)
  ss_iter := fun st => then_some (st_is_set st) tt;              (* 63-65 *)
  ss_into_iter := fun st => then_some (st_is_set st) tt;         (* 68-70 *)
  ss_clone := fun st => st;                                      (* 7 *)
  ss_eq := fun a b => Bool.eqb (st_is_set a) (st_is_set b);      (* 7 *)
  ss_hash := Some (fun st => hash_bool (st_is_set st));          (* 7 *)
  ss_partial_cmp :=
    Some (fun a b => Some (bool_cmp (st_is_set a) (st_is_set b))); (* 7 *)
  ss_cmp := Some (fun a b => bool_cmp (st_is_set a) (st_is_set b)); (* 7 *)
  ss_raw := None
|}.

(** * BooleanSetStorage, src/set/storage/boolean.rs *)

(** [struct BooleanSetStorage { bits: u8 }], boolean.rs:52-55. *)
Record bool_set : Type := MkBoolSet { bs_bits : N }.

(** [to_bits], boolean.rs:192-198. *)
Definition bs_to_bits (value : bool) : N := if value then TRUE_BIT else FALSE_BIT.

(** [test], boolean.rs:187-189. *)
Definition bs_test (bits : N) (value : bool) : bool :=
  has_bits bits (bs_to_bits value).

(** [len], boolean.rs:128-131. *)
Definition bs_len (st : bool_set) : nat :=
  usize_from (has_bits (bs_bits st) TRUE_BIT) +
  usize_from (has_bits (bs_bits st) FALSE_BIT).

(** [insert], boolean.rs:139-142: returns whether the value was present. *)
Definition bs_insert (st : bool_set) (value : bool) : bool * bool_set :=
  let update := N.lor (bs_bits st) (bs_to_bits value) in
  let '(old, new) := mem_replace (bs_bits st) update in
  (bs_test old value, MkBoolSet new).

(** [remove], boolean.rs:150-154: returns whether any value was present. *)
Definition bs_remove (st : bool_set) (value : bool) : bool * bool_set :=
  let mask := bs_to_bits value in
  let update := clear_bits8 (bs_bits st) mask in
  let '(old, new) := mem_replace (bs_bits st) update in
  (negb (N.eqb old 0), MkBoolSet new).

(** [if test(self.bits, value) && !f(value) { self.bits &= !bit }],
    boolean.rs:161-163 and 165-167. *)
Definition bs_retain_one {S} (f : set_retain_fn S bool) (s : S) (value : bool)
  (bits : N) : S * N * outcome :=
  if bs_test bits value then
    match f s value with
    | (s', Keep) => (s', bits, Done)
    | (s', (Discard | DiscardUnwind)) => (s', clear_bits8 bits (bs_to_bits value), Done)
    | (s', Unwind) => (s', bits, Unwound)
    end
  else (s, bits, Done).

(** [retain], boolean.rs:157-168. *)
Definition bs_retain (S : Type) (f : set_retain_fn S bool) (s : S)
  (st : bool_set) : S * bool_set * outcome :=
  match bs_retain_one f s true (bs_bits st) with
  | (s1, b1, Unwound) => (s1, MkBoolSet b1, Unwound)
  | (s1, b1, Done) =>
      let '(s2, b2, o) := bs_retain_one f s1 false b1 in (s2, MkBoolSet b2, o)
  end.

(** [impl SetStorage<bool> for BooleanSetStorage], boolean.rs:118-184, derived
    traits boolean.rs:52. *)
Definition bool_set_storage : SetStorage bool := {|
  ss_St := bool_set;
  ss_Iter := bits_it;
  ss_IntoIter := bits_it;
  ss_empty := fun _ => MkBoolSet 0;                                   (* 123-125 *)
  ss_len := bs_len;
  ss_is_empty := fun st => N.eqb (bs_bits st) 0;                 (* 134-136 *)
  ss_insert := bs_insert;
  ss_contains := fun st value => bs_test (bs_bits st) value;     (* 145-147 *)
  ss_remove := bs_remove;
  ss_retain := bs_retain;
  ss_clear := fun _ => MkBoolSet 0;                              (* 171-173 *)
  ss_iter := fun st => bs_bits st;                               (* 176-178 *)
  ss_into_iter := fun st => bs_bits st;                          (* 181-183 *)
  ss_clone := fun st => st;                                      (* 52 *)
  ss_eq := fun a b => N.eqb (bs_bits a) (bs_bits b);             (* 52 *)
  ss_hash := None;
  ss_partial_cmp := None;
  ss_cmp := None;
  ss_raw := None
|}.

(** * OptionSetStorage, src/set/storage/option.rs *)
Section Option.
  Context {T : Type} (inner : SetStorage T).

  (** [struct OptionSetStorage { some: T::SetStorage, none: bool }],
      option.rs:49-55. *)
  Record opt_set : Type := MkOptSet { os_some : ss_St inner; os_none : bool }.

  (** [insert], option.rs:125-130: the [None] arm returns the old flag. *)
  Definition os_insert (st : opt_set) (value : option T) : bool * opt_set :=
    match value with
    | Some v => let '(r, s) := ss_insert inner (os_some st) v in
                (r, MkOptSet s (os_none st))
    | None => let '(old, new) := mem_replace (os_none st) true in
              (old, MkOptSet (os_some st) new)
    end.

  (** [contains], option.rs:133-138. *)
  Definition os_contains (st : opt_set) (value : option T) : bool :=
    match value with
    | Some v => ss_contains inner (os_some st) v
    | None => os_none st
    end.

  (** [remove], option.rs:141-146. *)
  Definition os_remove (st : opt_set) (value : option T) : bool * opt_set :=
    match value with
    | Some v => let '(r, s) := ss_remove inner (os_some st) v in
                (r, MkOptSet s (os_none st))
    | None => let '(old, new) := mem_replace (os_none st) false in
              (old, MkOptSet (os_some st) new)
    end.

  (** [retain], option.rs:149-158. *)
  Definition os_retain (S : Type) (f : set_retain_fn S (option T)) (s : S)
    (st : opt_set) : S * opt_set * outcome :=
    match ss_retain inner (fun s v => f s (Some v)) s (os_some st) with
    | (s1, some1, Unwound) => (s1, MkOptSet some1 (os_none st), Unwound)
    | (s1, some1, Done) =>
        let '(s2, none2, o) := retain_flag f s1 None (os_none st) in
        (s2, MkOptSet some1 none2, o)
    end.

  (** [impl SetStorage<Option<T>> for OptionSetStorage<T>], option.rs:96-183;
      [Clone] 57-69, [PartialEq] 78-87.  [is_empty] (120-122) lacks a negation
      of [none]. *)
  Definition opt_set_storage : SetStorage (option T) := {|
    ss_St := opt_set;
    ss_Iter := chain_it (map_it Some (ss_Iter inner)) (opt_it (option T));
    ss_IntoIter := chain_it (map_it Some (ss_IntoIter inner)) (opt_it (option T));
    ss_empty := fun w => MkOptSet (ss_empty inner (sub_world 0 w)) false; (* 107-112 *)
    ss_len := fun st =>
      ss_len inner (os_some st) + usize_from (os_none st);       (* 115-117 *)
    ss_is_empty := fun st =>
      ss_is_empty inner (os_some st) && os_none st;              (* 120-122 *)
    ss_insert := os_insert;
    ss_contains := os_contains;
    ss_remove := os_remove;
    ss_retain := os_retain;
    ss_clear := fun st => MkOptSet (ss_clear inner (os_some st)) false; (* 161-164 *)
    ss_iter := fun st =>
      (Some (ss_iter inner (os_some st)), Some (then_some (os_none st) None)); (* 167-173 *)
    ss_into_iter := fun st =>
      (Some (ss_into_iter inner (os_some st)), Some (then_some (os_none st) None)); (* 176-182 *)
    ss_clone := fun st => MkOptSet (ss_clone inner (os_some st)) (os_none st); (* 63-68 *)
    ss_eq := fun a b =>
      Bool.eqb (os_none a) (os_none b) &&
      ss_eq inner (os_some a) (os_some b);                       (* 84-86 *)
    ss_hash := None;
    ss_partial_cmp := None;
    ss_cmp := None;
    ss_raw := None
  |}.
End Option.

(** * HashbrownSetStorage, src/set/storage/hashbrown.rs *)
Section Hash.
  Context {T : Type}.
  (** [Eq] of the element type (hashbrown.rs:59). *)
  Variable eqb : T -> T -> bool.

  (** [HashSet::retain] closure as a [HashMap<T, ()>] one (hashbrown's
      [HashSet<T>] is a [HashMap<T, ()>]), hashbrown.rs:100-105. *)
  Definition hs_fn {S} (f : set_retain_fn S T) : retain_fn S T unit :=
    fun s k v => let '(s', a) := f s k in
      (s', v, match a with DiscardUnwind => Discard | _ => a end).

  (** [impl SetStorage<T> for HashbrownSetStorage<T>], hashbrown.rs:57-121;
      [Clone] 33-43, [PartialEq] 45-53. *)
  Definition hash_set_storage : SetStorage T := {|
    ss_St := htable T unit;
    ss_Iter := hash_it T;
    ss_IntoIter := hash_it T;
    ss_empty := fun w => MkTable (w []) [];                      (* 68-72 *)
    ss_len := fun t => length (ht_entries t);                    (* 75-77 *)
    ss_is_empty := fun t =>
      match ht_entries t with [] => true | _ :: _ => false end;  (* 80-82 *)
    ss_insert := fun t k =>
      let '(old, t') := h_insert eqb k tt t in (is_none old, t'); (* 85-87 *)
    ss_contains := fun t k => is_some (h_get eqb k (ht_entries t)); (* 90-92 *)
    ss_remove := fun t k =>
      let '(old, t') := h_remove eqb k t in (is_some old, t');   (* 95-97 *)
    ss_retain := fun S f s t => h_retain (hs_fn f) s t;          (* 100-105 *)
    ss_clear := fun t => MkTable (ht_orders t) [];                 (* 108-110 *)
    ss_iter := fun t => map fst (ht_entries t);                  (* 113-115 *)
    ss_into_iter := fun t => map fst (ht_entries t);             (* 118-120 *)
    ss_clone := fun t => t;                                      (* 38-42 *)
    ss_eq := fun a b =>
      h_eq eqb (fun _ _ => true) (ht_entries a) (ht_entries b);  (* 50-52 *)
    ss_hash := None;
    ss_partial_cmp := None;
    ss_cmp := None;
    ss_raw := None
  |}.
End Hash.
