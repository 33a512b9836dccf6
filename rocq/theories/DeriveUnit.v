(** Storages generated by [#[derive(Key)]] for enums whose variants are all
    unit variants: fixed-map-derive/src/unit_variants.rs. *)
Require Import List Arith NArith ZArith Bool.
Import ListNotations.
From Verif Require Import Std Traits OptionBucket MapStorages SetStorages.

(** An enum of unit variants (fixed-map-derive/src/unit_variants.rs:9).  The
    enum with variants [V0, .., Vn] is the nested sum
    [unit + (unit + .. (unit + Empty_set))]; [units R] says that [R] is one. *)
Inductive units : Type -> Type :=
| UNil : units Empty_set
| UCons : forall R : Type, units R -> units (unit + R).
Arguments UCons {R}.

(** The variants in declaration order, [en.variants]
    (unit_variants.rs:160). *)
Fixpoint variants_of {R} (u : units R) : list R :=
  match u in units R return list R with
  | UNil => []
  | UCons u' => inl tt :: map inr (variants_of u')
  end.

(** Position of a variant, the [index] of unit_variants.rs:16. *)
Fixpoint index_of {R} (u : units R) : R -> nat :=
  match u in units R return R -> nat with
  | UNil => fun k => match k with end
  | UCons u' => fun k => match k with inl _ => 0 | inr k' => S (index_of u' k') end
  end.

(** The array [[A; count]] (unit_variants.rs:171, 591), one element per
    variant. *)
Fixpoint arr (A : Type) {R} (u : units R) : Type :=
  match u with
  | UNil => unit
  | UCons u' => (A * arr A u')%type
  end.

(** The array filled with one value, [[#(#init),*]] (unit_variants.rs:252,
    618). *)
Fixpoint arr_init {A R} (u : units R) (a : A) : arr A u :=
  match u return arr A u with
  | UNil => tt
  | UCons u' => (a, arr_init u' a)
  end.

(** The element named by [match key { Variant => name }] (e.g.
    unit_variants.rs:281-283, 647-649). *)
Fixpoint arr_get {A R} (u : units R) : arr A u -> R -> A :=
  match u in units R return arr A u -> R -> A with
  | UNil => fun _ k => match k with end
  | UCons u' => fun a k =>
      match k with
      | inl _ => fst a
      | inr k' => arr_get u' (snd a) k'
      end
  end.

(** Assigning that element (e.g. unit_variants.rs:272-274, 638-640). *)
Fixpoint arr_set {A R} (u : units R) : arr A u -> R -> A -> arr A u :=
  match u in units R return arr A u -> R -> A -> arr A u with
  | UNil => fun a _ _ => a
  | UCons u' => fun a k x =>
      match k with
      | inl _ => (x, snd a)
      | inr k' => (fst a, arr_set u' (snd a) k' x)
      end
  end.

(** The elements in order, [let [#(#names),*] = &self.data]
    (e.g. unit_variants.rs:258, 624). *)
Fixpoint arr_elems {A R} (u : units R) : arr A u -> list A :=
  match u in units R return arr A u -> list A with
  | UNil => fun _ => []
  | UCons u' => fun a => fst a :: arr_elems u' (snd a)
  end.

(** Element at a numeric position: what a reference to the [i]-th element
    denotes (unit_variants.rs:296-302). *)
Fixpoint arr_nth {A R} (u : units R) : arr A u -> nat -> option A :=
  match u in units R return arr A u -> nat -> option A with
  | UNil => fun _ _ => None
  | UCons u' => fun a i =>
      match i with 0 => Some (fst a) | S j => arr_nth u' (snd a) j end
  end.

(** Assignment at a numeric position (unit_variants.rs:296-302). *)
Fixpoint arr_put {A R} (u : units R) : arr A u -> nat -> A -> option (arr A u) :=
  match u in units R return arr A u -> nat -> A -> option (arr A u) with
  | UNil => fun _ _ _ => None
  | UCons u' => fun a i x =>
      match i with
      | 0 => Some (x, snd a)
      | S j => option_map (pair (fst a)) (arr_put u' (snd a) j x)
      end
  end.

(** Element-wise equality of arrays (unit_variants.rs:192, derived 589). *)
Fixpoint arr_eq {A R} (eq : A -> A -> bool) (u : units R)
  : arr A u -> arr A u -> bool :=
  match u in units R return arr A u -> arr A u -> bool with
  | UNil => fun _ _ => true
  | UCons u' => fun a b => eq (fst a) (fst b) && arr_eq eq u' (snd a) (snd b)
  end.

(** Element-wise map of an array ([Clone] of unit_variants.rs:177-181). *)
Fixpoint arr_map {A B R} (f : A -> B) (u : units R) : arr A u -> arr B u :=
  match u in units R return arr A u -> arr B u with
  | UNil => fun _ => tt
  | UCons u' => fun a => (f (fst a), arr_map f u' (snd a))
  end.

(** Dropping the array of optional values, as the assignment of
    unit_variants.rs:328-330 does: in order, and after an unwinding destructor
    the remaining elements are still dropped.  Simplification: a second
    destructor that unwinds would abort the process; here it has no further
    effect. *)
Fixpoint arr_drop {D V R} (dr : drop_fn D V) (u : units R)
  : D -> arr (option V) u -> D * outcome :=
  match u in units R return D -> arr (option V) u -> D * outcome with
  | UNil => fun d _ => (d, Done)
  | UCons u' => fun d a =>
      let '(d1, _, o1) := drop_cell dr d (fst a) in
      let '(d2, o2) := arr_drop dr u' d1 (snd a) in
      (d2, match o1 with Unwound => Unwound | Done => o2 end)
  end.

(** [Clone] of the array of optional values (unit_variants.rs:177-181): in order,
    until a clone unwinds. *)
Fixpoint arr_clone_with {S V R} (f : clone_fn S V) (u : units R)
  : S -> arr (option V) u -> S * option (arr (option V) u) :=
  match u in units R return S -> arr (option V) u -> S * option (arr (option V) u) with
  | UNil => fun s a => (s, Some a)
  | UCons u' => fun s a =>
      match clone_cell f s (fst a) with
      | (s1, None) => (s1, None)
      | (s1, Some o1) =>
          let '(s2, r) := arr_clone_with f u' s1 (snd a) in (s2, option_map (pair o1) r)
      end
  end.

(** The same with the elements cloned so far (core's array [Clone], used by
    unit_variants.rs:177-181, keeps their number). *)
Fixpoint arr_clone_made {S V R} (f : clone_fn S V) (u : units R)
  : S -> arr (option V) u -> S * list (option V) * option (arr (option V) u) :=
  match u in units R
        return S -> arr (option V) u -> S * list (option V) * option (arr (option V) u) with
  | UNil => fun s a => (s, nil, Some a)
  | UCons u' => fun s a =>
      match clone_cell f s (fst a) with
      | (s1, None) => (s1, nil, None)
      | (s1, Some o1) =>
          let '(s2, made, r) := arr_clone_made f u' s1 (snd a) in
          (s2, cons o1 made, option_map (pair o1) r)
      end
  end.

(** [Clone] of the array (unit_variants.rs:177-181), dropping the elements made when a
    clone unwinds. *)
Definition arr_clone_undo {S V R} (f : clone_fn S V) (dr : drop_fn S V) (u : units R) (s : S)
  (a : arr (option V) u) : S * option (arr (option V) u) :=
  match arr_clone_made f u s a with
  | (s1, _, Some a') => (s1, Some a')
  | (s1, made, None) => (fst (slice_drop (opt_drop dr) s1 made), None)
  end.

(** Element-wise equality of arrays of optional values (unit_variants.rs:192) with
    the calls of [V::eq] visible: in order, until one differs. *)
Fixpoint arr_eq_with {S V R} (f : eq_fn S V) (u : units R)
  : S -> arr (option V) u -> arr (option V) u -> S * option bool :=
  match u in units R return S -> arr (option V) u -> arr (option V) u -> S * option bool with
  | UNil => fun s _ _ => (s, Some true)
  | UCons u' => fun s a b =>
      eq_and (eq_cell f s (fst a) (fst b)) (fun s1 => arr_eq_with f u' s1 (snd a) (snd b))
  end.

(** [Hash] of an array: length prefix, then the elements (unit_variants.rs:206,
    derived 589). *)
Definition hash_array {A} (h : A -> list Z) (l : list A) : list Z :=
  Z.of_nat (length l) :: flat_map h l.

(** Derived [Hash] of [Option<V>]: discriminant, then the payload
    (unit_variants.rs:206). *)
Definition hash_option {V} (h : V -> list Z) (o : option V) : list Z :=
  match o with None => [0%Z] | Some v => 1%Z :: h v end.

(** Feeding the elements of a slice one after the other, until one unwinds
    (std, called for unit_variants.rs:206). *)
Fixpoint hash_slice_with {S A} (h : hash_fn S A) (s : S) (l : list A) : S * bool :=
  match l with
  | [] => (s, false)
  | x :: r =>
      match h s x with
      | (s1, false) => hash_slice_with h s1 r
      | o => o
      end
  end.

(** [Hash] of an array with the calls visible: length prefix, then the elements
    (unit_variants.rs:206); [word] feeds an integer. *)
Definition hash_array_with {S A} (word : hash_fn S Z) (h : hash_fn S A) (s : S)
  (l : list A) : S * bool :=
  match word s (Z.of_nat (length l)) with
  | (s1, false) => hash_slice_with h s1 l
  | o => o
  end.

(** Derived [Hash] of [Option<V>] with the calls visible (unit_variants.rs:206). *)
Definition hash_option_with {S V} (word : hash_fn S Z) (h : hash_fn S V) (s : S)
  (o : option V) : S * bool :=
  match o with
  | None => word s 0%Z
  | Some v =>
      match word s 1%Z with
      | (s1, false) => h s1 v
      | o => o
      end
  end.

(** * src/macro_support.rs *)

(** [flatten], macro_support.rs:12-17. *)
Definition ms_flatten {T} (value : nat * option T) : option (nat * T) :=
  match value with
  | (index, Some v) => Some (index, v)
  | (_, None) => None
  end.

(** [__storage_iterator_partial_cmp], macro_support.rs:21-30. *)
Definition storage_iterator_partial_cmp {T}
  (cmp : T -> T -> option comparison) (a b : list (option T))
  : option comparison :=
  iter_partial_cmp
    (pair_partial_cmp (fun x y => Some (Nat.compare x y)) cmp)
    (filter_map ms_flatten (enumerate a)) (filter_map ms_flatten (enumerate b)).

(** [__storage_iterator_cmp], macro_support.rs:34-43. *)
Definition storage_iterator_cmp {T} (cmp : T -> T -> comparison)
  (a b : list (option T)) : comparison :=
  iter_cmp (pair_cmp Nat.compare cmp)
    (filter_map ms_flatten (enumerate a)) (filter_map ms_flatten (enumerate b)).

(** [__storage_iterator_partial_cmp], macro_support.rs:21-30, with the calls of
    [T::partial_cmp] visible. *)
Definition storage_iterator_partial_cmp_with {S T} (cmp : pcmp_fn S T) (s : S)
  (a b : list (option T)) : S * option (option comparison) :=
  iter_partial_cmp_with (pair_partial_cmp_with cmp) s
    (filter_map ms_flatten (enumerate a)) (filter_map ms_flatten (enumerate b)).

(** [__storage_iterator_cmp], macro_support.rs:34-43, with the calls of [T::cmp]
    visible. *)
Definition storage_iterator_cmp_with {S T} (cmp : cmp_fn S T) (s : S)
  (a b : list (option T)) : S * option comparison :=
  iter_cmp_with (pair_cmp_with cmp) s
    (filter_map ms_flatten (enumerate a)) (filter_map ms_flatten (enumerate b)).

(** [filter_bool], macro_support.rs:46-48. *)
Definition ms_filter_bool (x : nat * bool) : bool := snd x.

(** [__storage_iterator_partial_cmp_bool], macro_support.rs:52-60. *)
Definition storage_iterator_partial_cmp_bool (a b : list bool)
  : option comparison :=
  iter_partial_cmp
    (pair_partial_cmp (fun x y => Some (Nat.compare x y))
                      (fun x y => Some (bool_cmp x y)))
    (filter ms_filter_bool (enumerate a)) (filter ms_filter_bool (enumerate b)).

(** [__storage_iterator_cmp_bool], macro_support.rs:64-72. *)
Definition storage_iterator_cmp_bool (a b : list bool) : comparison :=
  iter_cmp (pair_cmp Nat.compare bool_cmp)
    (filter ms_filter_bool (enumerate a)) (filter ms_filter_bool (enumerate b)).

(** * Map storage, unit_variants.rs:127-376 *)
Section Map.
  Context {R V : Type} (u : units R).

  (** [struct __MapStorage { data: [Option<V>; count] }],
      unit_variants.rs:170-172. *)
  Record unit_map : Type := MkUnitMap { um_data : arr (option V) u }.

  (** The places [data[i]] (unit_variants.rs:270, 368). *)
  Definition um_cells : cells unit_map V := {|
    cell_get := fun st r =>
      match r with [i] => arr_nth u (um_data st) i | _ => None end;
    cell_set := fun st r o =>
      match r with
      | [i] => option_map MkUnitMap (arr_put u (um_data st) i o)
      | _ => None
      end
  |}.

  (** Path of the place of a variant (unit_variants.rs:297-301). *)
  Definition um_path (k : R) : ref := [index_of u k].

  (** [len], unit_variants.rs:257-260. *)
  Definition um_len (st : unit_map) : nat :=
    fold_left (fun n o => n + usize_from (is_some o)) (arr_elems u (um_data st)) 0.

  (** [is_empty], unit_variants.rs:263-266. *)
  Definition um_is_empty (st : unit_map) : bool :=
    fold_left (fun b o => b && is_none o) (arr_elems u (um_data st)) true.

  (** [insert], unit_variants.rs:269-275. *)
  Definition um_insert (st : unit_map) (key : R) (value : V)
    : option V * unit_map :=
    let '(old, new) := mem_replace (arr_get u (um_data st) key) (Some value) in
    (old, MkUnitMap (arr_set u (um_data st) key new)).

  (** [remove], unit_variants.rs:305-311. *)
  Definition um_remove (st : unit_map) (key : R) : option V * unit_map :=
    let '(old, new) := mem_replace (arr_get u (um_data st) key) None in
    (old, MkUnitMap (arr_set u (um_data st) key new)).
End Map.
Arguments MkUnitMap {R V u}.
Arguments um_data {R V u}.

(** Body of [retain], unit_variants.rs:320-324, over the remaining variants;
    [inj] names the variants. *)
Fixpoint arr_retain {S R K V} (f : retain_fn S K V) (u : units R)
  : (R -> K) -> S -> arr (option V) u -> S * arr (option V) u * outcome :=
  match u in units R
        return (R -> K) -> S -> arr (option V) u -> S * arr (option V) u * outcome
  with
  | UNil => fun _ s a => (s, a, Done)
  | UCons u' => fun inj s a =>
      match retain_cell f s (inj (inl tt)) (fst a) with
      | (s1, o1, Unwound) => (s1, (o1, snd a), Unwound)
      | (s1, o1, Done) =>
          let '(s2, a2, o) := arr_retain f u' (fun k => inj (inr k)) s1 (snd a) in
          (s2, (o1, a2), o)
      end
  end.

(** [Option::Some((k, v?))], the closures of unit_variants.rs:335, 352, 363. *)
Definition some_pair {K V} (k : K) (v : option V) : option (K * V) :=
  match v with Some x => Some (k, x) | None => None end.

Section MapStorage.
  Context {R : Type} (u : units R) (V : Type).

  (** [retain], unit_variants.rs:314-325. *)
  Definition um_retain (S : Type) (f : retain_fn S R V) (s : S)
    (st : unit_map (V := V) u) : S * unit_map u * outcome :=
    let '(s1, a, o) := arr_retain f u (fun k => k) s (um_data st) in
    (s1, MkUnitMap a, o).

  (** [entry], unit_variants.rs:367-373. *)
  Definition um_entry (st : unit_map (V := V) u) (key : R)
    : res (entry (keyed R some_bucket) (keyed R none_bucket)) :=
    res_map (keyed_entry key) (option_bucket_new (um_cells u) st (um_path u key)).

  (** The references [Option::as_mut(name)] of all places, with their variant
      (unit_variants.rs:351-352). *)
  Definition um_refs (st : unit_map (V := V) u) : list (option (R * ref)) :=
    map (fun k => some_pair k (opt_as_mut (um_path u k) (arr_get u (um_data st) k)))
        (variants_of u).

  (** [impl MapStorage<Enum, V> for __MapStorage<V>],
      unit_variants.rs:226-374, std traits 174-224, entries 60-116. *)
  Definition unit_map_storage : MapStorage R V := {|
    ms_St := unit_map (V := V) u;
    ms_Iter := flatten_it (R * V);
    ms_Keys := flatten_it R;
    ms_Values := flatten_it V;
    ms_IterMut := flatten_it (R * ref);
    ms_ValuesMut := flatten_it ref;
    ms_IntoIter := flatten_it (R * V);
    ms_empty := fun _ => MkUnitMap (arr_init u None);                 (* 250-254 *)
    ms_len := um_len u;
    ms_is_empty := um_is_empty u;
    ms_insert := um_insert u;
    ms_contains_key := fun st k => is_some (arr_get u (um_data st) k); (* 278-284 *)
    ms_get := fun st k => arr_get u (um_data st) k;              (* 287-293 *)
    ms_get_mut := fun st k =>
      opt_as_mut (um_path u k) (arr_get u (um_data st) k);       (* 296-302 *)
    ms_remove := um_remove u;
    ms_retain := um_retain;
    ms_clear := fun _ => MkUnitMap (arr_init u None);            (* 328-330 *)
    ms_clear_drop := fun D dr d st =>
      let '(d1, o) := arr_drop dr u d (um_data st) in
      (d1, MkUnitMap (arr_init u None), o);                      (* 328-330 *)
    ms_iter := fun st =>
      flatten_of (map (fun k => some_pair k (arr_get u (um_data st) k))
                      (variants_of u));                          (* 333-336 *)
    ms_keys := fun st =>
      flatten_of (map (fun k => if is_some (arr_get u (um_data st) k)
                                then Some k else None)
                      (variants_of u));                          (* 339-342 *)
    ms_values := fun st => flatten_of (arr_elems u (um_data st)); (* 345-347 *)
    ms_iter_mut := fun st => flatten_of (um_refs st);            (* 350-353 *)
    ms_values_mut := fun st =>
      flatten_of (map (option_map snd) (um_refs st));            (* 356-358 *)
    ms_into_iter := fun st =>
      flatten_of (map (fun k => some_pair k (arr_get u (um_data st) k))
                      (variants_of u));                          (* 361-364 *)
    ms_load := cell_load (um_cells u);
    ms_store := cell_store (um_cells u);
    ms_Occ := keyed R some_bucket;
    ms_Vac := keyed R none_bucket;
    ms_entry := um_entry;
    ms_occ_key := fun _ e => Ok (kb_key e);                      (* 87-89 *)
    ms_occ_get := fun st e => some_as_ref (um_cells u) st (kb_inner e); (* 92-94 *)
    ms_occ_get_mut := fun st e => some_as_mut (um_cells u) st (kb_inner e); (* 97-99 *)
    ms_occ_into_mut := fun st e => some_into_mut (um_cells u) st (kb_inner e); (* 102-104 *)
    ms_occ_insert := fun st e v => some_replace (um_cells u) st (kb_inner e) v; (* 107-109 *)
    ms_occ_remove := fun st e => some_take (um_cells u) st (kb_inner e); (* 112-114 *)
    ms_vac_key := fun _ e => kb_key e;                           (* 69-71 *)
    ms_vac_insert := fun st e v => none_insert (um_cells u) st (kb_inner e) v; (* 74-76 *)
    ms_clone_with := fun S f s st =>
      let '(s1, r) := arr_clone_with f u s (um_data st) in
      (s1, option_map MkUnitMap r);                              (* 177-181 *)
    ms_clone_undo := fun S f dr s st =>
      let '(s1, r) := arr_clone_undo f dr u s (um_data st) in
      (s1, option_map MkUnitMap r);                              (* 177-181 *)
    ms_drop := fun D dr d st =>
      let '(d1, o) := arr_drop dr u d (um_data st) in
      (d1, match o with Unwound => true | Done => false end);    (* 170-172 *)
    ms_clone := fun cl st =>
      MkUnitMap (arr_map (option_map cl) u (um_data st));        (* 177-181 *)
    ms_eq_with := fun S f s a b =>
      arr_eq_with f u s (um_data a) (um_data b);                 (* 191-193 *)
    ms_eq := fun eq a b =>
      arr_eq (option_eq eq) u (um_data a) (um_data b);           (* 191-193 *)
    ms_hash_with := Some (fun S word h s st =>
      hash_array_with word (hash_option_with word h) s
        (arr_elems u (um_data st)));                             (* 202-207 *)
    ms_partial_cmp_with := Some (fun S cmp s a b =>
      storage_iterator_partial_cmp_with cmp s
        (arr_elems u (um_data a)) (arr_elems u (um_data b)));    (* 213-215 *)
    ms_cmp_with := Some (fun S cmp s a b =>
      storage_iterator_cmp_with cmp s
        (arr_elems u (um_data a)) (arr_elems u (um_data b)));    (* 221-223 *)
    ms_hash := Some (fun h st =>
      hash_array (hash_option h) (arr_elems u (um_data st)));    (* 202-207 *)
    ms_partial_cmp := Some (fun cmp a b =>
      storage_iterator_partial_cmp cmp
        (arr_elems u (um_data a)) (arr_elems u (um_data b)));    (* 213-215 *)
    ms_cmp := Some (fun cmp a b =>
      storage_iterator_cmp cmp
        (arr_elems u (um_data a)) (arr_elems u (um_data b)))     (* 221-223 *)
  |}.
End MapStorage.

(** * Array set storage, unit_variants.rs:551-691 *)

(** Body of [retain], unit_variants.rs:668-670. *)
Fixpoint arr_retain_flags {S R K} (f : set_retain_fn S K) (u : units R)
  : (R -> K) -> S -> arr bool u -> S * arr bool u * outcome :=
  match u in units R
        return (R -> K) -> S -> arr bool u -> S * arr bool u * outcome
  with
  | UNil => fun _ s a => (s, a, Done)
  | UCons u' => fun inj s a =>
      match retain_flag f s (inj (inl tt)) (fst a) with
      | (s1, b1, Unwound) => (s1, (b1, snd a), Unwound)
      | (s1, b1, Done) =>
          let '(s2, a2, o) := arr_retain_flags f u' (fun k => inj (inr k)) s1 (snd a) in
          (s2, (b1, a2), o)
      end
  end.

Section SetStorage.
  Context {R : Type} (u : units R).

  (** [struct __SetStorage { data: [bool; count] }], unit_variants.rs:590-592. *)
  Record unit_set : Type := MkUnitSet { us_data : arr bool u }.

  (** [insert], unit_variants.rs:635-641. *)
  Definition us_insert (st : unit_set) (value : R) : bool * unit_set :=
    let '(old, new) := mem_replace (arr_get u (us_data st) value) true in
    (negb old, MkUnitSet (arr_set u (us_data st) value new)).

  (** [remove], unit_variants.rs:653-659. *)
  Definition us_remove (st : unit_set) (value : R) : bool * unit_set :=
    let '(old, new) := mem_replace (arr_get u (us_data st) value) false in
    (old, MkUnitSet (arr_set u (us_data st) value new)).

  (** [retain], unit_variants.rs:662-671. *)
  Definition us_retain (S : Type) (f : set_retain_fn S R) (s : S)
    (st : unit_set) : S * unit_set * outcome :=
    let '(s1, a, o) := arr_retain_flags f u (fun k => k) s (us_data st) in
    (s1, MkUnitSet a, o).

  (** [iter] and [into_iter], unit_variants.rs:679-688. *)
  Definition us_iter (st : unit_set) : flatten_st R :=
    flatten_of (map (fun k => if arr_get u (us_data st) k then Some k else None)
                    (variants_of u)).

  (** [impl SetStorage<Enum> for __SetStorage], unit_variants.rs:610-689,
      derived traits 589, ordering 594-608. *)
  Definition unit_set_storage : SetStorage R := {|
    ss_St := unit_set;
    ss_Iter := flatten_it R;
    ss_IntoIter := flatten_it R;
    ss_empty := fun _ => MkUnitSet (arr_init u false);                (* 616-620 *)
    ss_len := fun st =>
      fold_left (fun n b => n + usize_from b) (arr_elems u (us_data st)) 0; (* 623-626 *)
    ss_is_empty := fun st =>
      fold_left (fun b x => b && negb x) (arr_elems u (us_data st)) true; (* 629-632 *)
    ss_insert := us_insert;
    ss_contains := fun st k => arr_get u (us_data st) k;         (* 644-650 *)
    ss_remove := us_remove;
    ss_retain := us_retain;
    ss_clear := fun _ => MkUnitSet (arr_init u false);           (* 674-676 *)
    ss_iter := us_iter;
    ss_into_iter := us_iter;
    ss_clone := fun st => st;                                    (* 589 *)
    ss_eq := fun a b => arr_eq Bool.eqb u (us_data a) (us_data b); (* 589 *)
    ss_hash := Some (fun st => hash_array hash_bool (arr_elems u (us_data st))); (* 589 *)
    ss_partial_cmp := Some (fun a b =>
      storage_iterator_partial_cmp_bool
        (arr_elems u (us_data a)) (arr_elems u (us_data b)));    (* 597-599 *)
    ss_cmp := Some (fun a b =>
      storage_iterator_cmp_bool
        (arr_elems u (us_data a)) (arr_elems u (us_data b)));    (* 605-607 *)
    ss_raw := None
  |}.
End SetStorage.

(** * Bitset storage, unit_variants.rs:379-531 *)

(** [determine_bits], unit_variants.rs:533-548: the width of the integer type;
    [None] is the reported error. *)
Definition determine_bits (count : N) : option N :=
  if (count <=? 8)%N then Some 8%N
  else if (count <=? 16)%N then Some 16%N
  else if (count <=? 32)%N then Some 32%N
  else if (count <=? 64)%N then Some 64%N
  else if (count <=? 128)%N then Some 128%N
  else None.

(** [1u128 << n], the literals of unit_variants.rs:406-411. *)
Definition number (n : nat) : N := N.shiftl 1 (N.of_nat n).

(** Body of the bitset [retain], unit_variants.rs:489-497: [l] are the remaining
    variants with their positions; the storage is assigned at the end only. *)
Fixpoint bit_retain {S K} (f : set_retain_fn S K) (data : N) (l : list (nat * K))
  (s : S) (update : N) : S * N * outcome :=
  match l with
  | [] => (s, update, Done)
  | (n, k) :: r =>
      if negb (N.eqb (N.land data (number n)) 0) then
        match f s k with
        | (s', Keep) => bit_retain f data r s' (N.lor update (number n))
        | (s', (Discard | DiscardUnwind)) => bit_retain f data r s' update
        | (s', Unwind) => (s', data, Unwound)
        end
      else bit_retain f data r s update
  end.

Section Bitset.
  Context {R : Type} (u : units R).
  (** Width of the integer type [#ty] (unit_variants.rs:380). *)
  Variable width : N.

  (** [struct __SetStorage { data: #ty }], unit_variants.rs:423-425. *)
  Record bit_set : Type := MkBitSet { bt_data : N }.

  (** [to_bits], unit_variants.rs:415-419. *)
  Definition bt_to_bits (value : R) : N := number (index_of u value).

  (** [insert], unit_variants.rs:466-470. *)
  Definition bt_insert (st : bit_set) (value : R) : bool * bit_set :=
    let mask := bt_to_bits value in
    let update := N.lor (bt_data st) mask in
    let '(old, new) := mem_replace (bt_data st) update in
    (N.eqb (N.land old mask) 0, MkBitSet new).

  (** [contains], unit_variants.rs:473-475. *)
  Definition bt_contains (st : bit_set) (value : R) : bool :=
    negb (N.eqb (N.land (bt_data st) (bt_to_bits value)) 0).

  (** [remove], unit_variants.rs:478-482. *)
  Definition bt_remove (st : bit_set) (value : R) : bool * bit_set :=
    let mask := bt_to_bits value in
    let update := N.land (bt_data st) (not_bits width mask) in
    let '(old, new) := mem_replace (bt_data st) update in
    (negb (N.eqb (N.land old mask) 0), MkBitSet new).

  (** [retain], unit_variants.rs:485-498. *)
  Definition bt_retain (S : Type) (f : set_retain_fn S R) (s : S)
    (st : bit_set) : S * bit_set * outcome :=
    let '(s1, d, o) :=
      bit_retain f (bt_data st) (enumerate (variants_of u)) s 0 in
    (s1, MkBitSet d, o).

  (** [iter] and [into_iter], unit_variants.rs:506-513. *)
  Definition bt_iter (st : bit_set) : flatten_st R :=
    flatten_of
      (map (fun e => if negb (N.eqb (N.land (bt_data st) (number (fst e))) 0)
                     then Some (snd e) else None)
           (enumerate (variants_of u))).

  (** [RawStorage] of the bitset, unit_variants.rs:516-529. *)
  Definition bit_raw : RawStorage bit_set := {|
    raw_bits := width;                                           (* 518 *)
    raw_as := bt_data;                                           (* 521-523 *)
    raw_from := MkBitSet                                         (* 526-528 *)
  |}.

  (** [impl SetStorage<Enum> for __SetStorage], unit_variants.rs:443-514,
      derived traits 422, ordering 427-441. *)
  Definition bit_set_storage : SetStorage R := {|
    ss_St := bit_set;
    ss_Iter := flatten_it R;
    ss_IntoIter := flatten_it R;
    ss_empty := fun _ => MkBitSet 0;                                  (* 449-453 *)
    ss_len := fun st => count_ones (bt_data st);                 (* 456-458 *)
    ss_is_empty := fun st => N.eqb (bt_data st) 0;               (* 461-463 *)
    ss_insert := bt_insert;
    ss_contains := bt_contains;
    ss_remove := bt_remove;
    ss_retain := bt_retain;
    ss_clear := fun _ => MkBitSet 0;                             (* 501-503 *)
    ss_iter := bt_iter;
    ss_into_iter := bt_iter;
    ss_clone := fun st => st;                                    (* 422 *)
    ss_eq := fun a b => N.eqb (bt_data a) (bt_data b);           (* 422 *)
    ss_hash := Some (fun st => [Z.of_N (bt_data st)]);           (* 422 *)
    ss_partial_cmp :=
      Some (fun a b => Some (N.compare (bt_data a) (bt_data b))); (* 430-432 *)
    ss_cmp := Some (fun a b => N.compare (bt_data a) (bt_data b)); (* 438-440 *)
    ss_raw := Some bit_raw
  |}.
End Bitset.

(** [implement], unit_variants.rs:9-45: the generated [Key] implementation, or
    [None] when generation fails (more than 128 variants with
    [#[key(bitset)]]). *)
Definition derive_unit {R} (bitset : bool) (u : units R) : option (KeyImpl R) :=
  if bitset then
    option_map (fun width => MkKeyImpl (unit_map_storage u) (bit_set_storage u width))
               (determine_bits (N.of_nat (length (variants_of u))))
  else Some (MkKeyImpl (unit_map_storage u) (unit_set_storage u)).
