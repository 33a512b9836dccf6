(** The map storages of src/map/storage/. *)
Require Import List Arith NArith ZArith Bool.
Import ListNotations.
From Verif Require Import Std Traits OptionBucket Hashbrown.

(** An entry made of a key and an option bucket: [Occupied] / [Vacant] of
    src/map/storage/boolean.rs:140-148 and the generated [SimpleOccupiedEntry]
    / [SimpleVacantEntry] (fixed-map-derive/src/any_variants.rs:1944-1947,
    1956-1959, unit_variants.rs:61-64, 79-82). *)
Record keyed (K B : Type) : Type := MkKeyed { kb_key : K; kb_inner : B }.
Arguments MkKeyed {K B}.
Arguments kb_key {K B}.
Arguments kb_inner {K B}.

(** Turn an option bucket into an entry carrying a key: the [match] of
    src/map/storage/boolean.rs:359-362 and [option_to_entry]
    (fixed-map-derive/src/unit_variants.rs:118-123, any_variants.rs:2069-2074). *)
Definition keyed_entry {K} (key : K) (b : option_bucket)
  : entry (keyed K some_bucket) (keyed K none_bucket) :=
  match b with
  | OBSome inner => Occupied (MkKeyed key inner)
  | OBNone inner => Vacant (MkKeyed key inner)
  end.

(** * SingletonMapStorage, src/map/storage/singleton.rs *)
Section Singleton.
  Context {V : Type}.

  (** [struct SingletonMapStorage { inner: Option<V> }], singleton.rs:7-9. *)
  Record single_map : Type := MkSingleMap { sm_inner : option V }.

  (** The place [self.inner], singleton.rs:8; its path is empty. *)
  Definition sm_cells : cells single_map V := {|
    cell_get := fun st r => match r with [] => Some (sm_inner st) | _ => None end;
    cell_set := fun st r o => match r with [] => Some (MkSingleMap o) | _ => None end
  |}.

  (** [insert], singleton.rs:75-77. *)
  Definition sm_insert (st : single_map) (_ : unit) (value : V)
    : option V * single_map :=
    let '(old, new) := mem_replace (sm_inner st) (Some value) in
    (old, MkSingleMap new).

  (** [remove], singleton.rs:95-97. *)
  Definition sm_remove (st : single_map) (_ : unit) : option V * single_map :=
    let '(old, new) := mem_replace (sm_inner st) None in (old, MkSingleMap new).

  (** [retain], singleton.rs:100-109. *)
  Definition sm_retain (S : Type) (f : retain_fn S unit V) (s : S)
    (st : single_map) : S * single_map * outcome :=
    let '(s1, inner, o) := retain_cell f s tt (sm_inner st) in
    (s1, MkSingleMap inner, o).

  (** [entry], singleton.rs:147-152. *)
  Definition sm_entry (st : single_map) (_ : unit)
    : res (entry some_bucket none_bucket) :=
    res_map (fun b => match b with
                      | OBSome some => Occupied some
                      | OBNone none => Vacant none
                      end) (option_bucket_new sm_cells st []).

  (** [impl MapStorage<K, V> for SingletonMapStorage<V>],
      singleton.rs:23-153; [PartialEq] 11-19, derived [Clone] 6; entry traits
      src/option_bucket.rs:264-297, 370-383.  [K] is [()], the only key type
      with this storage (src/key.rs:182), so [K::default()] is [tt].
      [keys] (122-124) yields the key unconditionally. *)
  Definition single_map_storage : MapStorage unit V := {|
    ms_St := single_map;
    ms_Iter := opt_it (unit * V);
    ms_Keys := opt_it unit;
    ms_Values := opt_it V;
    ms_IterMut := opt_it (unit * ref);
    ms_ValuesMut := opt_it ref;
    ms_IntoIter := opt_it (unit * V);
    ms_empty := fun _ => MkSingleMap None; (* 58-62 *)
    ms_len := fun st => usize_from (is_some (sm_inner st)); (* 65-67 *)
    ms_is_empty := fun st => is_none (sm_inner st); (* 70-72 *)
    ms_insert := sm_insert;
    ms_contains_key := fun st _ => is_some (sm_inner st); (* 80-82 *)
    ms_get := fun st _ => sm_inner st; (* 85-87 *)
    ms_get_mut := fun st _ => opt_as_mut [] (sm_inner st); (* 90-92 *)
    ms_remove := sm_remove;
    ms_retain := sm_retain;
    ms_clear := fun _ => MkSingleMap None; (* 112-114 *)
    ms_clear_drop := fun D dr d st =>
      let '(d1, o, oc) := drop_cell dr d (sm_inner st) in (d1, MkSingleMap o, oc); (* 112-114 *)
    ms_iter := fun st => option_map (fun v => (tt, v)) (sm_inner st); (* 117-119 *)
    ms_keys := fun _ => Some tt; (* 122-124 *)
    ms_values := fun st => sm_inner st; (* 127-129 *)
    ms_iter_mut := fun st =>
      option_map (fun v => (tt, v)) (opt_as_mut [] (sm_inner st)); (* 132-134 *)
    ms_values_mut := fun st => opt_as_mut [] (sm_inner st); (* 137-139 *)
    ms_into_iter := fun st => option_map (fun v => (tt, v)) (sm_inner st); (* 142-144 *)
    ms_load := cell_load sm_cells;
    ms_store := cell_store sm_cells;
    ms_Occ := some_bucket;
    ms_Vac := none_bucket;
    ms_entry := sm_entry;
    ms_occ_key := fun _ _ => Ok tt;              (* option_bucket.rs:269-271 *)
    ms_occ_get := some_as_ref sm_cells;          (* option_bucket.rs:274-276 *)
    ms_occ_get_mut := some_as_mut sm_cells;      (* option_bucket.rs:279-281 *)
    ms_occ_into_mut := some_into_mut sm_cells;   (* option_bucket.rs:284-286 *)
    ms_occ_insert := some_replace sm_cells;      (* option_bucket.rs:289-291 *)
    ms_occ_remove := some_take sm_cells;         (* option_bucket.rs:294-296 *)
    ms_vac_key := fun _ _ => tt;                 (* option_bucket.rs:375-377 *)
    ms_vac_insert := none_insert sm_cells;       (* option_bucket.rs:380-382 *)
    ms_clone_with := fun S f s st =>
      let '(s1, o) := clone_cell f s (sm_inner st) in (s1, option_map MkSingleMap o); (* 6 *)
    ms_clone_undo := fun S f dr s st =>
      let '(s1, o) := clone_cell f s (sm_inner st) in (s1, option_map MkSingleMap o); (* 6 *)
    ms_drop := fun D dr d st => opt_drop dr d (sm_inner st); (* 7-9 *)
    ms_clone := fun cl st => MkSingleMap (option_map cl (sm_inner st));
    ms_eq_with := fun S f s a b => eq_cell f s (sm_inner a) (sm_inner b); (* 17 *)
    ms_eq := fun eq a b => option_eq eq (sm_inner a) (sm_inner b);
    ms_hash_with := None;
    ms_partial_cmp_with := None;
    ms_cmp_with := None;
    ms_hash := None;
    ms_partial_cmp := None;
    ms_cmp := None
  |}.
End Singleton.
Arguments single_map V : clear implicits.
Arguments single_map_storage V : clear implicits.

(** * Two-bit iteration, src/map/storage/boolean.rs:79-138 and
      src/set/storage/boolean.rs:57-116 (identical code) *)

(** [TRUE_BIT], src/map/storage/boolean.rs:11, src/set/storage/boolean.rs:8. *)
Definition TRUE_BIT : N := 2.
(** [FALSE_BIT], src/map/storage/boolean.rs:12, src/set/storage/boolean.rs:9. *)
Definition FALSE_BIT : N := 1.

(** [bits & mask != 0] (e.g. src/set/storage/boolean.rs:187-189). *)
Definition has_bits (bits mask : N) : bool := negb (N.eqb (N.land bits mask) 0).

(** [bits &= !mask] on [u8] (src/map/storage/boolean.rs:97). *)
Definition clear_bits8 (bits mask : N) : N := N.land bits (not_bits 8 mask).

(** [Keys::next], src/map/storage/boolean.rs:95-107 = [Iter::next],
    src/set/storage/boolean.rs:73-85. *)
Definition bits_next (bits : N) : option bool * N :=
  if has_bits bits TRUE_BIT then (Some true, clear_bits8 bits TRUE_BIT)
  else if has_bits bits FALSE_BIT then (Some false, clear_bits8 bits FALSE_BIT)
  else (None, bits).

(** [Keys::next_back], src/map/storage/boolean.rs:118-130 = [Iter::next_back],
    src/set/storage/boolean.rs:96-108. *)
Definition bits_back (bits : N) : option bool * N :=
  if has_bits bits FALSE_BIT then (Some false, clear_bits8 bits FALSE_BIT)
  else if has_bits bits TRUE_BIT then (Some true, clear_bits8 bits TRUE_BIT)
  else (None, bits).

(** [ExactSizeIterator::len], src/map/storage/boolean.rs:135-137 and
    src/set/storage/boolean.rs:113-115. *)
Definition bits_len (bits : N) : nat := count_ones bits.

(** [struct Keys { bits: u8 }] of src/map/storage/boolean.rs:80-138 and
    [struct Iter { bits: u8 }] of src/set/storage/boolean.rs:58-116;
    [size_hint] 110-113 / 88-91, [clone] 86-88 / 64-66. *)
Definition bits_it : iterator bool := {|
  it_st := N;
  it_next := bits_next;
  it_back := Some bits_back;
  it_hint := fun bits => let len := count_ones bits in (len, Some len);
  it_clone := fun bits => bits;
  it_drop := fun D dr d bits => (d, false)
|}.

(** * BooleanMapStorage, src/map/storage/boolean.rs *)
Section Boolean.
  Context {V : Type}.

  (** [struct BooleanMapStorage { t, f }], boolean.rs:73-77. *)
  Record bool_map : Type := MkBoolMap { bm_t : option V; bm_f : option V }.

  (** Path of the field [t] (boolean.rs:75). *)
  Definition bm_path_t : ref := [0].
  (** Path of the field [f] (boolean.rs:76). *)
  Definition bm_path_f : ref := [1].

  (** The places [self.t] and [self.f], boolean.rs:75-76. *)
  Definition bm_cells : cells bool_map V := {|
    cell_get := fun st r =>
      match r with
      | [0] => Some (bm_t st)
      | [1] => Some (bm_f st)
      | _ => None
      end;
    cell_set := fun st r o =>
      match r with
      | [0] => Some (MkBoolMap o (bm_f st))
      | [1] => Some (MkBoolMap (bm_t st) o)
      | _ => None
      end
  |}.

  (** [len], boolean.rs:234-236.  Simplification: no saturation of [usize]. *)
  Definition bm_len (st : bool_map) : nat :=
    usize_from (is_some (bm_t st)) + usize_from (is_some (bm_f st)).

  (** [insert], boolean.rs:244-250. *)
  Definition bm_insert (st : bool_map) (key : bool) (value : V)
    : option V * bool_map :=
    if key
    then let '(old, new) := mem_replace (bm_t st) (Some value) in
         (old, MkBoolMap new (bm_f st))
    else let '(old, new) := mem_replace (bm_f st) (Some value) in
         (old, MkBoolMap (bm_t st) new).

  (** [contains_key], boolean.rs:253-259. *)
  Definition bm_contains_key (st : bool_map) (key : bool) : bool :=
    if key then is_some (bm_t st) else is_some (bm_f st).

  (** [get], boolean.rs:262-268. *)
  Definition bm_get (st : bool_map) (key : bool) : option V :=
    if key then bm_t st else bm_f st.

  (** [get_mut], boolean.rs:271-277. *)
  Definition bm_get_mut (st : bool_map) (key : bool) : option ref :=
    if key then opt_as_mut bm_path_t (bm_t st) else opt_as_mut bm_path_f (bm_f st).

  (** [remove], boolean.rs:280-286. *)
  Definition bm_remove (st : bool_map) (key : bool) : option V * bool_map :=
    if key
    then let '(old, new) := mem_replace (bm_t st) None in
         (old, MkBoolMap new (bm_f st))
    else let '(old, new) := mem_replace (bm_f st) None in
         (old, MkBoolMap (bm_t st) new).

  (** [clear], boolean.rs:306-309. *)
  Definition bm_clear_drop (D : Type) (dr : drop_fn D V) (d : D)
    (st : bool_map) : D * bool_map * outcome :=
    match drop_cell dr d (bm_t st) with
    | (d1, t1, Unwound) => (d1, MkBoolMap t1 (bm_f st), Unwound)
    | (d1, t1, Done) =>
        let '(d2, f2, o) := drop_cell dr d1 (bm_f st) in (d2, MkBoolMap t1 f2, o)
    end.

  (** Derived [Clone], boolean.rs:73. *)
  Definition bm_clone_with (S : Type) (f : clone_fn S V) (s : S)
    (st : bool_map) : S * option bool_map :=
    match clone_cell f s (bm_t st) with
    | (s1, None) => (s1, None)
    | (s1, Some t1) =>
        let '(s2, f2) := clone_cell f s1 (bm_f st) in (s2, option_map (MkBoolMap t1) f2)
    end.

  (** Derived [Clone], boolean.rs:73; when the second clone unwinds, the first is
      dropped. *)
  Definition bm_clone_undo (S : Type) (f : clone_fn S V) (dr : drop_fn S V) (s : S)
    (st : bool_map) : S * option bool_map :=
    match clone_cell f s (bm_t st) with
    | (s1, None) => (s1, None)
    | (s1, Some t1) =>
        match clone_cell f s1 (bm_f st) with
        | (s2, None) => (fst (opt_drop dr s2 t1), None)
        | (s2, Some f2) => (s2, Some (MkBoolMap t1 f2))
        end
    end.

  (** [retain], boolean.rs:289-303. *)
  Definition bm_retain (S : Type) (f : retain_fn S bool V) (s : S)
    (st : bool_map) : S * bool_map * outcome :=
    match retain_cell f s true (bm_t st) with
    | (s1, t1, Unwound) => (s1, MkBoolMap t1 (bm_f st), Unwound)
    | (s1, t1, Done) =>
        let '(s2, f2, o) := retain_cell f s1 false (bm_f st) in
        (s2, MkBoolMap t1 f2, o)
    end.

  (** [keys], boolean.rs:321-326. *)
  Definition bm_keys (st : bool_map) : N :=
    N.lor (if is_some (bm_t st) then TRUE_BIT else 0%N)
          (if is_some (bm_f st) then FALSE_BIT else 0%N).

  (** [entry], boolean.rs:357-369. *)
  Definition bm_entry (st : bool_map) (key : bool)
    : res (entry (keyed bool some_bucket) (keyed bool none_bucket)) :=
    if key
    then res_map (keyed_entry key) (option_bucket_new bm_cells st bm_path_t)
    else res_map (keyed_entry key) (option_bucket_new bm_cells st bm_path_f).

  (** [a.chain(b)] with the two maps to [true] / [false],
      boolean.rs:312-318, 334-340, 348-354. *)
  Definition bm_pair_it (A : Type) : iterator (bool * A) :=
    chain_it (map_it (fun v => (true, v)) (opt_it A))
             (map_it (fun v => (false, v)) (opt_it A)).

  (** [impl MapStorage<bool, V> for BooleanMapStorage<V>],
      boolean.rs:194-370; derived [Clone], [PartialEq] 73; entry traits
      150-192. *)
  Definition bool_map_storage : MapStorage bool V := {|
    ms_St := bool_map;
    ms_Iter := bm_pair_it V;
    ms_Keys := bits_it;
    ms_Values := chain_it (opt_it V) (opt_it V);
    ms_IterMut := bm_pair_it ref;
    ms_ValuesMut := chain_it (opt_it ref) (opt_it ref);
    ms_IntoIter := bm_pair_it V;
    ms_empty := fun _ => MkBoolMap None None; (* 226-231 *)
    ms_len := bm_len;
    ms_is_empty := fun st => is_none (bm_t st) && is_none (bm_f st); (* 239-241 *)
    ms_insert := bm_insert;
    ms_contains_key := bm_contains_key;
    ms_get := bm_get;
    ms_get_mut := bm_get_mut;
    ms_remove := bm_remove;
    ms_retain := bm_retain;
    ms_clear := fun _ => MkBoolMap None None; (* 306-309 *)
    ms_clear_drop := bm_clear_drop;
    ms_iter := fun st => (Some (bm_t st), Some (bm_f st)); (* 312-318 *)
    ms_keys := bm_keys;
    ms_values := fun st => (Some (bm_t st), Some (bm_f st));     (* 329-331 *)
    ms_iter_mut := fun st => (Some (opt_as_mut bm_path_t (bm_t st)),
                              Some (opt_as_mut bm_path_f (bm_f st))); (* 334-340 *)
    ms_values_mut := fun st => (Some (opt_as_mut bm_path_t (bm_t st)),
                                Some (opt_as_mut bm_path_f (bm_f st))); (* 343-345 *)
    ms_into_iter := fun st => (Some (bm_t st), Some (bm_f st));  (* 348-354 *)
    ms_load := cell_load bm_cells;
    ms_store := cell_store bm_cells;
    ms_Occ := keyed bool some_bucket;
    ms_Vac := keyed bool none_bucket;
    ms_entry := bm_entry;
    ms_occ_key := fun _ e => Ok (kb_key e); (* 164-166 *)
    ms_occ_get := fun st e => some_as_ref bm_cells st (kb_inner e);  (* 169-171 *)
    ms_occ_get_mut := fun st e => some_as_mut bm_cells st (kb_inner e); (* 174-176 *)
    ms_occ_into_mut := fun st e => some_into_mut bm_cells st (kb_inner e); (* 179-181 *)
    ms_occ_insert := fun st e v => some_replace bm_cells st (kb_inner e) v; (* 184-186 *)
    ms_occ_remove := fun st e => some_take bm_cells st (kb_inner e); (* 189-191 *)
    ms_vac_key := fun _ e => kb_key e; (* 152-154 *)
    ms_vac_insert := fun st e v => none_insert bm_cells st (kb_inner e) v; (* 157-159 *)
    ms_clone_with := bm_clone_with;
    ms_clone_undo := bm_clone_undo;
    ms_drop := fun D dr d st =>
      then_drop (opt_drop dr d (bm_t st)) (fun d1 => opt_drop dr d1 (bm_f st)); (* 74-77 *)
    ms_clone := fun cl st =>
      MkBoolMap (option_map cl (bm_t st)) (option_map cl (bm_f st)); (* 73 *)
    ms_eq_with := fun S f s a b =>
      eq_and (eq_cell f s (bm_t a) (bm_t b))
        (fun s1 => eq_cell f s1 (bm_f a) (bm_f b));              (* 73 *)
    ms_eq := fun eq a b =>
      option_eq eq (bm_t a) (bm_t b) && option_eq eq (bm_f a) (bm_f b); (* 73 *)
    ms_hash_with := None;
    ms_partial_cmp_with := None;
    ms_cmp_with := None;
    ms_hash := None;
    ms_partial_cmp := None;
    ms_cmp := None
  |}.
End Boolean.
Arguments bool_map V : clear implicits.
Arguments bool_map_storage V : clear implicits.

(** * OptionMapStorage, src/map/storage/option.rs *)
Section Option.
  Context {K V : Type} (inner : MapStorage K V).

  (** [struct OptionMapStorage { some: K::MapStorage<V>, none: Option<V> }],
      option.rs:72-78. *)
  Record opt_map : Type := MkOptMap { om_some : ms_St inner; om_none : option V }.

  (** Path of the field [none]; references into [some] are prefixed by 0
      (option.rs:76-77). *)
  Definition om_path_none : ref := [1].

  (** The place [self.none] (option.rs:77). *)
  Definition om_cells : cells opt_map V := {|
    cell_get := fun st r => match r with [1] => Some (om_none st) | _ => None end;
    cell_set := fun st r o =>
      match r with [1] => Some (MkOptMap (om_some st) o) | _ => None end
  |}.

  (** Reading through a [&mut V] into this storage (result of
      option.rs:297-302). *)
  Definition om_load (st : opt_map) (r : ref) : option V :=
    match r with
    | 0 :: r' => ms_load inner (om_some st) r'
    | _ => cell_load om_cells st r
    end.

  (** Assigning through a [&mut V] into this storage (result of
      option.rs:297-302). *)
  Definition om_store (st : opt_map) (r : ref) (v : V) : option opt_map :=
    match r with
    | 0 :: r' =>
        option_map (fun s => MkOptMap s (om_none st)) (ms_store inner (om_some st) r' v)
    | _ => cell_store om_cells st r v
    end.

  (** [insert], option.rs:273-278. *)
  Definition om_insert (st : opt_map) (key : option K) (value : V)
    : option V * opt_map :=
    match key with
    | Some k => let '(old, s) := ms_insert inner (om_some st) k value in
                (old, MkOptMap s (om_none st))
    | None => let '(old, new) := mem_replace (om_none st) (Some value) in
              (old, MkOptMap (om_some st) new)
    end.

  (** [contains_key], option.rs:281-286. *)
  Definition om_contains_key (st : opt_map) (key : option K) : bool :=
    match key with
    | Some k => ms_contains_key inner (om_some st) k
    | None => is_some (om_none st)
    end.

  (** [get], option.rs:289-294. *)
  Definition om_get (st : opt_map) (key : option K) : option V :=
    match key with
    | Some k => ms_get inner (om_some st) k
    | None => om_none st
    end.

  (** [get_mut], option.rs:297-302. *)
  Definition om_get_mut (st : opt_map) (key : option K) : option ref :=
    match key with
    | Some k => option_map (cons 0) (ms_get_mut inner (om_some st) k)
    | None => opt_as_mut om_path_none (om_none st)
    end.

  (** [remove], option.rs:305-310. *)
  Definition om_remove (st : opt_map) (key : option K) : option V * opt_map :=
    match key with
    | Some k => let '(old, s) := ms_remove inner (om_some st) k in
                (old, MkOptMap s (om_none st))
    | None => let '(old, new) := mem_replace (om_none st) None in
              (old, MkOptMap (om_some st) new)
    end.

  (** [clear], option.rs:326-329. *)
  Definition om_clear_drop (D : Type) (dr : drop_fn D V) (d : D)
    (st : opt_map) : D * opt_map * outcome :=
    match ms_clear_drop inner dr d (om_some st) with
    | (d1, some1, Unwound) => (d1, MkOptMap some1 (om_none st), Unwound)
    | (d1, some1, Done) =>
        let '(d2, none2, o) := drop_cell dr d1 (om_none st) in (d2, MkOptMap some1 none2, o)
    end.

  (** [Clone], option.rs:86-92. *)
  Definition om_clone_with (S : Type) (f : clone_fn S V) (s : S)
    (st : opt_map) : S * option opt_map :=
    match ms_clone_with inner f s (om_some st) with
    | (s1, None) => (s1, None)
    | (s1, Some some1) =>
        let '(s2, none2) := clone_cell f s1 (om_none st) in (s2, option_map (MkOptMap some1) none2)
    end.

  (** [Clone], option.rs:86-92; when cloning [none] unwinds, the clone of [some] is
      dropped. *)
  Definition om_clone_undo (S : Type) (f : clone_fn S V) (dr : drop_fn S V) (s : S)
    (st : opt_map) : S * option opt_map :=
    match ms_clone_undo inner f dr s (om_some st) with
    | (s1, None) => (s1, None)
    | (s1, Some some1) =>
        match clone_cell f s1 (om_none st) with
        | (s2, None) => (fst (ms_drop inner dr s2 some1), None)
        | (s2, Some none2) => (s2, Some (MkOptMap some1 none2))
        end
    end.

  (** [retain], option.rs:313-323. *)
  Definition om_retain (S : Type) (f : retain_fn S (option K) V) (s : S)
    (st : opt_map) : S * opt_map * outcome :=
    match ms_retain inner (fun s k v => f s (Some k) v) s (om_some st) with
    | (s1, some1, Unwound) => (s1, MkOptMap some1 (om_none st), Unwound)
    | (s1, some1, Done) =>
        let '(s2, none2, o) := retain_cell f s1 None (om_none st) in
        (s2, MkOptMap some1 none2, o)
    end.

  (** [entry], option.rs:378-389; the entry enums are option.rs:123-137, [inl]
      being [Some(..)] and [inr] being [None(..)]. *)
  Definition om_entry (st : opt_map) (key : option K)
    : res (entry (ms_Occ inner + some_bucket) (ms_Vac inner + none_bucket)) :=
    match key with
    | Some k =>
        res_map (fun e => match e with
                          | Occupied o => Occupied (inl o)
                          | Vacant v => Vacant (inl v)
                          end) (ms_entry inner (om_some st) k)
    | None =>
        res_map (fun b => match b with
                          | OBSome some => Occupied (inr some)
                          | OBNone none => Vacant (inr none)
                          end) (option_bucket_new om_cells st om_path_none)
    end.

  (** Put a modified [some] field back (borrow of [self.some] in
      option.rs:380). *)
  Definition om_with_some (st : opt_map) {A} (r : A * ms_St inner) : A * opt_map :=
    (fst r, MkOptMap (snd r) (om_none st)).

  (** [OccupiedEntry::key], option.rs:165-170. *)
  Definition om_occ_key (st : opt_map) (e : ms_Occ inner + some_bucket)
    : res (option K) :=
    match e with
    | inr _ => Ok None
    | inl e => res_map Some (ms_occ_key inner (om_some st) e)
    end.

  (** [OccupiedEntry::get], option.rs:173-178. *)
  Definition om_occ_get (st : opt_map) (e : ms_Occ inner + some_bucket) : res V :=
    match e with
    | inr b => some_as_ref om_cells st b
    | inl e => ms_occ_get inner (om_some st) e
    end.

  (** [OccupiedEntry::get_mut], option.rs:181-186. *)
  Definition om_occ_get_mut (st : opt_map) (e : ms_Occ inner + some_bucket)
    : res ref :=
    match e with
    | inr b => some_as_mut om_cells st b
    | inl e => res_map (cons 0) (ms_occ_get_mut inner (om_some st) e)
    end.

  (** [OccupiedEntry::into_mut], option.rs:189-194. *)
  Definition om_occ_into_mut (st : opt_map) (e : ms_Occ inner + some_bucket)
    : res ref :=
    match e with
    | inr b => some_into_mut om_cells st b
    | inl e => res_map (cons 0) (ms_occ_into_mut inner (om_some st) e)
    end.

  (** [OccupiedEntry::insert], option.rs:197-202. *)
  Definition om_occ_insert (st : opt_map) (e : ms_Occ inner + some_bucket)
    (value : V) : res (V * opt_map) :=
    match e with
    | inr b => some_replace om_cells st b value
    | inl e => res_map (om_with_some st) (ms_occ_insert inner (om_some st) e value)
    end.

  (** [OccupiedEntry::remove], option.rs:205-210. *)
  Definition om_occ_remove (st : opt_map) (e : ms_Occ inner + some_bucket)
    : res (V * opt_map) :=
    match e with
    | inr b => some_take om_cells st b
    | inl e => res_map (om_with_some st) (ms_occ_remove inner (om_some st) e)
    end.

  (** [VacantEntry::key], option.rs:144-149. *)
  Definition om_vac_key (st : opt_map) (e : ms_Vac inner + none_bucket) : option K :=
    match e with
    | inr _ => None
    | inl e => Some (ms_vac_key inner (om_some st) e)
    end.

  (** [VacantEntry::insert], option.rs:152-157. *)
  Definition om_vac_insert (st : opt_map) (e : ms_Vac inner + none_bucket)
    (value : V) : res (ref * opt_map) :=
    match e with
    | inr b => none_insert om_cells st b value
    | inl e =>
        res_map (fun r => om_with_some st (0 :: fst r, snd r))
                (ms_vac_insert inner (om_some st) e value)
    end.

  (** [impl MapStorage<Option<K>, V> for OptionMapStorage<K, V>],
      option.rs:213-390; [Clone] 80-93, [PartialEq] 103-113. *)
  Definition opt_map_storage : MapStorage (option K) V := {|
    ms_St := opt_map;
    ms_Iter := chain_it (map_it (fun e => (Some (fst e), snd e)) (ms_Iter inner))
                        (map_it (fun v => (None, v)) (opt_it V));
    ms_Keys := chain_it (map_it Some (ms_Keys inner)) (opt_it (option K));
    ms_Values := chain_it (ms_Values inner) (opt_it V);
    ms_IterMut :=
      chain_it (map_it (fun e => (Some (fst e), 0 :: snd e)) (ms_IterMut inner))
               (map_it (fun v => (None, v)) (opt_it ref));
    ms_ValuesMut := chain_it (map_it (cons 0) (ms_ValuesMut inner)) (opt_it ref);
    ms_IntoIter :=
      chain_it (map_it (fun e => (Some (fst e), snd e)) (ms_IntoIter inner))
               (map_it (fun v => (None, v)) (opt_it V));
    ms_empty := fun w => MkOptMap (ms_empty inner (sub_world 0 w)) None; (* 255-260 *)
    ms_len := fun st =>
      ms_len inner (om_some st) + usize_from (is_some (om_none st)); (* 263-265 *)
    ms_is_empty := fun st =>
      ms_is_empty inner (om_some st) && is_none (om_none st);    (* 268-270 *)
    ms_insert := om_insert;
    ms_contains_key := om_contains_key;
    ms_get := om_get;
    ms_get_mut := om_get_mut;
    ms_remove := om_remove;
    ms_retain := om_retain;
    ms_clear := fun st => MkOptMap (ms_clear inner (om_some st)) None; (* 326-329 *)
    ms_clear_drop := om_clear_drop;
    ms_iter := fun st => (Some (ms_iter inner (om_some st)), Some (om_none st)); (* 332-338 *)
    ms_keys := fun st =>
      (Some (ms_keys inner (om_some st)),
       Some (if is_some (om_none st) then Some None else None)); (* 341-347 *)
    ms_values := fun st =>
      (Some (ms_values inner (om_some st)), Some (om_none st));  (* 350-352 *)
    ms_iter_mut := fun st =>
      (Some (ms_iter_mut inner (om_some st)),
       Some (opt_as_mut om_path_none (om_none st)));             (* 355-361 *)
    ms_values_mut := fun st =>
      (Some (ms_values_mut inner (om_some st)),
       Some (opt_as_mut om_path_none (om_none st)));             (* 364-366 *)
    ms_into_iter := fun st =>
      (Some (ms_into_iter inner (om_some st)), Some (om_none st)); (* 369-375 *)
    ms_load := om_load;
    ms_store := om_store;
    ms_Occ := ms_Occ inner + some_bucket;
    ms_Vac := ms_Vac inner + none_bucket;
    ms_entry := om_entry;
    ms_occ_key := om_occ_key;
    ms_occ_get := om_occ_get;
    ms_occ_get_mut := om_occ_get_mut;
    ms_occ_into_mut := om_occ_into_mut;
    ms_occ_insert := om_occ_insert;
    ms_occ_remove := om_occ_remove;
    ms_vac_key := om_vac_key;
    ms_vac_insert := om_vac_insert;
    ms_clone_with := om_clone_with;
    ms_clone_undo := om_clone_undo;
    ms_drop := fun D dr d st =>
      then_drop (ms_drop inner dr d (om_some st)) (fun d1 => opt_drop dr d1 (om_none st)); (* 72-78 *)
    ms_clone := fun cl st =>
      MkOptMap (ms_clone inner cl (om_some st)) (option_map cl (om_none st)); (* 86-92 *)
    ms_eq_with := fun S f s a b =>
      eq_and (eq_cell f s (om_none a) (om_none b))
        (fun s1 => ms_eq_with inner f s1 (om_some a) (om_some b)); (* 110-112 *)
    ms_eq := fun eq a b =>
      option_eq eq (om_none a) (om_none b) &&
      ms_eq inner eq (om_some a) (om_some b);                    (* 110-112 *)
    ms_hash_with := None;
    ms_partial_cmp_with := None;
    ms_cmp_with := None;
    ms_hash := None;
    ms_partial_cmp := None;
    ms_cmp := None
  |}.
End Option.

(** * HashbrownMapStorage, src/map/storage/hashbrown.rs *)
Section Hash.
  Context {K V : Type}.
  (** [Eq] of the key type (hashbrown.rs:121). *)
  Variable eqb : K -> K -> bool.

  (** [hashbrown::hash_map::OccupiedEntry]: the bucket of the key
      (hashbrown.rs:7). *)
  Record hash_occ : Type := MkHashOcc { ho_bucket : nat }.

  (** [hashbrown::hash_map::VacantEntry]: the key to insert (hashbrown.rs:8). *)
  Record hash_vac : Type := MkHashVac { hv_key : K }.

  (** Reading a [&mut V] into a bucket (hashbrown.rs:199-201). *)
  Definition hm_load (t : htable K V) (r : ref) : option V :=
    match r with [i] => h_load (ht_entries t) i | _ => None end.

  (** Assigning a [&mut V] into a bucket (hashbrown.rs:199-201). *)
  Definition hm_store (t : htable K V) (r : ref) (v : V) : option (htable K V) :=
    match r with
    | [i] => option_map (MkTable (ht_orders t)) (h_store (ht_entries t) i v)
    | _ => None
    end.

  (** [get_mut], hashbrown.rs:199-201. *)
  Definition hm_get_mut (t : htable K V) (k : K) : option ref :=
    option_map (fun i => [i]) (h_find eqb k (ht_entries t)).

  (** [entry], hashbrown.rs:254-259. *)
  Definition hm_entry (t : htable K V) (k : K) : res (entry hash_occ hash_vac) :=
    match h_find eqb k (ht_entries t) with
    | Some i => Ok (Occupied (MkHashOcc i))
    | None => Ok (Vacant (MkHashVac k))
    end.

  (** [OccupiedEntry::key], hashbrown.rs:74-76.  A bucket that does not exist
      would be UB inside hashbrown. *)
  Definition hm_occ_key (t : htable K V) (e : hash_occ) : res K :=
    match nth_error (ht_entries t) (ho_bucket e) with Some (k, _) => Ok k | None => UB end.

  (** [OccupiedEntry::get], hashbrown.rs:79-81. *)
  Definition hm_occ_get (t : htable K V) (e : hash_occ) : res V :=
    match nth_error (ht_entries t) (ho_bucket e) with Some (_, v) => Ok v | None => UB end.

  (** [OccupiedEntry::get_mut] and [into_mut], hashbrown.rs:84-91. *)
  Definition hm_occ_get_mut (t : htable K V) (e : hash_occ) : res ref :=
    match nth_error (ht_entries t) (ho_bucket e) with
    | Some _ => Ok [ho_bucket e]
    | None => UB
    end.

  (** [OccupiedEntry::insert], hashbrown.rs:94-96. *)
  Definition hm_occ_insert (t : htable K V) (e : hash_occ) (v : V)
    : res (V * htable K V) :=
    match nth_error (ht_entries t) (ho_bucket e), h_store (ht_entries t) (ho_bucket e) v with
    | Some (_, old), Some l => Ok (old, MkTable (ht_orders t) l)
    | _, _ => UB
    end.

  (** [OccupiedEntry::remove], hashbrown.rs:99-101. *)
  Definition hm_occ_remove (t : htable K V) (e : hash_occ)
    : res (V * htable K V) :=
    match h_take (ht_entries t) (ho_bucket e) with
    | Some (_, v, l) => Ok (v, MkTable (ht_orders t) l)
    | None => UB
    end.

  (** [VacantEntry::insert], hashbrown.rs:114-116. *)
  Definition hm_vac_insert (t : htable K V) (e : hash_vac) (v : V)
    : res (ref * htable K V) :=
    let t' := h_add (hv_key e) v t in
    match h_find eqb (hv_key e) (ht_entries t') with
    | Some i => Ok ([i], t')
    | None => UB
    end.

  (** [impl MapStorage<K, V> for HashbrownMapStorage<K, V>],
      hashbrown.rs:119-260; [Clone] 38-49, [PartialEq] 51-60. *)
  Definition hash_map_storage : MapStorage K V := {|
    ms_St := htable K V;
    ms_Iter := hash_it (K * V);
    ms_Keys := hash_it K;
    ms_Values := hash_it V;
    ms_IterMut := hash_it (K * ref);
    ms_ValuesMut := hash_it ref;
    ms_IntoIter := hash_it (K * V);
    ms_empty := fun w => MkTable (w []) []; (* 167-171 *)
    ms_len := fun t => length (ht_entries t); (* 174-176 *)
    ms_is_empty := fun t =>
      match ht_entries t with [] => true | _ :: _ => false end; (* 179-181 *)
    ms_insert := fun t k v => h_insert eqb k v t; (* 184-186 *)
    ms_contains_key := fun t k => is_some (h_get eqb k (ht_entries t)); (* 189-191 *)
    ms_get := fun t k => h_get eqb k (ht_entries t); (* 194-196 *)
    ms_get_mut := hm_get_mut;
    ms_remove := fun t k => h_remove eqb k t; (* 204-206 *)
    ms_retain := fun S f s t => h_retain f s t; (* 209-214 *)
    ms_clear := fun t => MkTable (ht_orders t) []; (* 217-219 *)
    ms_clear_drop := fun D dr d t => h_clear_drop dr d t; (* 217-219 *)
    ms_iter := fun t => ht_entries t; (* 222-225 *)
    ms_keys := fun t => map fst (ht_entries t); (* 228-230 *)
    ms_values := fun t => map snd (ht_entries t); (* 233-235 *)
    ms_iter_mut := fun t => h_refs 0 (ht_entries t); (* 238-241 *)
    ms_values_mut := fun t => map snd (h_refs 0 (ht_entries t)); (* 244-246 *)
    ms_into_iter := fun t => ht_entries t; (* 249-251 *)
    ms_load := hm_load;
    ms_store := hm_store;
    ms_Occ := hash_occ;
    ms_Vac := hash_vac;
    ms_entry := hm_entry;
    ms_occ_key := hm_occ_key;
    ms_occ_get := hm_occ_get;
    ms_occ_get_mut := hm_occ_get_mut;
    ms_occ_into_mut := hm_occ_get_mut;
    ms_occ_insert := hm_occ_insert;
    ms_occ_remove := hm_occ_remove;
    ms_vac_key := fun _ e => hv_key e; (* 109-111 *)
    ms_vac_insert := hm_vac_insert;
    ms_clone_with := fun S f s t => h_clone_with f s t; (* 43-48 *)
    ms_clone_undo := fun S f dr s t => h_clone_undo f dr s t; (* 43-48 *)
    ms_drop := fun D dr d t => h_drop_table dr d t; (* 34-36 *)
    ms_clone := fun cl t =>
      MkTable (ht_orders t) (map (fun e => (fst e, cl (snd e))) (ht_entries t)); (* 43-48 *)
    ms_eq_with := fun S f s a b => h_eq_with eqb f s (ht_entries a) (ht_entries b); (* 57-59 *)
    ms_eq := fun eq a b => h_eq eqb eq (ht_entries a) (ht_entries b); (* 57-59 *)
    ms_hash_with := None;
    ms_partial_cmp_with := None;
    ms_cmp_with := None;
    ms_hash := None;
    ms_partial_cmp := None;
    ms_cmp := None
  |}.
End Hash.
