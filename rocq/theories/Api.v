(** The public types [Map], [Entry] and [Set]: src/map.rs, src/map/entry.rs,
    src/set.rs, src/set/intersection.rs.  [Map<K, V>] and [Set<T>] are
    [repr(transparent)] wrappers of their storage (src/map.rs:109-115,
    src/set.rs:79-85); the model identifies them with the storage state. *)
Require Import List Arith NArith ZArith Bool.
Import ListNotations.
From Verif Require Import Std Traits.

(** * Running iterators *)

(** A [for] loop collecting all items (src/map.rs:1376, 1399,
    src/set.rs:1017).  [None] if the iterator yields more than [fuel] items. *)
Fixpoint drain {A} (i : iterator A) (fuel : nat) (s : it_st i) : option (list A) :=
  match fuel with
  | 0 => None
  | S f =>
      match it_next i s with
      | (None, _) => Some []
      | (Some x, s') => option_map (cons x) (drain i f s')
      end
  end.

(** The same from the back, e.g. [for x in iter.rev()]
    (documented at src/map.rs:1296-1299). *)
Fixpoint drain_back {A} (i : iterator A)
  (back : it_st i -> option A * it_st i) (fuel : nat) (s : it_st i)
  : option (list A) :=
  match fuel with
  | 0 => None
  | S f =>
      match back s with
      | (None, _) => Some []
      | (Some x, s') => option_map (cons x) (drain_back i back f s')
      end
  end.

(** * Ordering: default methods of core *)

(** [PartialOrd::lt], default method (src/map.rs:1148-1150). *)
Definition pc_lt (o : option comparison) : bool :=
  match o with Some Lt => true | _ => false end.
(** [PartialOrd::le], default method (src/map.rs:1153-1155). *)
Definition pc_le (o : option comparison) : bool :=
  match o with Some Lt | Some Eq => true | _ => false end.
(** [PartialOrd::gt], default method (src/map.rs:1158-1160). *)
Definition pc_gt (o : option comparison) : bool :=
  match o with Some Gt => true | _ => false end.
(** [PartialOrd::ge], default method (src/map.rs:1163-1165). *)
Definition pc_ge (o : option comparison) : bool :=
  match o with Some Gt | Some Eq => true | _ => false end.
(** [Ord::max], default method (src/map.rs:1227-1231). *)
Definition ord_max {A} (cmp : A -> A -> comparison) (a b : A) : A :=
  match cmp a b with Gt => a | _ => b end.
(** [Ord::min], default method (src/map.rs:1234-1238). *)
Definition ord_min {A} (cmp : A -> A -> comparison) (a b : A) : A :=
  match cmp a b with Gt => b | _ => a end.
(** [Ord::clamp], default method (src/map.rs:1241-1245): asserts
    [min <= max]. *)
Definition ord_clamp {A} (pcmp : A -> A -> option comparison) (a min max : A) : res A :=
  if pc_le (pcmp min max) then
    Ok (if pc_lt (pcmp a min) then min
        else if pc_gt (pcmp a max) then max else a)
  else Panic.

(** * serde *)

(** What [serialize] uses of a serializer: [serialize_map(Some(len))] /
    [serialize_seq(Some(len))], [serialize_entry] / [serialize_element], [end]
    (src/map.rs:1397-1403, src/set.rs:1015-1021). *)
Record serializer (A Out Err : Type) : Type := MkSer {
  ser_st : Type;
  ser_start : option nat -> ser_st + Err;
  ser_elem : ser_st -> A -> ser_st + Err;
  ser_end : ser_st -> Out + Err
}.
Arguments MkSer {A Out Err}.
Arguments ser_st {A Out Err}.
Arguments ser_start {A Out Err}.
Arguments ser_elem {A Out Err}.
Arguments ser_end {A Out Err}.

(** The loop [for x in self { seq.serialize_element(&x)?; } seq.end()]
    (src/map.rs:1399-1403, src/set.rs:1017-1021). *)
Fixpoint ser_loop {A Out Err} (z : serializer A Out Err) (i : iterator A)
  (fuel : nat) (it : it_st i) (s : ser_st z) : option (Out + Err) :=
  match fuel with
  | 0 => None
  | S f =>
      match it_next i it with
      | (None, _) => Some (ser_end z s)
      | (Some x, it') =>
          match ser_elem z s x with
          | inl s' => ser_loop z i f it' s'
          | inr e => Some (inr e)
          end
      end
  end.

(** [serialize], src/map.rs:1391-1404 and src/set.rs:1010-1022. *)
Definition serialize {A Out Err} (z : serializer A Out Err) (i : iterator A)
  (fuel : nat) (len : nat) (it : it_st i) : option (Out + Err) :=
  match ser_start z (Some len) with
  | inl s => ser_loop z i fuel it s
  | inr e => Some (inr e)
  end.

(** What [visit_map] / [visit_seq] use of their argument:
    [next_entry()] / [next_element()] (src/map.rs:1438, src/set.rs:1055). *)
Definition access (D A Err : Type) : Type := D -> (option A + Err) * D.

(** The loop [while let Some(x) = visitor.next()? { insert(x) }]
    (src/map.rs:1436-1442, src/set.rs:1053-1059). *)
Fixpoint visit {D A Err St} (acc : access D A Err) (insert : St -> A -> St)
  (fuel : nat) (d : D) (st : St) : option (St + Err) :=
  match fuel with
  | 0 => None
  | S f =>
      match acc d with
      | (inl None, _) => Some (inl st)
      | (inl (Some x), d') => visit acc insert f d' (insert st x)
      | (inr e, _) => Some (inr e)
      end
  end.

(** * Map, src/map.rs *)
Section Map.
  Context {K V : Type} (m : MapStorage K V).

  (** [Map::new], map.rs:183-187. *)
  Definition map_new (w : world) : ms_St m := ms_empty m w.
  (** [Default::default], map.rs:934-936. *)
  Definition map_default (w : world) : ms_St m := map_new w.
  (** [Map::iter], map.rs:211-213; also [IntoIterator for &Map] 1256-1258. *)
  Definition map_iter (st : ms_St m) : it_st (ms_Iter m) := ms_iter m st.
  (** [Map::keys], map.rs:260-262. *)
  Definition map_keys (st : ms_St m) : it_st (ms_Keys m) := ms_keys m st.
  (** [Map::values], map.rs:307-309. *)
  Definition map_values (st : ms_St m) : it_st (ms_Values m) := ms_values m st.
  (** [Map::iter_mut], map.rs:361-363; also [IntoIterator for &mut Map]
      1271-1273. *)
  Definition map_iter_mut (st : ms_St m) : it_st (ms_IterMut m) := ms_iter_mut m st.
  (** [Map::values_mut], map.rs:432-434. *)
  Definition map_values_mut (st : ms_St m) : it_st (ms_ValuesMut m) := ms_values_mut m st.
  (** [IntoIterator for Map], map.rs:1340-1342. *)
  Definition map_into_iter (st : ms_St m) : it_st (ms_IntoIter m) := ms_into_iter m st.
  (** [Map::contains_key], map.rs:455-457. *)
  Definition map_contains_key (st : ms_St m) (key : K) : bool := ms_contains_key m st key.
  (** [Map::get], map.rs:495-497. *)
  Definition map_get (st : ms_St m) (key : K) : option V := ms_get m st key.
  (** [Map::get_mut], map.rs:544-546. *)
  Definition map_get_mut (st : ms_St m) (key : K) : option ref := ms_get_mut m st key.
  (** [Map::insert], map.rs:575-577. *)
  Definition map_insert (st : ms_St m) (key : K) (value : V) : option V * ms_St m :=
    ms_insert m st key value.
  (** [Map::remove], map.rs:599-601. *)
  Definition map_remove (st : ms_St m) (key : K) : option V * ms_St m :=
    ms_remove m st key.
  (** [Map::retain], map.rs:666-671. *)
  Definition map_retain {S} (f : retain_fn S K V) (s : S) (st : ms_St m)
    : S * ms_St m * outcome := ms_retain m f s st.
  (** [Map::clear], map.rs:693-695. *)
  Definition map_clear (st : ms_St m) : ms_St m := ms_clear m st.
  (** [Map::clear], map.rs:693-695, with the destructor of [V] visible. *)
  Definition map_clear_drop {D} (dr : drop_fn D V) (d : D) (st : ms_St m)
    : D * ms_St m * outcome := ms_clear_drop m dr d st.
  (** [Map::is_empty], map.rs:728-730. *)
  Definition map_is_empty (st : ms_St m) : bool := ms_is_empty m st.
  (** [Map::len], map.rs:782-784. *)
  Definition map_len (st : ms_St m) : nat := ms_len m st.
  (** [Map::entry], map.rs:832-834. *)
  Definition map_entry (st : ms_St m) (key : K) : res (entry (ms_Occ m) (ms_Vac m)) :=
    ms_entry m st key.
  (** [Clone::clone], map.rs:869-873; [cl] is [V::clone]. *)
  Definition map_clone (cl : V -> V) (st : ms_St m) : ms_St m := ms_clone m cl st.
  (** [Clone::clone], map.rs:869-873, with the calls of [V::clone] visible. *)
  Definition map_clone_with {S} (f : clone_fn S V) (s : S) (st : ms_St m)
    : S * option (ms_St m) := ms_clone_with m f s st.

  (** [Clone::clone], src/map.rs:869-873, with what happens to the clones already made
      when one unwinds. *)
  Definition map_clone_undo {S} (f : clone_fn S V) (dr : drop_fn S V) (s : S) (st : ms_St m)
    : S * option (ms_St m) := ms_clone_undo m f dr s st.

  (** Dropping a [Map], src/map.rs:110-115: its only field is the storage. *)
  Definition map_drop {D} (dr : drop_fn D V) (d : D) (st : ms_St m) : D * bool :=
    ms_drop m dr d st.
  (** [PartialEq::eq], map.rs:1018-1020. *)
  Definition map_eq (veq : V -> V -> bool) (a b : ms_St m) : bool := ms_eq m veq a b.
  (** [PartialEq::eq], map.rs:1018-1020, with the calls of [V::eq] visible. *)
  Definition map_eq_with {S} (f : eq_fn S V) (s : S) (a b : ms_St m) : S * option bool :=
    ms_eq_with m f s a b.
  (** [FromIterator::from_iter], map.rs:1372-1381. *)
  Definition map_from_iter (w : world) (l : list (K * V)) : ms_St m :=
    fold_left (fun st e => snd (map_insert st (fst e) (snd e))) l (map_new w).

  (** [Hash::hash], map.rs:1080-1085, for storages implementing [Hash]. *)
  Definition map_hash (h : V -> list Z) : option (ms_St m -> list Z) :=
    option_map (fun f => f h) (ms_hash m).
  (** [PartialOrd::partial_cmp], map.rs:1143-1145. *)
  Definition map_partial_cmp (pc : V -> V -> option comparison)
    : option (ms_St m -> ms_St m -> option comparison) :=
    option_map (fun f => f pc) (ms_partial_cmp m).
  (** [PartialOrd::partial_cmp], map.rs:1143-1145, with the calls of
      [V::partial_cmp] visible. *)
  Definition map_partial_cmp_with {S} (f : pcmp_fn S V) : option (pcmp_fn S (ms_St m)) :=
    option_map (fun g => g S f) (ms_partial_cmp_with m).
  (** [Ord::cmp], map.rs:1222-1224, with the calls of [V::cmp] visible. *)
  Definition map_cmp_with {S} (f : cmp_fn S V) : option (cmp_fn S (ms_St m)) :=
    option_map (fun g => g S f) (ms_cmp_with m).
  (** [Hash::hash], map.rs:1080-1085, with the calls of the hasher and of [V::hash]
      visible. *)
  Definition map_hash_with {S} (word : hash_fn S Z) (h : hash_fn S V)
    : option (hash_fn S (ms_St m)) :=
    option_map (fun g => g S word h) (ms_hash_with m).
  (** [PartialOrd::lt], map.rs:1148-1150. *)
  Definition map_lt pc : option (ms_St m -> ms_St m -> bool) :=
    option_map (fun f a b => pc_lt (f a b)) (map_partial_cmp pc).
  (** [PartialOrd::le], map.rs:1153-1155. *)
  Definition map_le pc : option (ms_St m -> ms_St m -> bool) :=
    option_map (fun f a b => pc_le (f a b)) (map_partial_cmp pc).
  (** [PartialOrd::gt], map.rs:1158-1160. *)
  Definition map_gt pc : option (ms_St m -> ms_St m -> bool) :=
    option_map (fun f a b => pc_gt (f a b)) (map_partial_cmp pc).
  (** [PartialOrd::ge], map.rs:1163-1165. *)
  Definition map_ge pc : option (ms_St m -> ms_St m -> bool) :=
    option_map (fun f a b => pc_ge (f a b)) (map_partial_cmp pc).
  (** [Ord::cmp], map.rs:1222-1224. *)
  Definition map_cmp (c : V -> V -> comparison)
    : option (ms_St m -> ms_St m -> comparison) :=
    option_map (fun f => f c) (ms_cmp m).
  (** [Ord::max], map.rs:1227-1231. *)
  Definition map_max c : option (ms_St m -> ms_St m -> ms_St m) :=
    option_map ord_max (map_cmp c).
  (** [Ord::min], map.rs:1234-1238. *)
  Definition map_min c : option (ms_St m -> ms_St m -> ms_St m) :=
    option_map ord_min (map_cmp c).
  (** [Ord::clamp], map.rs:1241-1245. *)
  Definition map_clamp pc : option (ms_St m -> ms_St m -> ms_St m -> res (ms_St m)) :=
    option_map ord_clamp (map_partial_cmp pc).

  (** [Serialize::serialize], map.rs:1391-1404. *)
  Definition map_serialize {Out Err} (z : serializer (K * V) Out Err) (fuel : nat)
    (st : ms_St m) : option (Out + Err) :=
    serialize z (ms_Iter m) fuel (map_len st) (map_iter st).
  (** [visit_map], map.rs:1432-1443. *)
  Definition map_visit {D Err} (acc : access D (K * V) Err) (fuel : nat) (w : world)
    (d : D) : option (ms_St m + Err) :=
    visit acc (fun st e => snd (map_insert st (fst e) (snd e))) fuel d (map_new w).

  (** Reading [*r] for a [&mut V] (e.g. src/map.rs:540). *)
  Definition deref (st : ms_St m) (r : ref) : res V :=
    match ms_load m st r with Some v => Ok v | None => UB end.
  (** Assigning [*r = v] for a [&mut V] (e.g. src/map.rs:540). *)
  Definition assign (st : ms_St m) (r : ref) (v : V) : res (ms_St m) :=
    match ms_store m st r v with Some st' => Ok st' | None => UB end.

  (** * Entry, src/map/entry.rs *)

  (** [Entry<'a, K::MapStorage<V>, K, V>], entry.rs:6-14.  Closures given to the
      methods below carry their captured state [S] and may unwind: a closure
      computing a value then returns no value, a closure modifying a value says
      so after leaving some value behind.  When a closure unwinds the method
      yields no reference or entry; the entry is dropped, which does nothing. *)
  Definition map_entry_t := entry (ms_Occ m) (ms_Vac m).

  (** [OccupiedEntry::into_mut] as used by [Entry], entry.rs:65. *)
  Definition occ_into_mut (st : ms_St m) (o : ms_Occ m) : res (ref * ms_St m) :=
    res_map (fun r => (r, st)) (ms_occ_into_mut m st o).

  (** [Entry::or_insert], entry.rs:63-68. *)
  Definition entry_or_insert (st : ms_St m) (e : map_entry_t) (default : V)
    : res (ref * ms_St m) :=
    match e with
    | Occupied o => occ_into_mut st o
    | Vacant v => ms_vac_insert m st v default
    end.

  (** [Entry::or_insert_with], entry.rs:107-115. *)
  Definition entry_or_insert_with {S} (st : ms_St m) (e : map_entry_t)
    (default : S -> S * option V) (s : S) : res (S * option ref * ms_St m) :=
    match e with
    | Occupied o => res_map (fun '(r, st') => (s, Some r, st')) (occ_into_mut st o)
    | Vacant v =>
        match default s with
        | (s', Some x) => res_map (fun '(r, st') => (s', Some r, st')) (ms_vac_insert m st v x)
        | (s', None) => Ok (s', None, st)
        end
    end.

  (** [Entry::or_insert_with_key], entry.rs:155-166. *)
  Definition entry_or_insert_with_key {S} (st : ms_St m) (e : map_entry_t)
    (default : S -> K -> S * option V) (s : S) : res (S * option ref * ms_St m) :=
    match e with
    | Occupied o => res_map (fun '(r, st') => (s, Some r, st')) (occ_into_mut st o)
    | Vacant v =>
        match default s (ms_vac_key m st v) with
        | (s', Some x) => res_map (fun '(r, st') => (s', Some r, st')) (ms_vac_insert m st v x)
        | (s', None) => Ok (s', None, st)
        end
    end.

  (** [Entry::key], entry.rs:200-205. *)
  Definition entry_key (st : ms_St m) (e : map_entry_t) : res K :=
    match e with
    | Occupied o => ms_occ_key m st o
    | Vacant v => Ok (ms_vac_key m st v)
    end.

  (** [Entry::and_modify], entry.rs:259-270. *)
  Definition entry_and_modify {S} (st : ms_St m) (e : map_entry_t)
    (f : S -> V -> S * V * outcome) (s : S) : res (S * option map_entry_t * ms_St m) :=
    match e with
    | Occupied o =>
        res_bind (ms_occ_get_mut m st o) (fun r =>
        res_bind (deref st r) (fun x =>
        let '(s', x', oc) := f s x in
        let e' := match oc with Done => Some (Occupied o) | Unwound => None end in
        res_map (fun st' => (s', e', st')) (assign st r x')))
    | Vacant v => Ok (s, Some (Vacant v), st)
    end.

  (** [Entry::or_default], entry.rs:309-317; [default] is the result of
      [V::default()], which may unwind. *)
  Definition entry_or_default (st : ms_St m) (e : map_entry_t) (default : option V)
    : res (option ref * ms_St m) :=
    match e with
    | Occupied o => res_map (fun '(r, st') => (Some r, st')) (occ_into_mut st o)
    | Vacant v =>
        match default with
        | Some x => res_map (fun '(r, st') => (Some r, st')) (ms_vac_insert m st v x)
        | None => Ok (None, st)
        end
    end.
End Map.
Arguments map_retain {K V} m {S}.
Arguments entry_or_insert_with {K V} m {S}.
Arguments entry_or_insert_with_key {K V} m {S}.
Arguments entry_and_modify {K V} m {S}.

(** * Set, src/set.rs *)
Section Set_.
  Context {T : Type} (m : SetStorage T).

  (** [Set::new], set.rs:153-157. *)
  Definition set_new (w : world) : ss_St m := ss_empty m w.
  (** [Default::default], set.rs:606-608. *)
  Definition set_default (w : world) : ss_St m := set_new w.
  (** [Set::iter], set.rs:181-183; also [IntoIterator for &Set] 925-927. *)
  Definition set_iter (st : ss_St m) : it_st (ss_Iter m) := ss_iter m st.
  (** [IntoIterator for Set], set.rs:980-982. *)
  Definition set_into_iter (st : ss_St m) : it_st (ss_IntoIter m) := ss_into_iter m st.
  (** [Set::contains], set.rs:204-206. *)
  Definition set_contains (st : ss_St m) (value : T) : bool := ss_contains m st value.
  (** [Set::insert], set.rs:234-236. *)
  Definition set_insert (st : ss_St m) (value : T) : bool * ss_St m := ss_insert m st value.
  (** [Set::remove], set.rs:258-260. *)
  Definition set_remove (st : ss_St m) (value : T) : bool * ss_St m := ss_remove m st value.
  (** [Set::retain], set.rs:328-333. *)
  Definition set_retain {S} (f : set_retain_fn S T) (s : S) (st : ss_St m)
    : S * ss_St m * outcome := ss_retain m f s st.
  (** [Set::clear], set.rs:354-356. *)
  Definition set_clear (st : ss_St m) : ss_St m := ss_clear m st.
  (** [Set::is_empty], set.rs:377-379. *)
  Definition set_is_empty (st : ss_St m) : bool := ss_is_empty m st.
  (** [Set::len], set.rs:400-402. *)
  Definition set_len (st : ss_St m) : nat := ss_len m st.
  (** [Clone::clone], set.rs:541-545. *)
  Definition set_clone (st : ss_St m) : ss_St m := ss_clone m st.
  (** [PartialEq::eq], set.rs:689-691. *)
  Definition set_eq (a b : ss_St m) : bool := ss_eq m a b.
  (** [FromIterator::from_iter], set.rs:990-1001; [From<[T; N]>] 1087-1089. *)
  Definition set_from_iter (w : world) (l : list T) : ss_St m :=
    fold_left (fun st x => snd (set_insert st x)) l (set_new w).

  (** [Hash::hash], set.rs:749-753. *)
  Definition set_hash : option (ss_St m -> list Z) := ss_hash m.
  (** [PartialOrd::partial_cmp], set.rs:812-814. *)
  Definition set_partial_cmp : option (ss_St m -> ss_St m -> option comparison) :=
    ss_partial_cmp m.
  (** [PartialOrd::lt], set.rs:817-819. *)
  Definition set_lt : option (ss_St m -> ss_St m -> bool) :=
    option_map (fun f a b => pc_lt (f a b)) set_partial_cmp.
  (** [PartialOrd::le], set.rs:822-824. *)
  Definition set_le : option (ss_St m -> ss_St m -> bool) :=
    option_map (fun f a b => pc_le (f a b)) set_partial_cmp.
  (** [PartialOrd::gt], set.rs:827-829. *)
  Definition set_gt : option (ss_St m -> ss_St m -> bool) :=
    option_map (fun f a b => pc_gt (f a b)) set_partial_cmp.
  (** [PartialOrd::ge], set.rs:832-834. *)
  Definition set_ge : option (ss_St m -> ss_St m -> bool) :=
    option_map (fun f a b => pc_ge (f a b)) set_partial_cmp.
  (** [Ord::cmp], set.rs:891-893. *)
  Definition set_cmp : option (ss_St m -> ss_St m -> comparison) := ss_cmp m.
  (** [Ord::max], set.rs:896-900. *)
  Definition set_max : option (ss_St m -> ss_St m -> ss_St m) :=
    option_map ord_max set_cmp.
  (** [Ord::min], set.rs:903-907. *)
  Definition set_min : option (ss_St m -> ss_St m -> ss_St m) :=
    option_map ord_min set_cmp.
  (** [Ord::clamp], set.rs:910-914. *)
  Definition set_clamp : option (ss_St m -> ss_St m -> ss_St m -> res (ss_St m)) :=
    option_map ord_clamp set_partial_cmp.

  (** [Set::as_raw], set.rs:475-477, for storages implementing [RawStorage]. *)
  Definition set_as_raw : option (ss_St m -> N) := option_map raw_as (ss_raw m).
  (** [Set::from_raw], set.rs:502-506. *)
  Definition set_from_raw : option (N -> ss_St m) := option_map raw_from (ss_raw m).
  (** Width in bits of [RawStorage::Value] (src/raw.rs:14-15). *)
  Definition set_raw_bits : option N := option_map raw_bits (ss_raw m).

  (** [Serialize::serialize], set.rs:1010-1022. *)
  Definition set_serialize {Out Err} (z : serializer T Out Err) (fuel : nat)
    (st : ss_St m) : option (Out + Err) :=
    serialize z (ss_Iter m) fuel (set_len st) (set_iter st).
  (** [visit_seq], set.rs:1049-1060. *)
  Definition set_visit {D Err} (acc : access D T Err) (fuel : nat) (w : world) (d : D)
    : option (ss_St m + Err) :=
    visit acc (fun st x => snd (set_insert st x)) fuel d (set_new w).

  (** [struct Intersection { iter, other }], src/set/intersection.rs:34-39. *)
  Record intersection : Type := MkInter {
    in_iter : it_st (ss_Iter m);
    in_other : ss_St m
  }.

  (** [Set::intersection], set.rs:432-444. *)
  Definition set_intersection (st other : ss_St m) : intersection :=
    if set_len st <=? set_len other
    then MkInter (set_iter st) other
    else MkInter (set_iter other) st.

  (** [Intersection::next], intersection.rs:58-66.  [None] if the loop runs more
      than [fuel] times. *)
  Fixpoint inter_next (fuel : nat) (x : intersection)
    : option (option T * intersection) :=
    match fuel with
    | 0 => None
    | S f =>
        match it_next (ss_Iter m) (in_iter x) with
        | (None, it) => Some (None, MkInter it (in_other x))
        | (Some elt, it) =>
            if set_contains (in_other x) elt
            then Some (Some elt, MkInter it (in_other x))
            else inter_next f (MkInter it (in_other x))
        end
    end.

  (** [Intersection::size_hint], intersection.rs:69-72. *)
  Definition inter_hint (x : intersection) : nat * option nat :=
    (0, snd (it_hint (ss_Iter m) (in_iter x))).

  (** [Intersection::fold], intersection.rs:75-87; [iter.fold] runs the iterator
      to the end. *)
  Fixpoint inter_fold {B} (fuel : nat) (x : intersection) (init : B)
    (f : B -> T -> B) : option B :=
    match fuel with
    | 0 => None
    | S n =>
        match it_next (ss_Iter m) (in_iter x) with
        | (None, _) => Some init
        | (Some elt, it) =>
            inter_fold n (MkInter it (in_other x))
              (if set_contains (in_other x) elt then f init elt else init) f
        end
    end.
End Set_.
Arguments set_retain {T} m {S}.
Arguments MkInter {T m}.
Arguments in_iter {T m}.
Arguments in_other {T m}.
