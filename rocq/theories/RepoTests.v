(** The tests and documentation examples of the repository, run on the model.
    These are tests of the model's faithfulness, not proofs of properties: each
    example states what the assertions of the cited test or documentation
    example state. *)
Require Import List Arith NArith ZArith Bool String.
Import ListNotations.
From Verif Require Import Std Traits OptionBucket Hashbrown MapStorages SetStorages DeriveUnit
  DeriveAny Key Api Debug Samples.

(** The implementation [derive] gives for a key type. *)
Ltac derived t := let x := eval hnf in (derive t) in match x with Some ?k => exact k end.

(** Unwraps [Ok]. *)
Definition ok {A B} (x : res A) (d : B) (f : A -> B) : B :=
  match x with Ok a => f a | _ => d end.

(** Runs the loop [for (k, val) in map.iter_mut() { *val = f(k, *val) }]. *)
Definition for_iter_mut {K V} (m : MapStorage K V) (f : K -> V -> V) (st : ms_St m) : ms_St m :=
  match drain (ms_IterMut m) 99 (map_iter_mut m st) with
  | None => st
  | Some l => fold_left (fun st '(k, r) =>
      ok (deref m st r) st (fun v => ok (assign m st r (f k v)) st (fun st' => st'))) l st
  end.

(** Runs the loop [for (i, val) in refs.enumerate() { *val *= i + 1 }]. *)
Fixpoint scale {K V} (m : MapStorage K V) (f : nat -> V -> V) (i : nat) (l : list ref)
  (st : ms_St m) : ms_St m :=
  match l with
  | [] => st
  | r :: l => scale m f (S i) l
      (ok (deref m st r) st (fun v => ok (assign m st r (f (S i) v)) st (fun st' => st')))
  end.

Definition inserts {K V} (m : MapStorage K V) (st : ms_St m) (l : list (K * V)) : ms_St m :=
  fold_left (fun st e => snd (map_insert m st (fst e) (snd e))) l st.

(** [iter.collect()], [iter.rev().collect()]. *)
Definition collect {A} (i : iterator A) (s : it_st i) : option (list A) := drain i 99 s.
Definition rcollect {A} (i : iterator A) (s : it_st i) : option (list A) :=
  match it_back i with Some b => drain_back i b 99 s | None => None end.

Ltac run := vm_compute; repeat split.

(** * Key types *)

(** enum MyKey { One, Two } *)
Definition two_t : kty := KEnum false (VUnit (VUnit VNil)).
Definition two_ki : KeyImpl (key two_t). derived two_t. Defined.
Definition t1 : key two_t := inl tt.
Definition t2 : key two_t := inr (inl tt).

(** enum MyKey { First, Second, Third } *)
Definition three_t : kty := KEnum false (VUnit (VUnit (VUnit VNil))).
Definition three_ki : KeyImpl (key three_t). derived three_t. Defined.
Definition h1 : key three_t := inl tt.
Definition h2 : key three_t := inr (inl tt).
Definition h3 : key three_t := inr (inr (inl tt)).

(** enum MyKey { First(bool), Second } *)
Definition fs_t : kty := KEnum false (VTuple KBool (VUnit VNil)).
Definition fs_ki : KeyImpl (key fs_t). derived fs_t. Defined.
Definition fs1 (b : bool) : key fs_t := inl b.
Definition fs2 : key fs_t := inr (inl tt).

(** enum MyKey { First, Second(bool), Third } *)
Definition fst_t : kty := KEnum false (VUnit (VTuple KBool (VUnit VNil))).
Definition fst_ki : KeyImpl (key fst_t). derived fst_t. Defined.

(** enum MyKey { First(bool), Second, Third } *)
Definition fst2_t : kty := KEnum false (VTuple KBool (VUnit (VUnit VNil))).
Definition fst2_ki : KeyImpl (key fst2_t). derived fst2_t. Defined.

(** enum MyKey { First(bool), Second(()), Third } *)
Definition fst3_t : kty := KEnum false (VTuple KBool (VTuple KUnit (VUnit VNil))).
Definition fst3_ki : KeyImpl (key fst3_t). derived fst3_t. Defined.

(** enum MyKey { First(bool), Second(bool) } *)
Definition bb_t : kty := KEnum false (VTuple KBool (VTuple KBool VNil)).
Definition bb_ki : KeyImpl (key bb_t). derived bb_t. Defined.

(** enum MyKey {} *)
Definition none_t : kty := KEnum false VNil.
Definition none_ki : KeyImpl (key none_t). derived none_t. Defined.

(** #[key(bitset)] enum MyKey { First, Second } *)
Definition bit2_t : kty := KEnum true (VUnit (VUnit VNil)).
Definition bit2_ki : KeyImpl (key bit2_t). derived bit2_t. Defined.

(** enum MyKey { Simple, Composite(Part) } *)
Definition sc_t : kty := KEnum false (VUnit (VTuple two_t VNil)).
Definition sc_ki : KeyImpl (key sc_t). derived sc_t. Defined.

(** enum MyKey { Simple, Composite(Part), String(&'static str), Number(u32),
    Singleton(()), Option(Option<Part>), Boolean(bool) } *)
Definition big_t : kty := KEnum false
  (VUnit (VTuple two_t (VTuple (KPrim PStr) (VTuple (KPrim PU32) (VTuple KUnit
    (VTuple (KOption two_t) (VTuple KBool VNil))))))).
Definition big_ki : KeyImpl (key big_t). derived big_t. Defined.
Definition b_simple : key big_t := inl tt.
Definition b_composite (p : key two_t) : key big_t := inr (inl p).
Definition b_string (s : list Z) : key big_t := inr (inr (inl s)).
Definition b_number (n : Z) : key big_t := inr (inr (inr (inl n))).
Definition b_singleton : key big_t := inr (inr (inr (inr (inl tt)))).
Definition b_option (o : option (key two_t)) : key big_t := inr (inr (inr (inr (inr (inl o))))).
Definition b_boolean (b : bool) : key big_t := inr (inr (inr (inr (inr (inr (inl b)))))).
Definition foo : list Z := [102; 111; 111]%Z.
Definition bar : list Z := [98; 97; 114]%Z.

(** * Maps: src/map.rs, src/lib.rs, tests/empty.rs, tests/map_feature.rs *)

(** tests/empty.rs, src/map.rs:718-726. *)
Example test_empty : map_is_empty (ki_map none_ki nat) (map_new (ki_map none_ki nat) w0) = true.
Proof. run. Qed.

(** src/lib.rs:39-57. *)
Example doc_lib_39 :
  let m := ki_map dir_ki nat in let s := ki_set dir_ki in
  let map := build m [(north, 200); (south, 100)] in
  let set := build_set s [north; south] in
  map_get m map north = Some 200 /\ map_get m map east = None /\
  set_contains s set south = true /\ set_contains s set east = false.
Proof. run. Qed.

(** src/map.rs:37-89, tests/map_feature.rs. *)
Example doc_map_37 :
  let m := ki_map big_ki nat in
  let map := build m [(b_simple, 1); (b_composite t1, 2); (b_string foo, 3); (b_number 1, 4);
    (b_singleton, 5); (b_option None, 6); (b_option (Some t1), 7); (b_boolean true, 8)] in
  List.map (map_get m map) [b_simple; b_composite t1; b_composite t2; b_string foo;
    b_string bar; b_number 1; b_number 2; b_singleton; b_option None; b_option (Some t1);
    b_option (Some t2); b_boolean true; b_boolean false] =
  [Some 1; Some 2; None; Some 3; None; Some 4; None; Some 5; Some 6; Some 7; None; Some 8; None].
Proof. run. Qed.

(** src/map.rs:93-108. *)
Example doc_map_93 : let m := ki_map two_ki nat in
  collect (ms_Values m) (map_values m (build m [(t1, 42)])) = Some [42].
Proof. run. Qed.

(** src/map.rs:121-135. *)
Example doc_map_121 : let m := ki_map two_ki nat in let map := build m [(t1, 1)] in
  map_get m map t1 = Some 1 /\ map_get m map t2 = None.
Proof. run. Qed.

(** src/map.rs:139-161. *)
Example doc_map_139 : let m := ki_map sc_ki nat in
  let map := build m [(inl tt, 1); (inr (inl t1), 2)] in
  map_get m map (inl tt) = Some 1 /\ map_get m map (inr (inl t1)) = Some 2 /\
  map_get m map (inr (inl t2)) = None.
Proof. run. Qed.

(** src/map.rs:194-209. *)
Example doc_map_194 : let m := ki_map three_ki nat in
  collect (ms_Iter m) (map_iter m (build m [(h1, 1); (h2, 2)])) = Some [(h1, 1); (h2, 2)].
Proof. run. Qed.

(** src/map.rs:220-236. *)
Example doc_map_220 : let m := ki_map three_ki nat in let map := build m [(h1, 1); (h2, 2)] in
  collect (ms_Keys m) (map_keys m map) = Some [h1; h2] /\
  rcollect (ms_Keys m) (map_keys m map) = Some [h2; h1].
Proof. run. Qed.

(** src/map.rs:240-258. *)
Example doc_map_240 : let m := ki_map fst_ki nat in
  let map := build m [(inl tt, 1); (inr (inl false), 2)] in
  collect (ms_Keys m) (map_keys m map) = Some [inl tt; inr (inl false)] /\
  rcollect (ms_Keys m) (map_keys m map) = Some [inr (inl false); inl tt].
Proof. run. Qed.

(** src/map.rs:269-285. *)
Example doc_map_269 : let m := ki_map three_ki nat in let map := build m [(h1, 1); (h2, 2)] in
  collect (ms_Values m) (map_values m map) = Some [1; 2] /\
  rcollect (ms_Values m) (map_values m map) = Some [2; 1].
Proof. run. Qed.

(** src/map.rs:289-305. *)
Example doc_map_289 : let m := ki_map fst2_ki nat in
  let map := build m [(inl false, 1); (inr (inl tt), 2)] in
  collect (ms_Values m) (map_values m map) = Some [1; 2] /\
  rcollect (ms_Values m) (map_values m map) = Some [2; 1].
Proof. run. Qed.

(** src/map.rs:317-336. *)
Example doc_map_317 : let m := ki_map two_ki nat in
  let map := for_iter_mut m (fun _ v => v * 2) (build m [(t1, 1); (t2, 2)]) in
  collect (ms_Iter m) (map_iter m map) = Some [(t1, 2); (t2, 4)].
Proof. run. Qed.

(** src/map.rs:340-359. *)
Example doc_map_340 : let m := ki_map fs_ki nat in
  let map := for_iter_mut m (fun _ v => v * 2) (build m [(fs1 true, 1); (fs2, 2)]) in
  collect (ms_Iter m) (map_iter m map) = Some [(fs1 true, 2); (fs2, 4)].
Proof. run. Qed.

(** src/map.rs:370-398. *)
Example doc_map_370 : let m := ki_map two_ki nat in let map := build m [(t1, 2); (t2, 5)] in
  option_map (fun l => collect (ms_Values m) (map_values m (scale m Nat.mul 0 l map)))
    (collect (ms_ValuesMut m) (map_values_mut m map)) = Some (Some [2; 10]) /\
  option_map (fun l => collect (ms_Values m) (map_values m (scale m Nat.mul 0 l map)))
    (rcollect (ms_ValuesMut m) (map_values_mut m map)) = Some (Some [4; 5]).
Proof. run. Qed.

(** src/map.rs:402-430. *)
Example doc_map_402 : let m := ki_map fs_ki nat in
  let map := build m [(fs1 false, 2); (fs2, 5)] in
  option_map (fun l => collect (ms_Values m) (map_values m (scale m Nat.mul 0 l map)))
    (collect (ms_ValuesMut m) (map_values_mut m map)) = Some (Some [2; 10]) /\
  option_map (fun l => collect (ms_Values m) (map_values m (scale m Nat.mul 0 l map)))
    (rcollect (ms_ValuesMut m) (map_values_mut m map)) = Some (Some [4; 5]).
Proof. run. Qed.

(** src/map.rs:440-453. *)
Example doc_map_440 : let m := ki_map two_ki string in let map := build m [(t1, "a"%string)] in
  map_contains_key m map t1 = true /\ map_contains_key m map t2 = false.
Proof. run. Qed.

(** src/map.rs:463-493. *)
Example doc_map_463 :
  (let m := ki_map two_ki string in let map := build m [(t1, "a"%string)] in
   map_get m map t1 = Some "a"%string /\ map_get m map t2 = None) /\
  (let m := ki_map fs_ki string in let map := build m [(fs1 true, "a"%string)] in
   map_get m map (fs1 true) = Some "a"%string /\ map_get m map fs2 = None).
Proof. run. Qed.

(** src/map.rs:503-542. *)
Example doc_map_503 :
  (let m := ki_map two_ki string in let map := build m [(t1, "a"%string)] in
   match map_get_mut m map t1 with
   | Some r => ok (assign m map r "b"%string) None (fun map => map_get m map t1)
   | None => None
   end = Some "b"%string) /\
  (let m := ki_map fst3_ki string in let map := build m [(inl true, "a"%string)] in
   match map_get_mut m map (inl true) with
   | Some r => ok (assign m map r "b"%string) None (fun map => map_get m map (inl true))
   | None => None
   end = Some "b"%string).
Proof. run. Qed.

(** src/map.rs:557-573. *)
Example doc_map_557 : let m := ki_map two_ki string in
  let '(r1, map) := map_insert m (map_new m w0) t1 "a"%string in
  let '(r2, map2) := map_insert m map t2 "b"%string in
  let '(r3, map3) := map_insert m map2 t2 "c"%string in
  r1 = None /\ map_is_empty m map = false /\ r3 = Some "b"%string /\
  map_get m map3 t2 = Some "c"%string.
Proof. run. Qed.

(** src/map.rs:584-597. *)
Example doc_map_584 : let m := ki_map two_ki string in
  let '(r1, map) := map_remove m (build m [(t1, "a"%string)]) t1 in
  let '(r2, map2) := map_remove m map t1 in
  r1 = Some "a"%string /\ r2 = None.
Proof. run. Qed.

(** src/map.rs:610-629. *)
Example doc_map_610 : let m := ki_map two_ki Z in
  let map := snd (fst (map_retain m (fun (s : unit) _ v =>
    (s, v, if (0 <? v)%Z then Keep else Discard)) tt (build m [(t1, 42%Z); (t2, (-10)%Z)]))) in
  map_len m map = 1 /\ map_get m map t1 = Some 42%Z /\ map_get m map t2 = None.
Proof. run. Qed.

(** src/map.rs:633-664. *)
Example doc_map_633 : let m := ki_map fs_ki Z in
  let map := build m [(fs1 true, 42%Z); (fs1 false, (-31)%Z); (fs2, 100%Z)] in
  let other := map_clone m (fun v => v) map in
  let map' := snd (fst (map_retain m (fun (s : unit) _ v =>
    (s, v, if (0 <? v)%Z then Keep else Discard)) tt map)) in
  let other' := snd (fst (map_retain m (fun (s : unit) k v =>
    (s, v, match k with inl _ => Keep | inr _ => Discard end)) tt other)) in
  map_len m map = 3 /\ map_len m map' = 2 /\
  map_get m map' (fs1 true) = Some 42%Z /\ map_get m map' (fs1 false) = None /\
  map_get m map' fs2 = Some 100%Z /\
  map_len m other' = 2 /\ map_get m other' (fs1 true) = Some 42%Z /\
  map_get m other' (fs1 false) = Some (-31)%Z /\ map_get m other' fs2 = None.
Proof. run. Qed.

(** src/map.rs:678-691. *)
Example doc_map_678 : let m := ki_map two_ki string in
  map_is_empty m (map_clear m (build m [(t1, "a"%string)])) = true.
Proof. run. Qed.

(** src/map.rs:701-714. *)
Example doc_map_701 : let m := ki_map two_ki nat in
  map_is_empty m (map_new m w0) = true /\ map_is_empty m (build m [(t1, 1)]) = false.
Proof. run. Qed.

(** src/map.rs:736-756. *)
Example doc_map_736 : let m := ki_map two_ki nat in
  map_len m (map_new m w0) = 0 /\ map_len m (build m [(t1, 42)]) = 1 /\
  map_len m (build m [(t1, 42); (t1, 42)]) = 1 /\
  map_len m (snd (map_remove m (build m [(t1, 42); (t1, 42)]) t1)) = 0.
Proof. run. Qed.

(** src/map.rs:760-780. *)
Example doc_map_760 : let m := ki_map fs_ki nat in
  map_len m (map_new m w0) = 0 /\ map_len m (build m [(fs1 true, 42)]) = 1 /\
  map_len m (build m [(fs1 true, 42); (fs1 false, 42)]) = 2 /\
  map_len m (snd (map_remove m (build m [(fs1 true, 42); (fs1 false, 42)]) (fs1 true))) = 1.
Proof. run. Qed.

(** src/map.rs:841-862. *)
Example doc_map_841 : let m := ki_map fs_ki nat in
  let a := build m [(fs1 true, 1)] in
  let b := inserts m (map_clone m (fun v => v) a) [(fs2, 2)] in
  map_eq m Nat.eqb a b = false /\
  map_get m a (fs1 true) = Some 1 /\ map_get m a fs2 = None /\
  map_get m b (fs1 true) = Some 1 /\ map_get m b fs2 = Some 2.
Proof. run. Qed.

(** src/map.rs:882-903. *)
Example doc_map_882 : let m := ki_map two_ki nat in
  let a := build m [(t1, 1)] in let b := inserts m a [(t2, 2)] in
  map_eq m Nat.eqb a b = false /\
  map_get m a t1 = Some 1 /\ map_get m a t2 = None /\
  map_get m b t1 = Some 1 /\ map_get m b t2 = Some 2.
Proof. run. Qed.

(** src/map.rs:915-928. *)
Example doc_map_915 : let m := ki_map two_ki nat in
  map_eq m Nat.eqb (map_default m w0) (map_new m w0) = true.
Proof. run. Qed.

Definition show_two (k : key two_t) : string :=
  match k with inl _ => "First"%string | inr _ => "Second"%string end.
Definition show_42 (n : nat) : string := if Nat.eqb n 42 then "42"%string else "?"%string.

(** src/map.rs:943-956. *)
Example doc_map_943 : let m := ki_map two_ki nat in
  map_debug show_two show_42 m 9 (build m [(t1, 42)]) = Some "{First: 42}"%string.
Proof. run. Qed.

(** src/map.rs:972-1011. *)
Example doc_map_972 :
  (let m := ki_map two_ki nat in let a := build m [(t1, 42)] in
   map_eq m Nat.eqb a a = true /\ map_eq m Nat.eqb a (inserts m a [(t2, 42)]) = false) /\
  (let m := ki_map fs_ki nat in let a := build m [(fs1 true, 42)] in
   let b := map_clone m (fun v => v) a in
   map_eq m Nat.eqb a b = true /\ map_eq m Nat.eqb a (inserts m b [(fs2, 42)]) = false).
Proof. run. Qed.

Definition nat_pc (a b : nat) : option comparison := Some (Nat.compare a b).

(** src/map.rs:1094-1115. *)
Example doc_map_1094 : let m := ki_map three_ki nat in
  let a := build m [(h1, 1)] in let b := build m [(h3, 1)] in let e := map_new m w0 in
  option_map (fun lt => (lt a b, lt e a, lt e b)) (map_lt m nat_pc) = Some (true, true, true).
Proof. run. Qed.

(** src/map.rs:1174-1193: sorting [b, a] gives [a, b], so [a < b]. *)
Example doc_map_1174 : let m := ki_map two_ki nat in
  option_map (fun c => c (build m [(t1, 1)]) (build m [(t2, 1)])) (map_cmp m Nat.compare)
  = Some Lt.
Proof. run. Qed.

(** src/map.rs:1281-1304. *)
Example doc_map_1281 : let m := ki_map three_ki nat in let map := build m [(h1, 1); (h3, 3)] in
  collect (ms_IntoIter m) (map_into_iter m map) = Some [(h1, 1); (h3, 3)] /\
  rcollect (ms_IntoIter m) (map_into_iter m map) = Some [(h3, 3); (h1, 1)].
Proof. run. Qed.

(** src/map.rs:1308-1331. *)
Example doc_map_1308 : let m := ki_map fst2_ki nat in
  let map := build m [(inl false, 1); (inr (inr (inl tt)), 3)] in
  collect (ms_IntoIter m) (map_into_iter m map) = Some [(inl false, 1); (inr (inr (inl tt)), 3)] /\
  rcollect (ms_IntoIter m) (map_into_iter m map) = Some [(inr (inr (inl tt)), 3); (inl false, 1)].
Proof. run. Qed.

(** src/map.rs:1349-1366. *)
Example doc_map_1349 : let m := ki_map two_ki nat in
  map_eq m Nat.eqb (map_from_iter m w0 [(t1, 1); (t2, 2); (t1, 3)])
    (build m [(t2, 2); (t1, 3)]) = true.
Proof. run. Qed.

(** * Entries: tests/entry.rs, src/map/entry.rs, src/map/storage.rs *)

(** [map.entry(k).and_modify(f).or_insert(d)]: the value the result refers to,
    and the map. *)
Definition modify_or_insert {K V} (m : MapStorage K V) (st : ms_St m) (k : K) (f : V -> V) (d : V)
  : res (V * ms_St m) :=
  res_bind (map_entry m st k) (fun e =>
  res_bind (entry_and_modify m st e (fun (s : unit) v => (s, f v, Done)) tt) (fun '(_, e', st') =>
  match e' with
  | None => UB
  | Some e' =>
      res_bind (entry_or_insert m st' e' d) (fun '(r, st'') =>
      res_map (fun v => (v, st'')) (deref m st'' r))
  end)).

(** [map.entry(k).or_default()] *)
Definition or_default {K V} (m : MapStorage K V) (st : ms_St m) (k : K) (d : V)
  : res (option ref * ms_St m) :=
  res_bind (map_entry m st k) (fun e => entry_or_default m st e (Some d)).

(** tests/entry.rs:10-22 ([simple]). *)
Example test_entry_simple : let m := ki_map two_ki nat in
  res_bind (or_default m (map_new m w0) t2 0) (fun '(r, st) =>
  res_bind (match r with Some r => deref m st r | None => UB end) (fun v0 =>
  res_bind (modify_or_insert m st t1 S 12) (fun '(v1, st) =>
  res_bind (modify_or_insert m st t1 S 12) (fun '(v2, st) => Ok (v0, v1, v2)))))
  = Ok (0, 12, 13).
Proof. run. Qed.

(** tests/entry.rs:25-44 ([other]), src/map.rs:790-810. *)
Example test_entry_other : let m := ki_map two_ki nat in
  res_map (fun st => (map_get m st t1, map_get m st t2))
   (fold_left (fun st n => res_bind st (fun st =>
      res_map snd (modify_or_insert m st (if Nat.even n then t1 else t2) S 1)))
      [3; 45; 3; 23; 2; 10; 59; 11; 51; 70] (Ok (map_new m w0)))
  = Ok (Some 3, Some 7).
Proof. run. Qed.

(** tests/entry.rs:47-65 ([composite]), src/map.rs:814-830. *)
Example test_entry_composite : let m := ki_map fs_ki (list nat) in
  res_bind (or_default m (map_new m w0) (fs1 true) []) (fun '(r, st) =>
  res_bind (match r with
            | Some r => res_bind (deref m st r) (fun v => assign m st r (v ++ [1]))
            | None => UB end) (fun st =>
  res_bind (map_entry m st fs2) (fun e =>
  res_bind (entry_or_insert_with m st e (fun (s : unit) => (s, Some (repeat 2 8))) tt)
    (fun '(_, r, st) =>
  res_bind (match r with
            | Some r => res_bind (deref m st r) (fun v => assign m st r (firstn 4 v))
            | None => UB end) (fun st =>
  Ok (map_get m st (fs1 true), map_get m st fs2))))))
  = Ok (Some [1], Some (repeat 2 4)).
Proof. run. Qed.

(** tests/entry.rs:69-89 ([compound]); the key type of tests/map_feature.rs
    has two variants less than [big_t], which plays no role here. *)
Example test_entry_compound : let m := ki_map big_ki nat in
  let st := build m [(b_composite t1, 1)] in
  res_bind (or_default m st (b_composite t2) 0) (fun '(r, st) =>
  res_bind (match r with Some r => deref m st r | None => UB end) (fun v0 =>
  res_bind (modify_or_insert m st (b_composite t1) S 12) (fun '(v1, st) => Ok (v0, v1))))
  = Ok (0, 2).
Proof. run. Qed.

(** [*map.entry(k).or_insert(d) = f(..)] *)
Definition or_insert_then {K V} (m : MapStorage K V) (st : ms_St m) (k : K) (d : V) (f : V -> V)
  : res (ms_St m) :=
  res_bind (map_entry m st k) (fun e =>
  res_bind (entry_or_insert m st e d) (fun '(r, st) =>
  res_bind (deref m st r) (fun v => assign m st r (f v)))).

(** src/map/entry.rs:25-61. *)
Example doc_entry_25 :
  (let m := ki_map two_ki nat in
   res_bind (or_insert_then m (map_new m w0) t1 3 (fun v => v)) (fun st =>
   res_map (fun st' => (map_get m st t1, map_get m st' t1)) (or_insert_then m st t1 10 (Nat.mul 2)))
   = Ok (Some 3, Some 6)) /\
  (let m := ki_map fs_ki nat in
   res_bind (or_insert_then m (map_new m w0) (fs1 false) 3 (fun v => v)) (fun st =>
   res_map (fun st' => (map_get m st (fs1 false), map_get m st' (fs1 false)))
     (or_insert_then m st (fs1 false) 10 (Nat.mul 2)))
   = Ok (Some 3, Some 6)).
Proof. run. Qed.

(** src/map/entry.rs:75-105 and 123-153. *)
Example doc_entry_75 :
  (let m := ki_map two_ki string in
   res_bind (map_entry m (map_new m w0) t1) (fun e =>
   res_map (fun '(_, _, st) => map_get m st t1)
     (entry_or_insert_with m (map_new m w0) e (fun (s : unit) => (s, Some "3"%string)) tt))
   = Ok (Some "3"%string)) /\
  (let m := ki_map two_ki string in
   res_bind (map_entry m (map_new m w0) t1) (fun e =>
   res_map (fun '(_, _, st) => map_get m st t1)
     (entry_or_insert_with_key m (map_new m w0) e
       (fun (s : unit) k => (s, Some (show_two k ++ " = 3")%string)) tt))
   = Ok (Some "First = 3"%string)) /\
  (let m := ki_map fs_ki string in
   res_bind (map_entry m (map_new m w0) (fs1 false)) (fun e =>
   res_map (fun '(_, _, st) => map_get m st (fs1 false))
     (entry_or_insert_with_key m (map_new m w0) e
       (fun (s : unit) k => (s, Some (match k with
          inl false => "First(false) = 3" | _ => "?" end)%string)) tt))
   = Ok (Some "First(false) = 3"%string)).
Proof. run. Qed.

(** src/map/entry.rs:172-198. *)
Example doc_entry_172 :
  (let m := ki_map two_ki nat in
   res_bind (map_entry m (map_new m w0) t1) (entry_key m (map_new m w0)) = Ok t1) /\
  (let m := ki_map fs_ki nat in
   res_bind (map_entry m (map_new m w0) (fs1 false)) (entry_key m (map_new m w0))
   = Ok (fs1 false)).
Proof. run. Qed.

(** src/map/entry.rs:212-256. *)
Example doc_entry_212 :
  (let m := ki_map two_ki nat in
   res_bind (modify_or_insert m (map_new m w0) t1 S 42) (fun '(_, st) =>
   res_map (fun '(_, st') => (map_get m st t1, map_get m st' t1)) (modify_or_insert m st t1 S 42))
   = Ok (Some 42, Some 43)) /\
  (let m := ki_map fs_ki nat in
   res_bind (modify_or_insert m (map_new m w0) (fs1 true) S 42) (fun '(_, st) =>
   res_map (fun '(_, st') => (map_get m st (fs1 true), map_get m st' (fs1 true)))
     (modify_or_insert m st (fs1 true) S 42))
   = Ok (Some 42, Some 43)).
Proof. run. Qed.

(** src/map/entry.rs:277-307. *)
Example doc_entry_277 :
  (let m := ki_map two_ki nat in
   res_map (fun '(_, st) => map_get m st t1) (or_default m (map_new m w0) t1 0)
   = Ok (Some 0)) /\
  (let m := ki_map fs_ki nat in
   res_map (fun '(_, st) => map_get m st (fs1 false)) (or_default m (map_new m w0) (fs1 false) 0)
   = Ok (Some 0)).
Proof. run. Qed.

(** src/map/storage.rs:129-420: [key], [get], [get_mut] (twice), [into_mut],
    [insert] and [remove] on the occupied entry of a map holding 12. *)
Definition occupied_doc {K} (m : MapStorage K nat) (k : K) :=
  let st := build m [(k, 12)] in
  res_bind (map_entry m st k) (fun e =>
  match e with
  | Vacant _ => UB
  | Occupied o =>
      res_bind (ms_occ_key m st o) (fun k' =>
      res_bind (ms_occ_get m st o) (fun v =>
      res_bind (ms_occ_get_mut m st o) (fun r1 =>
      res_bind (deref m st r1) (fun x1 =>
      res_bind (assign m st r1 (x1 * 2)) (fun st1 =>
      res_bind (ms_occ_get m st1 o) (fun v1 =>
      res_bind (ms_occ_get_mut m st1 o) (fun r2 =>
      res_bind (deref m st1 r2) (fun x2 =>
      res_bind (assign m st1 r2 (x2 - 10)) (fun st2 =>
      res_bind (ms_occ_get m st2 o) (fun v2 =>
      res_bind (ms_occ_into_mut m st o) (fun r3 =>
      res_bind (assign m st r3 (12 + 10)) (fun st3 =>
      res_bind (ms_occ_insert m st o 10) (fun '(old, st4) =>
      res_bind (ms_occ_remove m st o) (fun '(rem, st5) =>
      Ok (k', v, v1, v2, map_get m st3 k, (old, map_get m st4 k),
          (rem, map_contains_key m st5 k))))))))))))))))
  end).
Example doc_storage_129 :
  occupied_doc (ki_map two_ki nat) t1 = Ok (t1, 12, 24, 14, Some 22, (12, Some 10), (12, false)) /\
  occupied_doc (ki_map fs_ki nat) (fs1 false) =
    Ok (fs1 false, 12, 24, 14, Some 22, (12, Some 10), (12, false)) /\
  occupied_doc (ki_map big_ki nat) (b_string foo) =
    Ok (b_string foo, 12, 24, 14, Some 22, (12, Some 10), (12, false)).
Proof. run. Qed.

(** src/map/storage.rs:432-516: [key] and [insert] on a vacant entry. *)
Definition vacant_doc {K} (m : MapStorage K nat) (k : K) :=
  let st := map_new m w0 in
  res_bind (map_entry m st k) (fun e =>
  match e with
  | Occupied _ => UB
  | Vacant v =>
      res_bind (ms_vac_insert m st v 37) (fun '(r, st') =>
      res_bind (deref m st' r) (fun x => Ok (ms_vac_key m st v, x, map_get m st' k)))
  end).
Example doc_storage_432 :
  vacant_doc (ki_map two_ki nat) t1 = Ok (t1, 37, Some 37) /\
  vacant_doc (ki_map fs_ki nat) (fs1 false) = Ok (fs1 false, 37, Some 37) /\
  vacant_doc (ki_map big_ki nat) (b_string foo) = Ok (b_string foo, 37, Some 37).
Proof. run. Qed.

(** * Sets: src/set.rs, src/key.rs, src/set/intersection.rs *)

(** src/key.rs:70-93. *)
Example doc_key_70 : let s := ki_set three_ki in
  let a := build_set s [h1] in let b := build_set s [h3] in let c := build_set s [h1; h3] in
  option_map (fun lt => (lt a b, lt c b, lt a c)) (set_lt s) = Some (true, true, true).
Proof. run. Qed.

(** src/set.rs:26-78. *)
Example doc_set_26 : let s := ki_set big_ki in
  let set := build_set s [b_simple; b_composite t1; b_string foo; b_number 1; b_singleton;
    b_option None; b_option (Some t1); b_boolean true] in
  List.map (set_contains s set) [b_simple; b_composite t1; b_composite t2; b_string foo;
    b_string bar; b_number 1; b_number 2; b_singleton; b_option None; b_option (Some t1);
    b_option (Some t2); b_boolean true; b_boolean false] =
  [true; true; false; true; false; true; false; true; true; true; false; true; false].
Proof. run. Qed.

(** src/set.rs:91-105, 189-202. *)
Example doc_set_91 : let s := ki_set two_ki in let set := build_set s [t1] in
  set_contains s set t1 = true /\ set_contains s set t2 = false.
Proof. run. Qed.

(** src/set.rs:109-131. *)
Example doc_set_109 : let s := ki_set sc_ki in
  let set := build_set s [inl tt; inr (inl t1)] in
  set_contains s set (inl tt) = true /\ set_contains s set (inr (inl t1)) = true /\
  set_contains s set (inr (inl t2)) = false.
Proof. run. Qed.

(** src/set.rs:164-179, 935-950, 963-978. *)
Example doc_set_164 : let s := ki_set three_ki in let set := build_set s [h1; h2] in
  collect (ss_Iter s) (set_iter s set) = Some [h1; h2] /\
  collect (ss_IntoIter s) (set_into_iter s set) = Some [h1; h2].
Proof. run. Qed.

(** src/set.rs:216-232. *)
Example doc_set_216 : let s := ki_set two_ki in
  let '(r1, set1) := set_insert s (set_new s w0) t1 in
  let '(r2, set2) := set_insert s set1 t2 in
  let '(r3, set3) := set_insert s set2 t2 in
  r1 = true /\ set_is_empty s set1 = false /\ r3 = false /\ set_contains s set3 t2 = true.
Proof. run. Qed.

(** src/set.rs:243-256. *)
Example doc_set_243 : let s := ki_set two_ki in
  let '(r1, set1) := set_remove s (build_set s [t1]) t1 in
  r1 = true /\ fst (set_remove s set1 t1) = false.
Proof. run. Qed.

(** src/set.rs:269-288. *)
Example doc_set_269 : let s := ki_set two_ki in
  let set := snd (fst (set_retain s (fun (u : unit) k =>
    (u, match k with inl _ => Keep | inr _ => Discard end)) tt (build_set s [t1; t2]))) in
  set_len s set = 1 /\ set_contains s set t1 = true /\ set_contains s set t2 = false.
Proof. run. Qed.

(** src/set.rs:292-326. *)
Example doc_set_292 : let s := ki_set bb_ki in
  let f b : key bb_t := inl b in let g b : key bb_t := inr (inl b) in
  let set := build_set s [f true; f false; g true; g false] in
  let other := set_clone s set in
  let set' := snd (fst (set_retain s (fun (u : unit) k =>
    (u, match k with inl true | inr (inl true) => Keep | _ => Discard end)) tt set)) in
  let other' := snd (fst (set_retain s (fun (u : unit) k =>
    (u, match k with inl _ => Keep | _ => Discard end)) tt other)) in
  set_len s set = 4 /\ set_len s set' = 2 /\
  List.map (set_contains s set') [f true; f false; g true; g false] = [true; false; true; false] /\
  set_len s other' = 2 /\
  List.map (set_contains s other') [f true; f false; g true; g false] = [true; true; false; false].
Proof. run. Qed.

(** src/set.rs:339-352, 362-375, 385-398. *)
Example doc_set_339 : let s := ki_set two_ki in
  set_is_empty s (set_clear s (build_set s [t1])) = true /\
  set_is_empty s (set_new s w0) = true /\ set_is_empty s (build_set s [t1]) = false /\
  set_len s (set_new s w0) = 0 /\ set_len s (build_set s [t1]) = 1.
Proof. run. Qed.

(** [a.intersection(&b).collect::<Vec<_>>()], through [next]. *)
Fixpoint inter_collect {T} (s : SetStorage T) (n : nat) (x : intersection s) : list T :=
  match n with
  | 0 => []
  | S n =>
      match inter_next s 99 x with
      | Some (Some e, x') => e :: inter_collect s n x'
      | _ => []
      end
  end.

(** src/set.rs:415-430, src/set/intersection.rs:16-31. *)
Example doc_set_415 : let s := ki_set three_ki in
  let a := set_from_iter s w0 [h1] in let b := set_from_iter s w0 [h1; h2; h2] in
  set_eq s (set_from_iter s w0 (inter_collect s 9 (set_intersection s a b)))
    (set_from_iter s w0 [h1]) = true.
Proof. run. Qed.

(** src/set.rs:456-473, 483-500. *)
Example doc_set_456 : let s := ki_set bit2_ki in
  let k1 : key bit2_t := inl tt in let set := build_set s [k1] in
  option_map (fun r => (N.eqb (r (set_new s w0)) 0, N.eqb (r set) 0)) (set_as_raw s)
    = Some (true, false) /\
  match set_as_raw s, set_from_raw s with
  | Some r, Some f => set_eq s set (f (r set)) = true
  | _, _ => False
  end.
Proof. run. Qed.

(** src/set.rs:513-534. *)
Example doc_set_513 : let s := ki_set fs_ki in let a := build_set s [fs1 true] in
  let b := snd (set_insert s (set_clone s a) fs2) in
  set_eq s a b = false /\ set_contains s a (fs1 true) = true /\ set_contains s a fs2 = false /\
  set_contains s b (fs1 true) = true /\ set_contains s b fs2 = true.
Proof. run. Qed.

(** src/set.rs:554-575, 587-600, 643-661. *)
Example doc_set_554 : let s := ki_set two_ki in let a := build_set s [t1] in
  let b := snd (set_insert s a t2) in
  set_eq s a a = true /\ set_eq s a b = false /\
  set_contains s a t1 = true /\ set_contains s a t2 = false /\
  set_contains s b t1 = true /\ set_contains s b t2 = true /\
  set_eq s (set_default s w0) (set_new s w0) = true.
Proof. run. Qed.

(** src/set.rs:615-628. *)
Example doc_set_615 : let s := ki_set two_ki in
  set_debug show_two s 9 (build_set s [t1]) = Some "{First}"%string.
Proof. run. Qed.

(** src/set.rs:665-682. *)
Example doc_set_665 : let s := ki_set fs_ki in let a := build_set s [fs1 true] in
  let b := set_clone s a in
  set_eq s a b = true /\ set_eq s a (snd (set_insert s b fs2)) = false.
Proof. run. Qed.

(** src/set.rs:763-784. *)
Example doc_set_763 : let s := ki_set three_ki in
  let a := build_set s [h1] in let b := build_set s [h3] in let e := set_new s w0 in
  option_map (fun lt => (lt a b, lt e a, lt e b)) (set_lt s) = Some (true, true, true).
Proof. run. Qed.

(** src/set.rs:843-862. *)
Example doc_set_843 : let s := ki_set two_ki in
  option_map (fun c => c (build_set s [t1]) (build_set s [t2])) (set_cmp s) = Some Lt.
Proof. run. Qed.

(** src/set.rs:1073-1086. *)
Example doc_set_1073 : let s := ki_set three_ki in
  set_eq s (set_from_iter s w0 [h1; h2; h3]) (set_from_iter s w0 [h1; h2; h3]) = true.
Proof. run. Qed.

(** * Buckets: src/option_bucket.rs, src/option_bucket/tests.rs *)

(** One local variable of type [Option<T>]. *)
Definition local {T} : cells (option T) T :=
  MkCells (fun o r => match r with [] => Some o | _ => None end)
          (fun _ r o => match r with [] => Some o | _ => None end).

(** [x.entry().and_modify(f).or_insert(d)], option_bucket/tests.rs:44-67. *)
Definition bucket_modify_or_insert {T} (x : option T) (f : T -> T) (d : T)
  : res (option T) :=
  res_bind (option_bucket_new local x []) (fun b =>
  match b with
  | OBSome b =>
      res_bind (some_as_ref local x b) (fun v =>
      res_bind (some_as_mut local x b) (fun r =>
      res_bind (cell_write local x r (Some (f v))) (fun x' =>
      res_map (fun _ => x') (some_into_mut local x' b))))
  | OBNone b => res_map snd (none_insert local x b d)
  end).

(** option_bucket/tests.rs:103-131. *)
Example test_bucket :
  res_bind (fold_left (fun x n => res_bind x (fun x =>
      if Nat.even n then bucket_modify_or_insert x (Z.add 1) 1%Z else Ok x))
      (seq 0 10) (Ok None)) (fun even =>
  res_bind (option_bucket_new local even []) (fun b =>
  match b with
  | OBNone _ => UB
  | OBSome b =>
      res_bind (some_as_ref local even b) (fun v =>
      res_bind (some_replace local even b (-3)%Z) (fun '(old, even') =>
      res_bind (some_take local even' b) (fun '(old', even'') =>
      Ok (v, old, old', even''))))
  end)) = Ok (5, 5, (-3), None)%Z /\
  bucket_modify_or_insert None (fun v => v) (24 * 60 * 60 * 1000)%Z = Ok (Some 86400000%Z) /\
  bucket_modify_or_insert None (fun v => v) 0%Z = Ok (Some 0%Z).
Proof. run. Qed.

(** src/option_bucket.rs:228-237, 246-255, 347-356, 400-410. *)
Example doc_bucket :
  res_bind (some_new local (Some 2) []) (fun b =>
    match b with Some b => some_replace local (Some 2) b 5 | None => UB end)
    = Ok (2, Some 5) /\
  res_bind (some_new local (Some [1; 2]) []) (fun b =>
    match b with Some b => some_take local (Some [1; 2]) b | None => UB end)
    = Ok ([1; 2], None) /\
  res_bind (none_new local (@None nat) []) (fun b =>
    match b with
    | Some b =>
        res_bind (none_insert local (@None nat) b 1) (fun '(r, x) =>
        res_map (fun y => (x, y)) (cell_write local x r (Some 3)))
    | None => UB
    end) = Ok (Some 1, Some 3) /\
  option_bucket_new local (@None nat) [] = Ok (OBNone (MkNoneBucket [])) /\
  option_bucket_new local (Some 12) [] = Ok (OBSome (MkSomeBucket [])).
Proof. run. Qed.

(** * Storages: src/map/storage, src/set/storage *)

(** src/map/storage/boolean.rs:33-52 and 56-71. *)
Example doc_storage_boolean : let m := ki_map fs_ki nat in
  let a := build m [(fs1 false, 1)] in let b := build m [(fs1 true, 1); (fs1 false, 2)] in
  map_get m a (fs1 true) = None /\ map_get m a (fs1 false) = Some 1 /\ map_get m a fs2 = None /\
  collect (ms_Iter m) (map_iter m a) = Some [(fs1 false, 1)] /\
  collect (ms_Values m) (map_values m a) = Some [1] /\
  collect (ms_Keys m) (map_keys m a) = Some [fs1 false] /\
  collect (ms_Iter m) (map_iter m b) = Some [(fs1 true, 1); (fs1 false, 2)] /\
  rcollect (ms_Iter m) (map_iter m b) = Some [(fs1 false, 2); (fs1 true, 1)].
Proof. run. Qed.

(** enum MyKey { First(Option<Part>), Second } *)
Definition op_t : kty := KEnum false (VTuple (KOption two_t) (VUnit VNil)).
Definition op_ki : KeyImpl (key op_t). derived op_t. Defined.

(** src/map/storage/option.rs:44-71, src/set/storage/option.rs:21-48. *)
Example doc_storage_option : let m := ki_map op_ki nat in
  let f o : key op_t := inl o in
  let a := build m [(f None, 1); (f (Some t1), 2)] in
  map_get m a (f (Some t1)) = Some 2 /\ map_get m a (f (Some t2)) = None /\
  map_get m a (f None) = Some 1 /\ map_get m a (inr (inl tt)) = None /\
  collect (ms_Iter m) (map_iter m a) = Some [(f (Some t1), 2); (f None, 1)] /\
  collect (ms_Values m) (map_values m a) = Some [2; 1] /\
  collect (ms_Keys m) (map_keys m a) = Some [f (Some t1); f None].
Proof. run. Qed.

(** enum MyKey { First(u32), Second } *)
Definition num_t : kty := KEnum false (VTuple (KPrim PU32) (VUnit VNil)).
Definition num_ki : KeyImpl (key num_t). derived num_t. Defined.

(** src/map/storage/hashbrown.rs:18-32, src/set/storage/hashbrown.rs:13-27. *)
Example doc_storage_hashbrown : let m := ki_map num_ki nat in let s := ki_set num_ki in
  let f (n : Z) : key num_t := inl n in
  let a := build m [(f 1%Z, 10)] in let b := build_set s [f 1%Z] in
  map_get m a (f 1%Z) = Some 10 /\ map_get m a (f 2%Z) = None /\
  map_get m a (inr (inl tt)) = None /\
  set_contains s b (f 1%Z) = true /\ set_contains s b (f 2%Z) = false /\
  set_contains s b (inr (inl tt)) = false.
Proof. run. Qed.

(** src/set/storage/boolean.rs:15-32 and 36-51. *)
Example doc_set_storage_boolean : let s := ki_set fs_ki in
  let a := build_set s [fs1 false] in let b := build_set s [fs1 true; fs1 false] in
  set_contains s a (fs1 true) = false /\ set_contains s a (fs1 false) = true /\
  set_contains s a fs2 = false /\
  collect (ss_Iter s) (set_iter s a) = Some [fs1 false] /\
  collect (ss_Iter s) (set_iter s b) = Some [fs1 true; fs1 false] /\
  rcollect (ss_Iter s) (set_iter s b) = Some [fs1 false; fs1 true].
Proof. run. Qed.
