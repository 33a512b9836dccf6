(** Properties of [Map].  [t] ranges over all key types, [V] over all value
    types; [map_reachable] maps are those that safe programs can build.  Each
    theorem is followed by a concrete instance of its hypotheses. *)
Require Import List Arith NArith ZArith Bool Lia Permutation.
Import ListNotations.
From Verif Require Import Std Traits Key Api Spec Reach History KeyLaws IterFacts MapFacts HistProofs
  MapProofs Samples.

(** * C01: histories *)

Theorem C01_map_history : forall t ki V w ops, derive t = Some ki ->
  exists xs st n0,
    (forall n, n0 <= n -> run_ops (ki_map ki V) n (map_new (ki_map ki V) w) ops = Ok (xs, st)) /\
    spec_ops (fun _ => None) ops xs (map_get (ki_map ki V) st).
Proof. intros t ki V w ops E. exact (c01 (derive_map_laws t ki V E) w ops). Qed.
Print Assumptions C01_map_history.

Theorem C01_map_history_from : forall t ki V (st : ms_St (ki_map ki V)) ops,
  derive t = Some ki -> map_reachable (ki_map ki V) st ->
  exists xs st' n0,
    (forall n, n0 <= n -> run_ops (ki_map ki V) n st ops = Ok (xs, st')) /\
    map_reachable (ki_map ki V) st' /\
    spec_ops (map_get (ki_map ki V) st) ops xs (map_get (ki_map ki V) st').
Proof.
  intros t ki V st ops E R. exact (c01_from (derive_map_laws t ki V E) st ops _ R (fun _ => eq_refl)).
Qed.
Print Assumptions C01_map_history_from.

(** A history on a map over [Thing] and its results. *)
Example C01_example : derive thing_t = Some thing_ki /\
  exists st, run_ops thing_m 9 (map_new thing_m w0)
    [MInsert (k_flag false) 1; MOrInsert (k_flag false) 2; MInsert (k_num (Some 3%Z)) 4;
     MModify (k_num (Some 3%Z)) (fun v => (v * 2, Done)) 0; MRetain (fun log _ v => (v + length log, Keep));
     MRemove (k_flag false); MGet (k_flag false); MLen; MIter]
  = Ok ([ROption None; RValue 1; ROption None; RValue 8;
         RRetain [(k_flag false, 1); (k_num (Some 3%Z), 8)] Done;
         ROption (Some 1); ROption None; RNat 1; RList [(k_num (Some 3%Z), 9)]], st).
Proof. split; [reflexivity|]. eexists. vm_compute. reflexivity. Qed.

(** * C02: insert *)

Theorem C02_insert : forall t ki V (st : ms_St (ki_map ki V)) k v,
  derive t = Some ki -> map_reachable (ki_map ki V) st ->
  fst (map_insert (ki_map ki V) st k v) = map_get (ki_map ki V) st k /\
  map_get (ki_map ki V) (snd (map_insert (ki_map ki V) st k v)) k = Some v /\
  forall k', k' <> k ->
    map_get (ki_map ki V) (snd (map_insert (ki_map ki V) st k v)) k' = map_get (ki_map ki V) st k'.
Proof.
  intros t ki V st k v E R. set (L := derive_map_laws t ki V E).
  exact (insert_facts L st k v (r_inv L st R)).
Qed.
Print Assumptions C02_insert.

Example C02_example : map_reachable thing_m things /\
  fst (map_insert thing_m things (k_num (Some 7%Z)) 8) = Some 1 /\
  fst (map_insert thing_m things k_unit 8) = None /\
  map_get thing_m (snd (map_insert thing_m things (k_num (Some 7%Z)) 8)) (k_num (Some 7%Z)) = Some 8.
Proof. split; [exact things_reachable|]. repeat split. Qed.

(** * C03: remove *)

Theorem C03_remove : forall t ki V (st : ms_St (ki_map ki V)) k,
  derive t = Some ki -> map_reachable (ki_map ki V) st ->
  fst (map_remove (ki_map ki V) st k) = map_get (ki_map ki V) st k /\
  map_get (ki_map ki V) (snd (map_remove (ki_map ki V) st k)) k = None /\
  forall k', k' <> k ->
    map_get (ki_map ki V) (snd (map_remove (ki_map ki V) st k)) k' = map_get (ki_map ki V) st k'.
Proof.
  intros t ki V st k E R. set (L := derive_map_laws t ki V E).
  exact (remove_facts L st k (r_inv L st R)).
Qed.
Print Assumptions C03_remove.

Example C03_example : map_reachable thing_m things /\
  fst (map_remove thing_m things (k_num None)) = Some 4 /\
  fst (map_remove thing_m things (k_flag false)) = None.
Proof. split; [exact things_reachable|]. repeat split. Qed.

(** * C04: contains_key, get and iteration agree *)

Theorem C04_lookup_agrees : forall t ki V (st : ms_St (ki_map ki V)),
  derive t = Some ki -> map_reachable (ki_map ki V) st ->
  (forall k, map_contains_key (ki_map ki V) st k = true <->
             exists v, map_get (ki_map ki V) st k = Some v) /\
  exists l, yields (ms_Iter (ki_map ki V)) (map_iter (ki_map ki V) st) l /\
            forall k v, In (k, v) l <-> map_get (ki_map ki V) st k = Some v.
Proof. intros t ki V st E R. exact (c04 (derive_map_laws t ki V E) st R). Qed.
Print Assumptions C04_lookup_agrees.

Example C04_example : map_reachable thing_m things /\
  map_contains_key thing_m things (k_sub south) = true /\
  map_contains_key thing_m things (k_sub west) = false.
Proof. split; [exact things_reachable|]. repeat split. Qed.

(** * C05: len and is_empty *)

Theorem C05_len : forall t ki V (st : ms_St (ki_map ki V)),
  derive t = Some ki -> map_reachable (ki_map ki V) st ->
  exists l, yields (ms_Iter (ki_map ki V)) (map_iter (ki_map ki V) st) l /\
    lists (map_get (ki_map ki V) st) l /\ map_len (ki_map ki V) st = length l /\
    (map_is_empty (ki_map ki V) st = true <-> map_len (ki_map ki V) st = 0).
Proof. intros t ki V st E R. exact (c05 (derive_map_laws t ki V E) st R). Qed.
Print Assumptions C05_len.

Example C05_example : map_reachable thing_m things /\ map_len thing_m things = 5 /\
  map_is_empty thing_m things = false /\ map_is_empty thing_m (map_clear thing_m things) = true.
Proof. split; [exact things_reachable|]. repeat split. Qed.

(** * C06: iteration order *)

Theorem C06_iter_order : forall t ki V (st : ms_St (ki_map ki V)),
  derive t = Some ki -> map_reachable (ki_map ki V) st ->
  exists l, yields (ms_Iter (ki_map ki V)) (map_iter (ki_map ki V) st) l /\
    lists (map_get (ki_map ki V) st) l /\ sorted_by (key_before t) (map fst l).
Proof.
  intros t ki V st E R. destruct (c06 (derive_map_laws t ki V E) st R) as (l & Y & Hl & Hs).
  exists l. split; [exact Y|]. split; [exact Hl|].
  exact (sorted_by_ext _ _ _ (fun a b => proj2 (proj1 spec_before t a b)) Hs).
Qed.
Print Assumptions C06_iter_order.

Theorem C06_iter_history_free : forall t ki V (a b : ms_St (ki_map ki V)),
  derive t = Some ki -> hash_free t = true ->
  map_reachable (ki_map ki V) a -> map_reachable (ki_map ki V) b ->
  (forall k, map_get (ki_map ki V) a k = map_get (ki_map ki V) b k) ->
  exists l, yields (ms_Iter (ki_map ki V)) (map_iter (ki_map ki V) a) l /\
            yields (ms_Iter (ki_map ki V)) (map_iter (ki_map ki V) b) l.
Proof.
  intros t ki V a b E F Ra Rb G. set (L := derive_map_laws t ki V E).
  destruct (c06 L a Ra) as (la & Ya & _). destruct (c06 L b Rb) as (lb & Yb & _).
  exists la. split; [exact Ya|]. rewrite (c06_unique L a b) with (la := la) (lb := lb); auto.
  intros x y. destruct (proj1 key_before_total t F x y) as [H|[H|H]]; auto;
    apply (proj1 spec_before t) in H; auto.
Qed.
Print Assumptions C06_iter_history_free.

Example C06_example :
  map_reachable thing_m things /\ drain (ms_Iter thing_m) 9 (map_iter thing_m things) =
  Some [(k_flag true, 3); (k_num (Some 7%Z), 1); (k_num (Some 9%Z), 5); (k_num None, 4);
        (k_sub south, 2)] /\
  key_before thing_t (k_flag true) (k_num (Some 7%Z)) /\
  ~ key_before thing_t (k_num (Some 9%Z)) (k_num (Some 7%Z)) /\
  hash_free dir_t = true.
Proof.
  split; [exact things_reachable|]. split; [vm_compute; reflexivity|].
  split; [exact I|]. split; [intros []|]. reflexivity.
Qed.

(** * C07: keys() *)

(** False in general: the map over [()] yields its key even when empty. *)
Theorem C07_keys_refuted : exists t ki (st : ms_St (ki_map ki nat)),
  derive t = Some ki /\ map_reachable (ki_map ki nat) st /\
  yields (ms_Iter (ki_map ki nat)) (map_iter (ki_map ki nat) st) [] /\
  ~ yields (ms_Keys (ki_map ki nat)) (map_keys (ki_map ki nat) st) [].
Proof.
  exists KUnit, (MkKeyImpl MapStorages.single_map_storage SetStorages.single_set_storage).
  exists (map_new _ w0). split; [reflexivity|]. split; [constructor|]. split.
  - exists 1. intros [|n] H; [lia|reflexivity].
  - intros [n H]. specialize (H (S (S n)) ltac:(lia)). discriminate.
Qed.
Print Assumptions C07_keys_refuted.

(** It holds for key types without [()]; what is missing is [()] itself. *)
Theorem C07_keys_partial : forall t ki V (st : ms_St (ki_map ki V)),
  derive t = Some ki -> (forall k, leaf_of t k <> LUnit) -> map_reachable (ki_map ki V) st ->
  exists l, yields (ms_Iter (ki_map ki V)) (map_iter (ki_map ki V) st) l /\
            yields (ms_Keys (ki_map ki V)) (map_keys (ki_map ki V) st) (map fst l).
Proof.
  intros t ki V st E F R. apply (c07_free (derive_map_laws t ki V E)); auto.
  intros k. rewrite (proj1 spec_leaf). apply F.
Qed.
Print Assumptions C07_keys_partial.

(** In all cases: the keys present plus every [()] place, in order, each once. *)
Theorem C07_keys_exact : forall t ki V (st : ms_St (ki_map ki V)),
  derive t = Some ki -> map_reachable (ki_map ki V) st ->
  exists ks l, yields (ms_Keys (ki_map ki V)) (map_keys (ki_map ki V) st) ks /\
    yields (ms_Iter (ki_map ki V)) (map_iter (ki_map ki V) st) l /\
    NoDup ks /\ sorted_by (key_before t) ks /\
    (forall k, In k ks <-> map_contains_key (ki_map ki V) st k = true \/ leaf_of t k = LUnit) /\
    filter (map_contains_key (ki_map ki V) st) ks = map fst l.
Proof.
  intros t ki V st E R.
  destruct (c07 (derive_map_laws t ki V E) st R) as (ks & l & Y1 & Y2 & N & Hs & Hin & Hf).
  exists ks, l. split; [exact Y1|]. split; [exact Y2|]. split; [exact N|].
  split; [exact (sorted_by_ext _ _ _ (fun a b => proj2 (proj1 spec_before t a b)) Hs)|].
  split; [|exact Hf]. intros k. rewrite <- (proj1 spec_leaf t k). apply Hin.
Qed.
Print Assumptions C07_keys_exact.

Example C07_example : map_reachable thing_m things /\
  (forall k, leaf_of thing_t k <> LUnit) /\
  drain (ms_Keys thing_m) 9 (map_keys thing_m things) =
  Some [k_flag true; k_num (Some 7%Z); k_num (Some 9%Z); k_num None; k_sub south].
Proof.
  split; [exact things_reachable|]. split; [|reflexivity].
  intros [?|[?|[[?|]|[[?|[?|[?|[?|[]]]]]|[]]]]]; simpl; discriminate.
Qed.

(** * C08: values() and into_iter() *)

Theorem C08_values_into_iter : forall t ki V (st : ms_St (ki_map ki V)),
  derive t = Some ki -> map_reachable (ki_map ki V) st ->
  exists l, yields (ms_Iter (ki_map ki V)) (map_iter (ki_map ki V) st) l /\
            yields (ms_Values (ki_map ki V)) (map_values (ki_map ki V) st) (map snd l) /\
            yields (ms_IntoIter (ki_map ki V)) (map_into_iter (ki_map ki V) st) l.
Proof. intros t ki V st E R. exact (c08 (derive_map_laws t ki V E) st R). Qed.
Print Assumptions C08_values_into_iter.

Example C08_example : map_reachable thing_m things /\
  drain (ms_Values thing_m) 9 (map_values thing_m things) = Some [3; 1; 5; 4; 2].
Proof. split; [exact things_reachable|reflexivity]. Qed.

(** * C10: mutable iteration *)

Theorem C10_iter_mut : forall t ki V (st : ms_St (ki_map ki V)),
  derive t = Some ki -> map_reachable (ki_map ki V) st ->
  exists l li,
    yields (ms_IterMut (ki_map ki V)) (map_iter_mut (ki_map ki V) st) l /\
    yields (ms_ValuesMut (ki_map ki V)) (map_values_mut (ki_map ki V) st) (map snd l) /\
    yields (ms_Iter (ki_map ki V)) (map_iter (ki_map ki V) st) li /\ map fst l = map fst li /\
    NoDup (map snd l) /\
    (forall k r, In (k, r) l ->
       exists v, map_get (ki_map ki V) st k = Some v /\ deref (ki_map ki V) st r = Ok v) /\
    (forall ws, (forall r v, In (r, v) ws -> In r (map snd l)) ->
       exists st', assign_all (ki_map ki V) st ws = Ok st' /\ map_reachable (ki_map ki V) st' /\
         (forall k r v, In (k, r) l -> last_value ws r v -> map_get (ki_map ki V) st' k = Some v) /\
         (forall k r, In (k, r) l -> ~ In r (map fst ws) ->
            map_get (ki_map ki V) st' k = map_get (ki_map ki V) st k) /\
         (forall k, map_get (ki_map ki V) st k = None -> map_get (ki_map ki V) st' k = None)).
Proof. intros t ki V st E R. exact (c10 (derive_map_laws t ki V E) st R). Qed.
Print Assumptions C10_iter_mut.

Example C10_example : map_reachable thing_m things /\
  exists l, drain (ms_IterMut thing_m) 9 (map_iter_mut thing_m things) = Some l /\ length l = 5 /\
  exists r1 r2 st', nth_error (map snd l) 1 = Some r1 /\ nth_error (map snd l) 4 = Some r2 /\
  assign_all thing_m things [(r2, 70); (r1, 80); (r2, 90)] = Ok st' /\
  drain (ms_Values thing_m) 9 (map_values thing_m st') = Some [3; 80; 5; 4; 90].
Proof.
  split; [exact things_reachable|]. eexists. split; [reflexivity|]. split; [reflexivity|].
  do 3 eexists. split; [reflexivity|]. split; [reflexivity|]. split; reflexivity.
Qed.

(** * C11: get_mut *)

Theorem C11_get_mut : forall t ki V (st : ms_St (ki_map ki V)) k,
  derive t = Some ki -> map_reachable (ki_map ki V) st ->
  ((exists r, map_get_mut (ki_map ki V) st k = Some r) <->
     map_contains_key (ki_map ki V) st k = true) /\
  forall r, map_get_mut (ki_map ki V) st k = Some r ->
    (exists v, map_get (ki_map ki V) st k = Some v /\ deref (ki_map ki V) st r = Ok v) /\
    forall w, exists st', assign (ki_map ki V) st r w = Ok st' /\
      map_get (ki_map ki V) st' k = Some w /\
      (forall k', k' <> k -> map_get (ki_map ki V) st' k' = map_get (ki_map ki V) st k') /\
      (forall k', map_contains_key (ki_map ki V) st' k' = map_contains_key (ki_map ki V) st k').
Proof. intros t ki V st k E R. exact (c11 (derive_map_laws t ki V E) st k R). Qed.
Print Assumptions C11_get_mut.

Example C11_example : map_reachable thing_m things /\
  exists r st', map_get_mut thing_m things (k_num (Some 9%Z)) = Some r /\
    deref thing_m things r = Ok 5 /\ assign thing_m things r 6 = Ok st' /\
    drain (ms_Values thing_m) 9 (map_values thing_m st') = Some [3; 1; 6; 4; 2].
Proof.
  split; [exact things_reachable|]. do 2 eexists. split; [reflexivity|].
  split; [reflexivity|]. split; reflexivity.
Qed.

(** * C12: retain *)

Theorem C12_retain : forall t ki V (S : Type) (f : retain_fn S (key t) V) (s : S)
    (st : ms_St (ki_map ki V)),
  derive t = Some ki -> map_reachable (ki_map ki V) st ->
  exists l s' l' o st',
    yields (ms_Iter (ki_map ki V)) (map_iter (ki_map ki V) st) l /\
    retain_list f s l = (s', l', o) /\
    map_retain (ki_map ki V) f s st = (s', st', o) /\
    yields (ms_Iter (ki_map ki V)) (map_iter (ki_map ki V) st') l' /\
    lists (map_get (ki_map ki V) st') l'.
Proof. intros t ki V S f s st E R. exact (c12 (derive_map_laws t ki V E) S f s st R). Qed.
Print Assumptions C12_retain.

(** A closure counting its calls, doubling values and rejecting odd ones. *)
Definition odd_out : retain_fn nat (key thing_t) nat :=
  fun n _ v => (S n, 2 * v, if Nat.even v then Keep else Discard).

Example C12_example : map_reachable thing_m things /\
  exists st', map_retain thing_m odd_out 0 things = (5, st', Done) /\
    drain (ms_Iter thing_m) 9 (map_iter thing_m st') = Some [(k_num None, 8); (k_sub south, 4)].
Proof. split; [exact things_reachable|]. eexists. split; reflexivity. Qed.

(** * C13: an unwinding closure or destructor *)

Theorem C13_retain_unwind : forall t ki V (S : Type) (f : retain_fn S (key t) V) (s : S)
    (st : ms_St (ki_map ki V)) s' st',
  derive t = Some ki -> map_reachable (ki_map ki V) st ->
  map_retain (ki_map ki V) f s st = (s', st', Unwound) ->
  exists pre k v post s1 pre' v' here,
    yields (ms_Iter (ki_map ki V)) (map_iter (ki_map ki V) st) (pre ++ (k, v) :: post) /\
    retain_list f s pre = (s1, pre', Done) /\
    (f s1 k v = (s', v', Unwind) /\ here = [(k, v')] \/
     f s1 k v = (s', v', DiscardUnwind) /\ here = []) /\
    yields (ms_Iter (ki_map ki V)) (map_iter (ki_map ki V) st') (pre' ++ here ++ post) /\
    lists (map_get (ki_map ki V) st') (pre' ++ here ++ post) /\
    map_reachable (ki_map ki V) st'.
Proof.
  intros t ki V S f s st s' st' E R. exact (c13 (derive_map_laws t ki V E) S f s st s' st' R).
Qed.
Print Assumptions C13_retain_unwind.

(** The same closure, unwinding on its fourth call. *)
Definition odd_out_crash : retain_fn nat (key thing_t) nat :=
  fun n _ v => (S n, 2 * v, if n =? 3 then Unwind else if Nat.even v then Keep else Discard).

Example C13_example : map_reachable thing_m things /\
  exists st', map_retain thing_m odd_out_crash 0 things = (4, st', Unwound) /\
    drain (ms_Iter thing_m) 9 (map_iter thing_m st') = Some [(k_num None, 8); (k_sub south, 2)].
Proof. split; [exact things_reachable|]. eexists. split; reflexivity. Qed.

(** The same closure; the destructor of the second value it rejects unwinds. *)
Definition odd_out_drop : retain_fn nat (key thing_t) nat :=
  fun n _ v => (S n, 2 * v, if Nat.even v then Keep else if n =? 1 then DiscardUnwind else Discard).

Example C13_drop_example :
  exists s' st', map_retain thing_m odd_out_drop 0 things = (s', st', Unwound) /\
    drain (ms_Iter thing_m) 9 (map_iter thing_m things) <>
      drain (ms_Iter thing_m) 9 (map_iter thing_m st') /\
    map_len thing_m st' = 3.
Proof. do 2 eexists. split; [reflexivity|]. split; [discriminate|reflexivity]. Qed.

(** * C14: new, default, clear *)

Theorem C14_map_empty : forall t ki V (st : ms_St (ki_map ki V)),
  derive t = Some ki ->
  (exists w, st = map_new (ki_map ki V) w) \/ (exists w, st = map_default (ki_map ki V) w) \/
  (exists st0, map_reachable (ki_map ki V) st0 /\ st = map_clear (ki_map ki V) st0) ->
  (forall k, map_get (ki_map ki V) st k = None) /\
  (forall k, map_contains_key (ki_map ki V) st k = false) /\
  map_len (ki_map ki V) st = 0 /\ map_is_empty (ki_map ki V) st = true /\
  yields (ms_Iter (ki_map ki V)) (map_iter (ki_map ki V) st) [].
Proof. intros t ki V st E H. exact (c14 (derive_map_laws t ki V E) st H). Qed.
Print Assumptions C14_map_empty.

Example C14_map_example : map_reachable thing_m things /\ map_len thing_m things = 5 /\
  map_len thing_m (map_clear thing_m things) = 0.
Proof. split; [exact things_reachable|]. repeat split. Qed.

(** * C19: equality *)

Theorem C19_map_eq : forall t ki V veq (a b : ms_St (ki_map ki V)),
  derive t = Some ki -> map_reachable (ki_map ki V) a -> map_reachable (ki_map ki V) b ->
  (map_eq (ki_map ki V) veq a b = true <->
   forall k, same_option veq (map_get (ki_map ki V) a k) (map_get (ki_map ki V) b k)).
Proof. intros t ki V veq a b E Ra Rb. exact (c19 (derive_map_laws t ki V E) veq a b Ra Rb). Qed.
Print Assumptions C19_map_eq.

Theorem C19_map_eq_equivalence : forall t ki V veq,
  derive t = Some ki ->
  ((forall v, veq v v = true) -> forall a, map_reachable (ki_map ki V) a ->
     map_eq (ki_map ki V) veq a a = true) /\
  ((forall u v, veq u v = true -> veq v u = true) -> forall a b,
     map_reachable (ki_map ki V) a -> map_reachable (ki_map ki V) b ->
     map_eq (ki_map ki V) veq a b = true -> map_eq (ki_map ki V) veq b a = true) /\
  ((forall u v w, veq u v = true -> veq v w = true -> veq u w = true) -> forall a b c,
     map_reachable (ki_map ki V) a -> map_reachable (ki_map ki V) b ->
     map_reachable (ki_map ki V) c ->
     map_eq (ki_map ki V) veq a b = true -> map_eq (ki_map ki V) veq b c = true ->
     map_eq (ki_map ki V) veq a c = true).
Proof. intros t ki V veq E. exact (c19_equiv (derive_map_laws t ki V E) veq). Qed.
Print Assumptions C19_map_eq_equivalence.

(** The same entries inserted in another order; and an equality that is not
    reflexive. *)
Example C19_example :
  let b := build thing_m [(k_num (Some 9%Z), 5); (k_num None, 4); (k_sub south, 2);
                          (k_num (Some 7%Z), 1); (k_flag true, 3)] in
  map_reachable thing_m things /\ map_reachable thing_m b /\
  map_eq thing_m Nat.eqb things b = true /\
  map_eq thing_m Nat.eqb things (snd (map_insert thing_m b k_unit 0)) = false /\
  map_eq thing_m (fun _ _ => false) things things = false.
Proof. split; [exact things_reachable|]. split; [apply build_reachable|]. repeat split. Qed.

(** * C20: clone *)

Theorem C20_map_clone : forall t ki V cl (st : ms_St (ki_map ki V)),
  derive t = Some ki -> map_reachable (ki_map ki V) st ->
  (forall k, map_get (ki_map ki V) (map_clone (ki_map ki V) cl st) k =
             option_map cl (map_get (ki_map ki V) st k)) /\
  exists l, yields (ms_Iter (ki_map ki V)) (map_iter (ki_map ki V) st) l /\
    yields (ms_Iter (ki_map ki V)) (map_iter (ki_map ki V) (map_clone (ki_map ki V) cl st))
           (map (fun e => (fst e, cl (snd e))) l).
Proof. intros t ki V cl st E R. exact (c20 (derive_map_laws t ki V E) cl st R). Qed.
Print Assumptions C20_map_clone.

Theorem C20_map_clone_eq : forall t ki V veq cl (st : ms_St (ki_map ki V)),
  derive t = Some ki -> map_reachable (ki_map ki V) st -> (forall v, veq v (cl v) = true) ->
  map_eq (ki_map ki V) veq st (map_clone (ki_map ki V) cl st) = true.
Proof. intros t ki V veq cl st E R. exact (c20_eq (derive_map_laws t ki V E) veq cl st R). Qed.
Print Assumptions C20_map_clone_eq.

(** Later histories on the clone behave as on a map with the cloned entries. *)
Theorem C20_map_clone_history : forall t ki V cl (st : ms_St (ki_map ki V)) ops,
  derive t = Some ki -> map_reachable (ki_map ki V) st ->
  exists xs st' n0,
    (forall n, n0 <= n ->
       run_ops (ki_map ki V) n (map_clone (ki_map ki V) cl st) ops = Ok (xs, st')) /\
    spec_ops (fun k => option_map cl (map_get (ki_map ki V) st k)) ops xs
             (map_get (ki_map ki V) st').
Proof.
  intros t ki V cl st ops E R. set (L := derive_map_laws t ki V E).
  destruct (c01_from L _ ops _ (mr_clone _ cl st R) (proj1 (c20 L cl st R)))
    as (xs & st' & n0 & H1 & _ & H2).
  exists xs, st', n0. exact (conj H1 H2).
Qed.
Print Assumptions C20_map_clone_history.

Example C20_map_example : map_reachable thing_m things /\
  drain (ms_Iter thing_m) 9 (map_iter thing_m (map_clone thing_m (fun v => v + 10) things)) =
  Some [(k_flag true, 13); (k_num (Some 7%Z), 11); (k_num (Some 9%Z), 15); (k_num None, 14);
        (k_sub south, 12)].
Proof. split; [exact things_reachable|reflexivity]. Qed.

(** * C23: collecting *)

Theorem C23_map_from_iter : forall t ki V w l,
  derive t = Some ki ->
  map_reachable (ki_map ki V) (map_from_iter (ki_map ki V) w l) /\
  forall k v, map_get (ki_map ki V) (map_from_iter (ki_map ki V) w l) k = Some v <->
              last_value l k v.
Proof. intros t ki V w l E. exact (c23 (derive_map_laws t ki V E) w l). Qed.
Print Assumptions C23_map_from_iter.

Example C23_map_example :
  map_get thing_m (map_from_iter thing_m w0 [(k_unit, 1); (k_num None, 2); (k_unit, 3)]) k_unit
  = Some 3 /\ last_value [(k_unit, 1); (k_num None, 2); (k_unit, 3)] k_unit 3.
Proof. split; [reflexivity|]. exists [(k_unit, 1); (k_num None, 2)], []. simpl. tauto. Qed.

(** * C24: serde *)

Theorem C24_map_serialize : forall t ki V Out Err (z : serializer (key t * V) Out Err)
    (st : ms_St (ki_map ki V)),
  derive t = Some ki -> map_reachable (ki_map ki V) st ->
  exists l, yields (ms_Iter (ki_map ki V)) (map_iter (ki_map ki V) st) l /\
    map_len (ki_map ki V) st = length l /\
    returns (fun n => map_serialize (ki_map ki V) z n st) (feed_all z l).
Proof. intros t ki V Out Err z st E R. exact (c24_ser (derive_map_laws t ki V E) z st R). Qed.
Print Assumptions C24_map_serialize.

Theorem C24_map_deserialize : forall t ki V D Err (acc : access D (key t * V) Err) w d l,
  derive t = Some ki -> supplies acc d l ->
  exists st, returns (fun n => map_visit (ki_map ki V) acc n w d) (inl st) /\
    map_reachable (ki_map ki V) st /\
    forall k v, map_get (ki_map ki V) st k = Some v <-> last_value l k v.
Proof.
  intros t ki V D Err acc w d l E Hs. exists (map_from_iter (ki_map ki V) w l).
  split; [exact (c24_visit acc w d l Hs)|]. exact (c23 (derive_map_laws t ki V E) w l).
Qed.
Print Assumptions C24_map_deserialize.

Theorem C24_map_deserialize_error : forall t ki V D Err (acc : access D (key t * V) Err) w d l e,
  derive t = Some ki -> breaks acc d l e ->
  returns (fun n => map_visit (ki_map ki V) acc n w d) (inr e).
Proof. intros t ki V D Err acc w d l e E Hs. exact (c24_breaks acc w d l e Hs). Qed.
Print Assumptions C24_map_deserialize_error.

Theorem C24_map_roundtrip : forall t ki V D Err (acc : access D (key t * V) Err) w d l veq
    (st : ms_St (ki_map ki V)),
  derive t = Some ki -> map_reachable (ki_map ki V) st ->
  yields (ms_Iter (ki_map ki V)) (map_iter (ki_map ki V) st) l -> supplies acc d l ->
  exists st', returns (fun n => map_visit (ki_map ki V) acc n w d) (inl st') /\
    (forall k, map_get (ki_map ki V) st' k = map_get (ki_map ki V) st k) /\
    ((forall v, veq v v = true) -> map_eq (ki_map ki V) veq st' st = true).
Proof.
  intros t ki V D Err acc w d l veq st E R Y Hs.
  exact (c24_round (derive_map_laws t ki V E) acc w d l veq st R Y Hs).
Qed.
Print Assumptions C24_map_roundtrip.

(** A serializer recording what it is given, and an input read from a list. *)
Definition recorder {A} : serializer A (option nat * list A) unit := {|
  ser_st := option nat * list A;
  ser_start := fun n => inl (n, []);
  ser_elem := fun s x => inl (fst s, snd s ++ [x]);
  ser_end := fun s => inl s
|}.
Definition list_access {A} : access (list A) A unit :=
  fun l => match l with [] => (inl None, []) | x :: r => (inl (Some x), r) end.

Example C24_map_example : map_reachable thing_m things /\
  map_serialize thing_m recorder 9 things =
    Some (inl (Some 5, [(k_flag true, 3); (k_num (Some 7%Z), 1); (k_num (Some 9%Z), 5);
                        (k_num None, 4); (k_sub south, 2)])) /\
  supplies list_access [(k_unit, 1); (k_flag true, 2)] [(k_unit, 1); (k_flag true, 2)].
Proof.
  split; [exact things_reachable|]. split; [reflexivity|].
  repeat (econstructor; [reflexivity|]). econstructor. reflexivity.
Qed.

(** * C39: conservation of values *)

Theorem C39_insert : forall t ki V (st : ms_St (ki_map ki V)) k v vs vs',
  derive t = Some ki -> map_reachable (ki_map ki V) st ->
  yields (ms_Values (ki_map ki V)) (map_values (ki_map ki V) st) vs ->
  yields (ms_Values (ki_map ki V))
         (map_values (ki_map ki V) (snd (map_insert (ki_map ki V) st k v))) vs' ->
  Permutation (opt_list (fst (map_insert (ki_map ki V) st k v)) ++ vs') (v :: vs).
Proof.
  intros t ki V st k v vs vs' E. exact (c39_insert (derive_map_laws t ki V E) st k v vs vs').
Qed.
Print Assumptions C39_insert.

Theorem C39_remove : forall t ki V (st : ms_St (ki_map ki V)) k vs vs',
  derive t = Some ki -> map_reachable (ki_map ki V) st ->
  yields (ms_Values (ki_map ki V)) (map_values (ki_map ki V) st) vs ->
  yields (ms_Values (ki_map ki V))
         (map_values (ki_map ki V) (snd (map_remove (ki_map ki V) st k))) vs' ->
  Permutation (opt_list (fst (map_remove (ki_map ki V) st k)) ++ vs') vs.
Proof.
  intros t ki V st k vs vs' E. exact (c39_remove (derive_map_laws t ki V E) st k vs vs').
Qed.
Print Assumptions C39_remove.

Theorem C39_occupied_insert : forall t ki V (st : ms_St (ki_map ki V)) k o v old st' vs vs',
  derive t = Some ki -> occ_live (ki_map ki V) st k o ->
  ms_occ_insert (ki_map ki V) st o v = Ok (old, st') ->
  yields (ms_Values (ki_map ki V)) (map_values (ki_map ki V) st) vs ->
  yields (ms_Values (ki_map ki V)) (map_values (ki_map ki V) st') vs' ->
  Permutation (old :: vs') (v :: vs).
Proof.
  intros t ki V st k o v old st' vs vs' E.
  exact (c39_occ_insert (derive_map_laws t ki V E) st k o v old st' vs vs').
Qed.
Print Assumptions C39_occupied_insert.

Theorem C39_occupied_remove : forall t ki V (st : ms_St (ki_map ki V)) k o v st' vs vs',
  derive t = Some ki -> occ_live (ki_map ki V) st k o ->
  ms_occ_remove (ki_map ki V) st o = Ok (v, st') ->
  yields (ms_Values (ki_map ki V)) (map_values (ki_map ki V) st) vs ->
  yields (ms_Values (ki_map ki V)) (map_values (ki_map ki V) st') vs' ->
  Permutation (v :: vs') vs.
Proof.
  intros t ki V st k o v st' vs vs' E.
  exact (c39_occ_remove (derive_map_laws t ki V E) st k o v st' vs vs').
Qed.
Print Assumptions C39_occupied_remove.

Theorem C39_vacant_insert : forall t ki V (st : ms_St (ki_map ki V)) k x v r st' vs vs',
  derive t = Some ki -> map_reachable (ki_map ki V) st ->
  map_entry (ki_map ki V) st k = Ok (Vacant x) ->
  ms_vac_insert (ki_map ki V) st x v = Ok (r, st') ->
  yields (ms_Values (ki_map ki V)) (map_values (ki_map ki V) st) vs ->
  yields (ms_Values (ki_map ki V)) (map_values (ki_map ki V) st') vs' ->
  Permutation vs' (v :: vs).
Proof.
  intros t ki V st k x v r st' vs vs' E.
  exact (c39_vac_insert (derive_map_laws t ki V E) st k x v r st' vs vs').
Qed.
Print Assumptions C39_vacant_insert.

Theorem C39_retain : forall t ki V (S : Type) (f : retain_fn S (key t) V) (s : S)
    (st : ms_St (ki_map ki V)) s' st' o l vs',
  derive t = Some ki -> map_reachable (ki_map ki V) st ->
  map_retain (ki_map ki V) f s st = (s', st', o) ->
  yields (ms_Iter (ki_map ki V)) (map_iter (ki_map ki V) st) l ->
  yields (ms_Values (ki_map ki V)) (map_values (ki_map ki V) st') vs' ->
  Permutation (vs' ++ rejected f s l) (left_behind f s l) /\
  ((forall s k v, snd (fst (f s k v)) = v) -> Permutation (vs' ++ rejected f s l) (map snd l)).
Proof.
  intros t ki V S f s st s' st' o l vs' E R H Y Y'.
  pose proof (c39_retain (derive_map_laws t ki V E) S f s st s' st' o l vs' R H Y Y') as P.
  split; [exact P|]. intros Hf. rewrite <- (left_behind_same f l s Hf). exact P.
Qed.
Print Assumptions C39_retain.

Theorem C39_into_iter : forall t ki V (st : ms_St (ki_map ki V)),
  derive t = Some ki -> map_reachable (ki_map ki V) st ->
  exists l, yields (ms_IntoIter (ki_map ki V)) (map_into_iter (ki_map ki V) st) l /\
            lists (map_get (ki_map ki V) st) l.
Proof. intros t ki V st E R. exact (c39_into_iter (derive_map_laws t ki V E) st R). Qed.
Print Assumptions C39_into_iter.

Example C39_example : map_reachable thing_m things /\
  drain (ms_Values thing_m) 9 (map_values thing_m things) = Some [3; 1; 5; 4; 2] /\
  fst (map_insert thing_m things (k_num None) 8) = Some 4 /\
  drain (ms_Values thing_m) 9
    (map_values thing_m (snd (map_insert thing_m things (k_num None) 8))) = Some [3; 1; 5; 8; 2] /\
  (exists o, occ_live thing_m things (k_num None) o) /\
  (exists x, map_entry thing_m things k_unit = Ok (Vacant x)).
Proof.
  split; [exact things_reachable|]. split; [reflexivity|]. split; [reflexivity|].
  split; [reflexivity|]. split.
  - eexists. apply ol_entry; [exact things_reachable|reflexivity].
  - eexists. reflexivity.
Qed.
