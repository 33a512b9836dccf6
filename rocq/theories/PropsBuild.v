(** Properties about building the same map or set in different ways. *)
Require Import List Arith ZArith Bool Lia Permutation.
Import ListNotations.
From Verif Require Import Std Traits Key Api Spec Reach KeyLaws IterFacts MapProofs SetProofs
  BuildProofs Samples.

(** * C49: only the contents count *)

(** The order of pairs with different keys does not matter, nor do the hashers. *)
Theorem C49_map_order : forall t ki V veq w w' (l l' : list (key t * V)),
  derive t = Some ki -> (forall v, veq v v = true) -> NoDup (map fst l) -> Permutation l l' ->
  map_eq (ki_map ki V) veq (map_from_iter (ki_map ki V) w l) (map_from_iter (ki_map ki V) w' l')
  = true.
Proof.
  intros t ki V veq w w' l l' E Hv N P. set (L := derive_map_laws t ki V E).
  exact (same_get_eq L veq _ _ (proj1 (c23 L w l)) (proj1 (c23 L w' l')) Hv
           (from_perm L w w' l l' N P)).
Qed.
Print Assumptions C49_map_order.

Theorem C49_set_order : forall t ki w w' (l l' : list (key t)),
  derive t = Some ki -> (forall k, In k l <-> In k l') ->
  set_eq (ki_set ki) (set_from_iter (ki_set ki) w l) (set_from_iter (ki_set ki) w' l') = true.
Proof. intros t ki w w' l l' E H. exact (s_from_same (derive_set_laws t ki E) w w' l l' H). Qed.
Print Assumptions C49_set_order.

Example C49_order_example :
  let l := [(k_num (Some 9%Z), 5); (k_num None, 4); (k_sub south, 2); (k_num (Some 7%Z), 1)] in
  NoDup (map fst l) /\ Permutation l (rev l) /\
  map_eq thing_m Nat.eqb (map_from_iter thing_m w0 l) (map_from_iter thing_m w0 (rev l)) = true /\
  set_eq thing_s (set_from_iter thing_s w0 (map fst l))
                 (set_from_iter thing_s w0 (map fst (rev l ++ l))) = true /\
  (forall k, In k (map fst l) <-> In k (map fst (rev l ++ l))).
Proof.
  split; [|split; [apply Permutation_rev|split; [reflexivity|split; [reflexivity|]]]].
  - repeat constructor; simpl; intuition discriminate.
  - simpl. intuition.
Qed.

(** Collecting what a map or set is turned into gives an equal one. *)
Theorem C49_map_rebuild : forall t ki V veq w (st : ms_St (ki_map ki V)) l,
  derive t = Some ki -> map_reachable (ki_map ki V) st -> (forall v, veq v v = true) ->
  yields (ms_IntoIter (ki_map ki V)) (map_into_iter (ki_map ki V) st) l ->
  map_eq (ki_map ki V) veq (map_from_iter (ki_map ki V) w l) st = true.
Proof.
  intros t ki V veq w st l E R Hv Y. set (L := derive_map_laws t ki V E).
  destruct (c08 L st R) as (l' & Y1 & _ & Y2). rewrite (yields_fun _ _ _ _ Y Y2).
  exact (same_get_eq L veq _ _ (proj1 (c23 L w l')) R Hv (c24_roundtrip L st w l' R Y1)).
Qed.
Print Assumptions C49_map_rebuild.

Theorem C49_set_rebuild : forall t ki w (st : ss_St (ki_set ki)) l,
  derive t = Some ki -> set_reachable (ki_set ki) st ->
  yields (ss_Iter (ki_set ki)) (set_iter (ki_set ki) st) l ->
  set_eq (ki_set ki) (set_from_iter (ki_set ki) w l) st = true.
Proof. intros t ki w st l E R Y. exact (s_rebuild (derive_set_laws t ki E) w st l R Y). Qed.
Print Assumptions C49_set_rebuild.

Example C49_rebuild_example : map_reachable thing_m things /\
  drain (ms_IntoIter thing_m) 9 (map_into_iter thing_m things) =
    Some [(k_flag true, 3); (k_num (Some 7%Z), 1); (k_num (Some 9%Z), 5); (k_num None, 4);
          (k_sub south, 2)].
Proof. split; [exact things_reachable|reflexivity]. Qed.

(** Inserting and then restoring what was there before, and removing and then
    putting the value back, gives an equal map. *)
Theorem C49_insert_undo : forall t ki V veq (st : ms_St (ki_map ki V)) k v,
  derive t = Some ki -> map_reachable (ki_map ki V) st -> (forall v, veq v v = true) ->
  let '(old, st1) := map_insert (ki_map ki V) st k v in
  map_eq (ki_map ki V) veq
    (match old with
     | Some u => snd (map_insert (ki_map ki V) st1 k u)
     | None => snd (map_remove (ki_map ki V) st1 k)
     end) st = true.
Proof.
  intros t ki V veq st k v E R Hv. set (L := derive_map_laws t ki V E).
  pose proof (undo_insert L st k v R) as H. destruct (map_insert (ki_map ki V) st k v) as [old st1].
  destruct H as [R2 H]. exact (same_get_eq L veq _ _ R2 R Hv H).
Qed.
Print Assumptions C49_insert_undo.

Theorem C49_remove_undo : forall t ki V veq (st : ms_St (ki_map ki V)) k,
  derive t = Some ki -> map_reachable (ki_map ki V) st -> (forall v, veq v v = true) ->
  let '(old, st1) := map_remove (ki_map ki V) st k in
  map_eq (ki_map ki V) veq
    (match old with
     | Some u => snd (map_insert (ki_map ki V) st1 k u)
     | None => st1
     end) st = true.
Proof.
  intros t ki V veq st k E R Hv. set (L := derive_map_laws t ki V E).
  pose proof (undo_remove L st k R) as H. destruct (map_remove (ki_map ki V) st k) as [old st1].
  destruct H as [R2 H]. exact (same_get_eq L veq _ _ R2 R Hv H).
Qed.
Print Assumptions C49_remove_undo.

Example C49_undo_example : map_reachable thing_m things /\
  fst (map_insert thing_m things (k_num (Some 7%Z)) 8) = Some 1 /\
  fst (map_insert thing_m things k_unit 8) = None /\
  fst (map_remove thing_m things (k_num None)) = Some 4 /\
  fst (map_remove thing_m things (k_flag false)) = None.
Proof. split; [exact things_reachable|]. repeat split. Qed.
