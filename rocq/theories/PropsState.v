(** Properties about two maps or sets with the same contents, and about [Debug]
    output. *)
Require Import String List Arith NArith ZArith Bool Lia Permutation.
Import ListNotations.
From Verif Require Import Std Traits Key Api Debug Spec Reach History SetHistory StateSpec
  SetLaws KeyLaws IterFacts MapFacts HistProofs MapProofs SetFacts SetProofs KeyFacts StateProofs
  DebugProofs Samples.

(** * C44: Debug *)

(** [{k: v, k: v, ...}], in iteration order. *)
Theorem C44_map_debug : forall t ki V (fk : key t -> string) (fv : V -> string)
    (st : ms_St (ki_map ki V)), derive t = Some ki -> map_reachable (ki_map ki V) st ->
  exists l, lists (map_get (ki_map ki V) st) l /\ sorted_by (key_before t) (map fst l) /\
    yields (ms_Iter (ki_map ki V)) (map_iter (ki_map ki V) st) l /\
    returns (fun n => map_debug fk fv (ki_map ki V) n st)
      ("{" ++ String.concat ", " (map (fun e => fk (fst e) ++ ": " ++ fv (snd e)) l) ++ "}")%string.
Proof.
  intros t ki V fk fv st E R. destruct (c06 (derive_map_laws t ki V E) st R) as (l & Y & Hl & Hs).
  exists l. split; [exact Hl|]. split.
  - exact (sorted_by_ext _ _ _ (fun a b => proj2 (proj1 spec_before t a b)) Hs).
  - split; [exact Y|]. exact (map_debug_text fk fv _ st l Y).
Qed.
Print Assumptions C44_map_debug.

(** [{k, k, ...}], in iteration order. *)
Theorem C44_set_debug : forall t ki (fk : key t -> string) (st : ss_St (ki_set ki)),
  derive t = Some ki -> set_reachable (ki_set ki) st ->
  exists l, elements (set_contains (ki_set ki) st) l /\ sorted_by (key_before t) l /\
    yields (ss_Iter (ki_set ki)) (set_iter (ki_set ki) st) l /\
    returns (fun n => set_debug fk (ki_set ki) n st)
      ("{" ++ String.concat ", " (map fk l) ++ "}")%string.
Proof.
  intros t ki fk st E R. destruct (s_c30 (derive_set_laws t ki E) st R) as (l & Y & _ & Hl & Hs & _).
  exists l. split; [exact Hl|]. split.
  - exact (sorted_by_ext _ _ _ (fun a b => proj2 (proj1 spec_before t a b)) Hs).
  - split; [exact Y|]. exact (set_debug_text fk _ st l Y).
Qed.
Print Assumptions C44_set_debug.

(** After any number of calls of [next], [[k, k, ...]] lists what the
    intersection still has to yield. *)
Theorem C44_intersection_debug : forall t ki (fk : key t -> string) (a b : ss_St (ki_set ki)),
  derive t = Some ki -> set_reachable (ki_set ki) a -> set_reachable (ki_set ki) b ->
  exists l, elements (fun k => set_contains (ki_set ki) a k && set_contains (ki_set ki) b k) l /\
    forall k, exists x',
      returns (fun n => inter_run (ki_set ki) n k (set_intersection (ki_set ki) a b))
              (fst (deque (repeat Front k) l), x') /\
      returns (fun n => inter_drain (ki_set ki) n x') (snd (deque (repeat Front k) l)) /\
      returns (fun n => inter_debug fk n x')
        ("[" ++ String.concat ", " (map fk (snd (deque (repeat Front k) l))) ++ "]")%string.
Proof.
  intros t ki fk a b E Ra Rb.
  destruct (s_c31 (derive_set_laws t ki E) a b Ra Rb) as (l & El & _ & _ & _ & H).
  exists l. split; [exact El|]. intros k. destruct (H k) as (x' & R & D & _).
  exists x'. split; [exact R|]. split; [exact D|]. 
  exact (inter_debug_text fk _ (sl_Iter (derive_set_laws t ki E)) x' _ D).
Qed.
Print Assumptions C44_intersection_debug.

(** Printing of the sample keys and values. *)
Definition show_thing (k : key thing_t) : string :=
  match k with
  | inl _ => "Unit"
  | inr (inl b) => if b then "Flag(true)" else "Flag(false)"
  | inr (inr (inl (Some z))) => if Z.eqb z 7 then "Num(Some(7))" else "Num(Some(_))"
  | inr (inr (inl None)) => "Num(None)"
  | _ => "Sub(_)"
  end.
Definition show_nat (n : nat) : string := if n =? 1 then "1" else "_".

Example C44_example : map_reachable thing_m things /\ set_reachable thing_s thing_set /\
  map_debug show_thing show_nat thing_m 9 things =
    Some "{Flag(true): _, Num(Some(7)): 1, Num(Some(_)): _, Num(None): _, Sub(_): _}"%string /\
  map_debug show_thing show_nat thing_m 9 (map_new thing_m w0) = Some "{}"%string /\
  inter_debug show_thing 9 (set_intersection thing_s thing_set thing_set) =
    option_map (fun l => "[" ++ String.concat ", " (map show_thing l) ++ "]")%string
      (drain (ss_Iter thing_s) 9 (set_iter thing_s thing_set)).
Proof.
  split; [exact things_reachable|]. split; [exact thing_set_reachable|].
  split; [vm_compute; reflexivity|]. split; vm_compute; reflexivity.
Qed.

(** * C45: without hash tables, the contents determine everything *)

(** Two maps with the same contents are the same value: every operation, every
    iterator, hash, order and output agrees from then on. *)
Theorem C45_map_canonical : forall t ki V (a b : ms_St (ki_map ki V)),
  derive t = Some ki -> hash_free t = true ->
  (forall k, map_get (ki_map ki V) a k = map_get (ki_map ki V) b k) -> a = b.
Proof. intros t ki V a b E F. exact (proj1 (proj1 derive_canon t F ki E) V a b). Qed.
Print Assumptions C45_map_canonical.

Theorem C45_set_canonical : forall t ki (a b : ss_St (ki_set ki)),
  derive t = Some ki -> hash_free t = true ->
  set_reachable (ki_set ki) a -> set_reachable (ki_set ki) b ->
  (forall k, set_contains (ki_set ki) a k = set_contains (ki_set ki) b k) -> a = b.
Proof.
  intros t ki a b E F Ra Rb H. apply (proj2 (proj1 derive_canon t F ki E)).
  apply (s_c32 (derive_set_laws t ki E) a b Ra Rb). exact H.
Qed.
Print Assumptions C45_set_canonical.

(** Two different histories with the same contents. *)
Example C45_example :
  let m := ki_map dir_ki nat in let s := ki_set bit_ki in
  hash_free dir_t = true /\ hash_free bit_t = true /\ derive bit_t = Some bit_ki /\
  build m [(north, 1); (west, 2)] = build m [(west, 5); (north, 1); (west, 2)] /\
  set_reachable s (build_set s [south; north]) /\
  build_set s [south; north] = snd (set_remove s (build_set s [north; east; south]) east) /\
  build_set s [south; north] <> build_set s [north].
Proof.
  split; [reflexivity|]. split; [reflexivity|]. split; [reflexivity|]. split; [reflexivity|].
  split; [apply build_set_reachable|]. split; [reflexivity|]. intros [=].
Qed.

(** * C46: equal maps and sets are interchangeable *)

(** Two maps with the same contents give the same results in every later
    history, up to the order in which entries are visited. *)
Theorem C46_map_interchange : forall t ki V (a b : ms_St (ki_map ki V)) ops,
  derive t = Some ki -> map_reachable (ki_map ki V) a -> map_reachable (ki_map ki V) b ->
  (forall k, map_get (ki_map ki V) a k = map_get (ki_map ki V) b k) ->
  Forall order_blind ops ->
  exists xs ys a' b' n0,
    (forall n, n0 <= n -> run_ops (ki_map ki V) n a ops = Ok (xs, a') /\
                          run_ops (ki_map ki V) n b ops = Ok (ys, b')) /\
    Forall2 same_result xs ys /\
    (forall k, map_get (ki_map ki V) a' k = map_get (ki_map ki V) b' k).
Proof.
  intros t ki V a b ops E Ra Rb G B. set (L := derive_map_laws t ki V E).
  destruct (c01_from L a ops _ Ra (fun _ => eq_refl)) as (xs & a' & n1 & Xa & _ & Sa).
  destruct (c01_from L b ops _ Rb (fun _ => eq_refl)) as (ys & b' & n2 & Xb & _ & Sb).
  destruct (spec_ops_same (key_dec t) ops _ _ _ _ xs ys B (fun k => eq_sym (G k)) Sa Sb) as [S1 S2].
  exists xs, ys, a', b', (n1 + n2). split; [|split; [exact S1|]].
  - intros n Hn. split; [apply Xa|apply Xb]; lia.
  - intros k. symmetry. apply S2.
Qed.
Print Assumptions C46_map_interchange.

Theorem C46_set_interchange : forall t ki (a b : ss_St (ki_set ki)) ops,
  derive t = Some ki -> set_reachable (ki_set ki) a -> set_reachable (ki_set ki) b ->
  (forall k, set_contains (ki_set ki) a k = set_contains (ki_set ki) b k) ->
  Forall order_blind_set ops ->
  exists xs ys a' b' n0,
    (forall n, n0 <= n -> run_sops (ki_set ki) n a ops = (xs, a') /\
                          run_sops (ki_set ki) n b ops = (ys, b')) /\
    Forall2 same_result_set xs ys /\
    (forall k, set_contains (ki_set ki) a' k = set_contains (ki_set ki) b' k).
Proof.
  intros t ki a b ops E Ra Rb G B. set (L := derive_set_laws t ki E).
  destruct (s_c25_exact L a ops _ Ra (fun _ => eq_refl)) as (xs & a' & n1 & Xa & _ & Sa).
  destruct (s_c25_exact L b ops _ Rb (fun _ => eq_refl)) as (ys & b' & n2 & Xb & _ & Sb).
  destruct (spec_all_same (key_dec t) _ _ ops _ _ _ _ xs ys B G Sa Sb) as [S1 S2].
  exists xs, ys, a', b', (n1 + n2). split; [|split; [exact S1|exact S2]].
  intros n Hn. split; [apply Xa|apply Xb]; lia.
Qed.
Print Assumptions C46_set_interchange.

(** Two histories over a hash table, iterated in different orders. *)
Example C46_example :
  let m := ki_map u8_ki nat in
  let a := build m [(5%Z, 1); (6%Z, 2)] in
  let b := snd (map_insert m (snd (map_insert m (map_new m (fun _ _ => [])) 5%Z 1)) 6%Z 2) in
  map_reachable m a /\ map_reachable m b /\ (forall k, map_get m a k = map_get m b k) /\
  drain (ms_Iter m) 3 (map_iter m a) <> drain (ms_Iter m) 3 (map_iter m b) /\
  Forall order_blind [MInsert 7%Z 3; MRetain (fun _ k v => (v + 1, if Z.even k then Discard else Keep)); MLen; @MIter Z nat].
Proof.
  split; [apply build_reachable|]. split; [repeat constructor|]. split.
  - intros k. cbv -[Z.eqb]. change (6 =? 5)%Z with false. cbv beta iota.
    destruct (k =? 5)%Z eqn:A, (k =? 6)%Z eqn:B; try reflexivity. lia.
  - split; [vm_compute; discriminate|]. repeat constructor.
    exists (fun k v => (v + 1, negb (Z.even k))). intros log k v. simpl. destruct (Z.even k); reflexivity.
Qed.

(** * C47: cloned iterators *)

(** [Iter], [Keys], [Values] and [IntoIter] of maps. *)
Theorem C47_map_clones : forall t ki V (st : ms_St (ki_map ki V)),
  derive t = Some ki -> map_reachable (ki_map ki V) st ->
  exists l lk,
    clones_continue (ms_Iter (ki_map ki V)) (map_iter (ki_map ki V) st) l /\
    clones_continue (ms_Keys (ki_map ki V)) (map_keys (ki_map ki V) st) lk /\
    clones_continue (ms_Values (ki_map ki V)) (map_values (ki_map ki V) st) (map snd l) /\
    clones_continue (ms_IntoIter (ki_map ki V)) (map_into_iter (ki_map ki V) st) l.
Proof. intros t ki V st E R. exact (c47 (derive_map_laws t ki V E) st R). Qed.
Print Assumptions C47_map_clones.

(** [Iter] and [IntoIter] of sets. *)
Theorem C47_set_clones : forall t ki (st : ss_St (ki_set ki)),
  derive t = Some ki -> set_reachable (ki_set ki) st ->
  exists l,
    clones_continue (ss_Iter (ki_set ki)) (set_iter (ki_set ki) st) l /\
    clones_continue (ss_IntoIter (ki_set ki)) (set_into_iter (ki_set ki) st) l.
Proof. intros t ki st E R. exact (s_c47 (derive_set_laws t ki E) st R). Qed.
Print Assumptions C47_set_clones.

(** [Intersection], after any number of calls of [next]. *)
Theorem C47_intersection_clone : forall t ki (a b : ss_St (ki_set ki)),
  derive t = Some ki -> set_reachable (ki_set ki) a -> set_reachable (ki_set ki) b ->
  exists l, elements (fun k => set_contains (ki_set ki) a k && set_contains (ki_set ki) b k) l /\
    forall k, exists x',
      returns (fun n => inter_run (ki_set ki) n k (set_intersection (ki_set ki) a b))
              (fst (deque (repeat Front k) l), x') /\
      returns (fun n => inter_drain (ki_set ki) n x') (snd (deque (repeat Front k) l)) /\
      returns (fun n => inter_drain (ki_set ki) n (inter_clone x')) (snd (deque (repeat Front k) l)) /\
      inter_hint (ki_set ki) (inter_clone x') = inter_hint (ki_set ki) x'.
Proof.
  intros t ki a b E Ra Rb.
  destruct (s_c31 (derive_set_laws t ki E) a b Ra Rb) as (l & El & _ & _ & _ & H).
  exists l. split; [exact El|]. intros k. destruct (H k) as (x' & R & D & _).
  exists x'. split; [exact R|]. split; [exact D|].
  rewrite (inter_clone_id _ (sl_Iter (derive_set_laws t ki E))). split; [exact D|reflexivity].
Qed.
Print Assumptions C47_intersection_clone.

Example C47_example : map_reachable thing_m things /\
  option_map (fun '(o, s) => (o, drain (ms_Iter thing_m) 9 (it_clone (ms_Iter thing_m) s)))
    (run_it (ms_Iter thing_m) [Front; Front] (map_iter thing_m things)) =
  Some ([Some (k_flag true, 3); Some (k_num (Some 7%Z), 1)],
        Some [(k_num (Some 9%Z), 5); (k_num None, 4); (k_sub south, 2)]).
Proof. split; [exact things_reachable|vm_compute; reflexivity]. Qed.
