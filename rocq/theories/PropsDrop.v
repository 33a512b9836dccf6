(** Property theorems about dropping maps and owning iterators, and about clones that
    unwind. *)
Require Import List Arith Bool ZArith Permutation Sorted.
Import ListNotations.
From Verif Require Import Std Traits Key Spec KeyLaws Api Reach EffectSpec DropSpec Sources DropProofs DropMain Samples.

(** * C66: every value is dropped *)

(** Dropping a map, normally ([k = 1]) or while already unwinding ([k = 0]): the values
    are dropped in the order of iteration, each once, except those left out as
    [drops_some] says. *)
Theorem C66_map : forall t ki V S (dr : drop_fn S V) st s k s' n p,
  derive t = Some ki -> map_reachable (ki_map ki V) st ->
  map_drop (ki_map ki V) (counted dr) (s, Datatypes.S k) st = ((s', n), p) ->
  exists l lk, yields (ms_Iter (ki_map ki V)) (map_iter (ki_map ki V) st) l /\
    drops_some dr (key_before t) (Datatypes.S k) None s l s' n lk.
Proof. exact c66_map. Qed.
Print Assumptions C66_map.

(** The same for what is left in an [IntoIter] after it has been asked from either end. *)
Theorem C66_into_iter : forall t ki V S (dr : drop_fn S V) st ds o it s k s' n p,
  derive t = Some ki -> map_reachable (ki_map ki V) st ->
  run_it (ms_IntoIter (ki_map ki V)) ds (map_into_iter (ki_map ki V) st) = Some (o, it) ->
  it_drop (ms_IntoIter (ki_map ki V)) (counted (fun s e => dr s (snd e))) (s, Datatypes.S k) it = ((s', n), p) ->
  exists l lk, yields (ms_Iter (ki_map ki V)) (map_iter (ki_map ki V) st) l /\
    o = fst (deque ds l) /\
    drops_some dr (key_before t) (Datatypes.S k) None s (snd (deque ds l)) s' n lk.
Proof. exact c66_into_iter. Qed.
Print Assumptions C66_into_iter.

(** Nothing is left out if no destructor unwinds, or if no key is hashed. *)
Theorem C66_all_dropped : forall t ki V S (dr : drop_fn S V) st ds o it s k s' n p,
  derive t = Some ki -> map_reachable (ki_map ki V) st ->
  run_it (ms_IntoIter (ki_map ki V)) ds (map_into_iter (ki_map ki V) st) = Some (o, it) ->
  it_drop (ms_IntoIter (ki_map ki V)) (counted (fun s e => dr s (snd e))) (s, Datatypes.S k) it = ((s', n), p) ->
  n = Datatypes.S k \/ hash_free t = true ->
  exists l, yields (ms_Iter (ki_map ki V)) (map_iter (ki_map ki V) st) l /\
    drops_some dr (key_before t) (Datatypes.S k) None s (snd (deque ds l)) s' n [].
Proof. exact c66_all_dropped. Qed.
Print Assumptions C66_all_dropped.

(** [Map::clone]: either every value is cloned once, in order; or, if a clone unwinds, those
    made until then are dropped, each once, in some order, and another panic aborts. *)
Theorem C66_clone : forall t ki V S (f : clone_fn S V) (dr : drop_fn S V) st s s' n o,
  derive t = Some ki -> map_reachable (ki_map ki V) st ->
  map_clone_undo (ki_map ki V) (beside f) (counted dr) (s, 1) st = ((s', n), o) ->
  exists l, yields (ms_Iter (ki_map ki V)) (map_iter (ki_map ki V) st) l /\
  match o with
  | Some st' => n = 1 /\ exists l', clone_values f s l = (s', Some l') /\
      map_reachable (ki_map ki V) st' /\ yields (ms_Iter (ki_map ki V)) (map_iter (ki_map ki V) st') l'
  | None => exists s1 made order, clones_until f s l s1 made /\ Permutation order made /\
      drops_some dr (key_before t) 1 None s1 order s' n []
  end.
Proof. intros t ki V S f dr. exact (c66_clone t ki V S dr f). Qed.
Print Assumptions C66_clone.

(** A destructor that notes the value, and unwinds for 13. *)
Definition noting : drop_fn (list nat) nat := fun s v => (s ++ [v], Nat.eqb v 13).

(** The values behind the one that unwinds are dropped for an array; for a hash table
    they are not, but those of other variants are; a second panic aborts. *)
Example C66_example :
  map_drop (ki_map dir_ki nat) (counted noting) ([], 2)
    (build (ki_map dir_ki nat) [(north, 1); (south, 13); (west, 2)]) = (([1; 13; 2], 1), true) /\
  map_drop (ki_map u8_ki nat) (counted noting) ([], 2)
    (build (ki_map u8_ki nat) [(1%Z, 13); (2%Z, 10); (3%Z, 11)]) = (([11; 13], 1), true) /\
  map_drop thing_m (counted noting) ([], 2)
    (build thing_m [(k_flag true, 1); (k_num (Some 1%Z), 13); (k_num (Some 2%Z), 5); (k_num (Some 3%Z), 6);
                    (k_num None, 7); (k_sub north, 8)]) = (([1; 6; 13; 7; 8], 1), true) /\
  map_drop thing_m (counted noting) ([], 2)
    (build thing_m [(k_flag true, 13); (k_flag false, 2); (k_num None, 13); (k_sub north, 8)])
    = (([13; 2; 13], 0), true) /\
  map_drop thing_m (counted noting) ([], 1)
    (build thing_m [(k_flag true, 13); (k_flag false, 2)]) = (([13], 0), true).
Proof. repeat split. Qed.
Example C66_into_example : exists it,
  run_it (ms_IntoIter (ki_map dir_ki nat)) [Back; Front]
    (map_into_iter (ki_map dir_ki nat) (build (ki_map dir_ki nat) [(north, 1); (south, 13); (east, 3); (west, 2)]))
    = Some ([Some (west, 2); Some (north, 1)], it) /\
  it_drop (ms_IntoIter (ki_map dir_ki nat)) (counted (fun s e => noting s (snd e))) ([], 2) it
    = (([3; 13], 1), true).
Proof. eexists. split; reflexivity. Qed.
Example C66_clone_example :
  let f : clone_fn (list nat) nat := fun s v => (s ++ [100 + v], if Nat.eqb v 5 then None else Some (v + v)) in
  map_clone_undo thing_m (beside f) (counted noting) ([], 1)
    (build thing_m [(k_unit, 1); (k_flag true, 2); (k_num (Some 1%Z), 3); (k_sub north, 4); (k_sub west, 5)])
    = (([101; 102; 103; 104; 105; 8; 6; 4; 2], 1), None) /\
  exists x st', map_clone_undo thing_m (beside f) (counted noting) ([], 1)
    (build thing_m [(k_unit, 1); (k_flag true, 2)]) = (x, Some st') /\ map_get thing_m st' k_unit = Some 2.
Proof. split; [reflexivity|]. eexists _, _. split; reflexivity. Qed.

(** What is not allowed: to leave out a value behind the one that unwinds if it is of
    another variant; to drop a value twice. *)
Example C66_refuses :
  (forall n lk, ~ drops_some noting (key_before thing_t) 2 None [] [(k_flag true, 13); (k_sub north, 2)] [13] n lk) /\
  (forall n lk, ~ drops_some noting (key_before thing_t) 2 None [] [(k_unit, 1)] [1; 1] n lk).
Proof.
  split; intros n lk H.
  - inversion H as [|? ? ? ? ? ? ? ? ? ? Hw E H1|? ? ? ? ? ? ? ? ? ? Hw E H1| |]; subst; [discriminate E|].
    injection E as <-.
    inversion H1 as [|? ? ? ? ? ? ? ? ? ? Hw2 E2 H2|? ? ? ? ? ? ? ? ? ? Hw2 E2 H2|? ? ? ? ? ? Hw2 E2
                     |? ? ? ? ? ? ? ? ? Hl]; subst.
    + injection E2 as <-. inversion H2.
    + discriminate E2.
    + apply Hl. vm_compute. auto.
  - inversion H as [|? ? ? ? ? ? ? ? ? ? Hw E H1|? ? ? ? ? ? ? ? ? ? Hw E H1| |]; subst; [|discriminate E].
    injection E as <-. inversion H1.
Qed.
