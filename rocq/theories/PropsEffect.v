(** Property theorems about destructors and calls of [V::clone]. *)
Require Import List Arith NArith ZArith Bool.
Import ListNotations.
From Verif Require Import Std Traits MapStorages SetStorages Key Api Spec Reach EffectSpec ClearSpec KeyLaws EffectProofs ClearProofs Samples.

(** * C51: clear and destructors *)

Theorem C51_clear_drops : forall t ki V (D : Type) (dr : drop_fn D V) (d : D)
    (st : ms_St (ki_map ki V)) d' st' oc,
  derive t = Some ki -> map_reachable (ki_map ki V) st ->
  map_clear_drop (ki_map ki V) dr d st = (d', st', oc) ->
  exists dropped leaked kept,
    yields (ms_Iter (ki_map ki V)) (map_iter (ki_map ki V) st) (dropped ++ leaked ++ kept) /\
    drop_values dr d (map snd dropped) = (d', oc) /\
    yields (ms_Iter (ki_map ki V)) (map_iter (ki_map ki V) st') kept /\
    lists (map_get (ki_map ki V) st') kept /\
    (oc = Done -> leaked = [] /\ kept = [] /\ st' = map_clear (ki_map ki V) st) /\
    (hash_free t = true -> leaked = []) /\
    map_reachable (ki_map ki V) st'.
Proof.
  intros t ki V D dr d st d' st' oc E R H.
  exact (c51 (derive_map_laws t ki V E) (hash_free t) D dr d st d' st' oc
           (proj1 (derive_clears (hash_free t)) t ki E (fun e => e) V D dr) R H).
Qed.
Print Assumptions C51_clear_drops.

(** A destructor writing a log; that of the value [n] unwinds. *)
Definition log_drop (n : nat) : drop_fn (list nat) nat := fun log v => (log ++ [v], Nat.eqb v n).

(** The second value of the hash table inside is leaked when the destructor of the
    first one unwinds; the later entries stay. *)
Example C51_example : map_reachable thing_m things /\
  drain (ms_Values thing_m) 9 (map_values thing_m things) = Some [3; 1; 5; 4; 2] /\
  (exists st', map_clear_drop thing_m (log_drop 0) [] things = ([3; 1; 5; 4; 2], st', Done) /\
     map_len thing_m st' = 0) /\
  (exists st', map_clear_drop thing_m (log_drop 1) [] things = ([3; 1], st', Unwound) /\
     drain (ms_Iter thing_m) 9 (map_iter thing_m st') = Some [(k_num None, 4); (k_sub south, 2)]).
Proof.
  split; [exact things_reachable|]. split; [reflexivity|].
  split; eexists; (split; [reflexivity|]); reflexivity.
Qed.

(** Without hash tables nothing is leaked. *)
Example C51_free_example : hash_free (KOption KBool) = true /\
  exists ki st st', derive (KOption KBool) = Some ki /\ map_reachable (ki_map ki nat) st /\
    map_len (ki_map ki nat) st = 3 /\
    map_clear_drop (ki_map ki nat) (log_drop 1) [] st = ([1], st', Unwound) /\
    map_len (ki_map ki nat) st' = 2.
Proof.
  split; [reflexivity|].
  exists (MkKeyImpl (fun V => opt_map_storage (ki_map bool_ki V)) (opt_set_storage (ki_set bool_ki))).
  exists (build (opt_map_storage (ki_map bool_ki nat)) [(None, 3); (Some true, 1); (Some false, 2)]).
  eexists. split; [reflexivity|]. split; [apply build_reachable|]. repeat split.
Qed.

(** Which values are dropped, leaked and kept. *)
Theorem C51_clear_exact : forall t ki V (D : Type) (dr : drop_fn D V) (d : D)
    (st : ms_St (ki_map ki V)) d' st' oc,
  derive t = Some ki -> map_reachable (ki_map ki V) st ->
  map_clear_drop (ki_map ki V) dr d st = (d', st', oc) ->
  exists l kept leaked,
    yields (ms_Iter (ki_map ki V)) (map_iter (ki_map ki V) st) l /\
    clears_to dr (placed t) d l d' kept leaked oc /\
    yields (ms_Iter (ki_map ki V)) (map_iter (ki_map ki V) st') kept /\
    lists (map_get (ki_map ki V) st') kept /\ map_reachable (ki_map ki V) st'.
Proof.
  intros t ki V D dr d st d' st' oc E R H.
  exact (c51_exact (derive_map_laws t ki V E) (placed t) D dr d st d' st' oc
           (proj1 derive_at t ki E V D dr _ (placed t) (fun k => k) (fun a b => eq_refl)) R H).
Qed.
Print Assumptions C51_clear_exact.

(** A map with four values in an array: when the destructor of the second unwinds, the
    later ones are dropped too.  Of [things], one value is in a table with the one whose
    destructor unwinds; it is leaked, and two are kept. *)
Example C51_exact_example :
  let dirs := build (ki_map dir_ki nat) [(north, 1); (east, 2); (south, 3); (west, 4)] in
  map_reachable (ki_map dir_ki nat) dirs /\
  (exists st', map_clear_drop (ki_map dir_ki nat) (log_drop 2) [] dirs = ([1; 2; 3; 4], st', Unwound) /\
     map_len (ki_map dir_ki nat) st' = 0) /\
  clears_to (log_drop 2) (placed dir_t) [] [(north, 1); (east, 2); (south, 3); (west, 4)] [1; 2; 3; 4] [] [] Unwound /\
  (forall d' kept leaked oc,
     clears_to (log_drop 1) (placed thing_t) []
       [(k_flag true, 3); (k_num (Some 7%Z), 1); (k_num (Some 9%Z), 5); (k_num None, 4); (k_sub south, 2)] d' kept leaked oc ->
     d' = [3; 1] /\ kept = [(k_num None, 4); (k_sub south, 2)] /\ leaked = [(k_num (Some 9%Z), 5)] /\ oc = Unwound).
Proof.
  split; [apply build_reachable|]. split; [eexists; split; reflexivity|]. split.
  - eapply ClOk; [reflexivity|]. exact (ClPanic (log_drop 2) (placed dir_t) [1] east 2 [1; 2] [(south, 3); (west, 4)] [1; 2; 3; 4] Done eq_refl eq_refl).
  - intros d' kept leaked oc H. inversion H as [|? ? ? ? ? ? ? ? ? D H1|? ? ? ? ? ? ? D]; subst; [|discriminate].
    cbn in D. injection D as <-.
    inversion H1 as [|? ? ? ? ? ? ? ? ? D H2|? ? ? ? ? ? ? D Hd]; subst; [discriminate|].
    cbn in D. injection D as <-. vm_compute in Hd. injection Hd as <- <-. repeat split.
Qed.

(** * C52: clone and V::clone *)

Theorem C52_clone_calls : forall t ki V (S : Type) (f : clone_fn S V) (s : S)
    (st : ms_St (ki_map ki V)) s' r,
  derive t = Some ki -> map_reachable (ki_map ki V) st ->
  map_clone_with (ki_map ki V) f s st = (s', r) ->
  exists l, yields (ms_Iter (ki_map ki V)) (map_iter (ki_map ki V) st) l /\
    match r with
    | Some st' => exists l', clone_values f s l = (s', Some l') /\
        yields (ms_Iter (ki_map ki V)) (map_iter (ki_map ki V) st') l' /\
        lists (map_get (ki_map ki V) st') l' /\ map_reachable (ki_map ki V) st'
    | None => clone_values f s l = (s', None)
    end.
Proof.
  intros t ki V S f s st s' r E R H.
  exact (c52 (derive_map_laws t ki V E) S f s st s' r (proj1 derive_clones t ki E V S f) R H).
Qed.
Print Assumptions C52_clone_calls.

Theorem C52_pure : forall t ki V (S : Type) (cl : V -> V) (s : S) (st : ms_St (ki_map ki V)),
  derive t = Some ki ->
  map_clone_with (ki_map ki V) (fun s v => (s, Some (cl v))) s st =
  (s, Some (map_clone (ki_map ki V) cl st)).
Proof.
  intros t ki V S cl s st E.
  exact (proj2 (proj1 derive_clones t ki E V S (fun s v => (s, Some (cl v)))) cl
           (fun x v => eq_refl) s st).
Qed.
Print Assumptions C52_pure.

(** A clone function writing a log; the clone of [n] unwinds. *)
Definition log_clone (n : nat) : clone_fn (list nat) nat :=
  fun log v => (log ++ [v], if Nat.eqb v n then None else Some (v + 10)).

Example C52_example : map_reachable thing_m things /\
  (exists st', map_clone_with thing_m (log_clone 0) [] things = ([3; 1; 5; 4; 2], Some st') /\
     drain (ms_Values thing_m) 9 (map_values thing_m st') = Some [13; 11; 15; 14; 12]) /\
  map_clone_with thing_m (log_clone 5) [] things = ([3; 1; 5], None).
Proof.
  split; [exact things_reachable|]. split; [|reflexivity]. eexists. split; reflexivity.
Qed.
