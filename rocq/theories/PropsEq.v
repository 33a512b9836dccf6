(** Property theorems about the calls of [V::eq] made by comparing maps. *)
Require Import List Arith NArith ZArith Bool.
Import ListNotations.
From Verif Require Import Std Traits MapStorages SetStorages Key Api Spec Reach EqSpec EqProofs Samples.

(** * C58: equality and V::eq *)

Theorem C58_eq_calls : forall t ki V (S : Type) (f : eq_fn S V) (s : S)
    (a b : ms_St (ki_map ki V)) s' r,
  derive t = Some ki -> map_reachable (ki_map ki V) a -> map_reachable (ki_map ki V) b ->
  map_eq_with (ki_map ki V) f s a b = (s', r) ->
  compared f (map_get (ki_map ki V) a) (map_get (ki_map ki V) b) s s' r.
Proof. exact c58. Qed.
Print Assumptions C58_eq_calls.

Theorem C58_pure : forall t ki V (S : Type) (veq : V -> V -> bool) (s : S)
    (a b : ms_St (ki_map ki V)),
  derive t = Some ki -> map_reachable (ki_map ki V) a -> map_reachable (ki_map ki V) b ->
  map_eq_with (ki_map ki V) (fun s v w => (s, Some (veq v w))) s a b =
  (s, Some (map_eq (ki_map ki V) veq a b)).
Proof. exact c58_pure. Qed.
Print Assumptions C58_pure.

(** An equality writing a log, taking values modulo 10; comparing [n] unwinds. *)
Definition log_eq (n : nat) : eq_fn (list (nat * nat)) nat :=
  fun log v w => (log ++ [(v, w)],
    if Nat.eqb v n then None else Some (Nat.eqb (v mod 10) (w mod 10))).

(** [things] with other values, equal modulo 10 but for the last one. *)
Definition other_things : ms_St thing_m :=
  build thing_m [(k_num (Some 9%Z), 15); (k_sub south, 18); (k_flag true, 13); (k_num None, 14);
                 (k_num (Some 7%Z), 11)].

(** The same with an entry that [things] has not, and a value that differs. *)
Definition more_things : ms_St thing_m :=
  snd (map_insert thing_m (snd (map_insert thing_m other_things k_unit 1)) (k_flag true) 2).

Example C58_example :
  map_reachable thing_m things /\ map_reachable thing_m other_things /\
  map_reachable thing_m more_things /\
  (* [None] before [Some], then field by field, up to the first difference *)
  map_eq_with thing_m (log_eq 0) [] things other_things =
    ([(3, 13); (4, 14); (1, 11); (5, 15); (2, 18)], Some false) /\
  map_eq_with thing_m (log_eq 0) [] things
    (snd (map_insert thing_m other_things (k_sub south) 12)) =
    ([(3, 13); (4, 14); (1, 11); (5, 15); (2, 12)], Some true) /\
  map_eq_with thing_m (log_eq 1) [] things other_things = ([(3, 13); (4, 14); (1, 11)], None) /\
  map_eq_with thing_m (log_eq 0) [] things more_things = ([], Some false).
Proof.
  split; [exact things_reachable|]. split; [apply build_reachable|].
  split; [apply mr_insert, mr_insert, build_reachable|]. repeat split.
Qed.
