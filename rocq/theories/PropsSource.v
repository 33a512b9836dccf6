(** Property theorems about building maps and sets from sources with effects. *)
Require Import List Arith ZArith String.
Import ListNotations.
From Verif Require Import Std Traits Key Spec KeyLaws Api Reach Sources SourceSpec SourceProofs Samples.
Open Scope list_scope.

(** * C63: collecting and deserializing *)

(** What [from_iter] returns, and what has happened by then, whatever the source and
    the destructor do. *)
Theorem C63_map : forall t ki V S E (src : source S (key t * V) E) (dr : drop_fn S V) w n s s' r,
  derive t = Some ki -> map_gather (ki_map ki V) src dr w n s = Some (s', r) ->
  makes src dr (key_before t) s s' (seen (map_get (ki_map ki V)) r) /\
  (forall st, r = Built st -> map_reachable (ki_map ki V) st).
Proof.
  intros t ki V S E src dr w n s s' r D.
  exact (map_makes (derive_map_laws t ki V D) src dr (key_before t) n w s s' r (proj1 spec_before t)).
Qed.
Print Assumptions C63_map.

(** It returns if the source comes to an end. *)
Theorem C63_map_returns : forall t ki V S E (src : source S (key t * V) E) (dr : drop_fn S V) w s s1 how f,
  derive t = Some ki -> gathers src dr s (fun _ => None) s1 how f ->
  exists s' r, returns (fun n => map_gather (ki_map ki V) src dr w n s) (s', r).
Proof.
  intros t ki V S E src dr w s s1 how f D.
  exact (map_returns (derive_map_laws t ki V D) src dr w s s1 how f).
Qed.
Print Assumptions C63_map_returns.

(** Sets. *)
Theorem C63_set : forall t ki S E (src : source S (key t) E) w n s s' r,
  derive t = Some ki -> set_gather (ki_set ki) src w n s = Some (s', r) ->
  set_makes src s s' (seen (fun st k => set_contains (ki_set ki) st k = true) r) /\
  (forall st, r = Built st -> set_reachable (ki_set ki) st).
Proof.
  intros t ki S E src w n s s' r D. exact (set_makes_ok (derive_set_laws t ki D) src n w s s' r).
Qed.
Print Assumptions C63_set.

Theorem C63_set_returns : forall t ki S E (src : source S (key t) E) w s s1 how p,
  derive t = Some ki -> set_gathers src s (fun _ => False) s1 how p ->
  exists r, returns (fun n => set_gather (ki_set ki) src w n s) (s1, r).
Proof. intros t ki S E src w s s1 how p D. apply set_returns. Qed.
Print Assumptions C63_set_returns.

(** Without effects this is [from_iter] on a list, as in C23. *)
Theorem C63_pure : forall t ki V E w l l', derive t = Some ki ->
  returns (fun n => map_gather (E := E) (ki_map ki V) pop (fun s _ => (s, false)) w n l)
    ([], Built (map_from_iter (ki_map ki V) w l)) /\
  returns (fun n => set_gather (E := E) (ki_set ki) pop w n l')
    ([], Built (set_from_iter (ki_set ki) w l')).
Proof. intros. split; [apply map_gather_pure|apply set_gather_pure]. Qed.
Print Assumptions C63_pure.

(** Deserializers. *)
Theorem C63_map_deserialize : forall t ki V B S E (de : deserializer S (key t * V) B E)
    (dr : drop_fn S V) w n s s' r,
  derive t = Some ki -> map_deserialize (ki_map ki V) de dr w n s = Some (s', r) ->
  reads_map de dr (key_before t) s s' (seen (map_get (ki_map ki V)) r) /\
  (forall st, r = Built st -> map_reachable (ki_map ki V) st).
Proof.
  intros t ki V B S E de dr w n s s' r D.
  exact (map_reads (derive_map_laws t ki V D) de dr (key_before t) n w s s' r (proj1 spec_before t)).
Qed.
Print Assumptions C63_map_deserialize.

Theorem C63_set_deserialize : forall t ki A S E (de : deserializer S A (key t) E) w n s s' r,
  derive t = Some ki -> set_deserialize (ki_set ki) de w n s = Some (s', r) ->
  reads_set de s s' (seen (fun st k => set_contains (ki_set ki) st k = true) r) /\
  (forall st, r = Built st -> set_reachable (ki_set ki) st).
Proof.
  intros t ki A S E de w n s s' r D. exact (set_reads (derive_set_laws t ki D) de n w s s' r).
Qed.
Print Assumptions C63_set_deserialize.

(** * Examples *)

(** A source that reads from a list, and a log of the values that were dropped: the
    value 0 stands for an error, and 9 unwinds when it is dropped. *)
Definition state : Type := (list (bool * nat) * list nat)%type.
Definition reader : source state (bool * nat) string := fun '(l, log) =>
  match l with
  | [] => ([], log, Ends)
  | (_, 0) :: r => (r, log, Fails "bad"%string)
  | x :: r => (r, log, Gives x)
  end.
Definition dropper : drop_fn state nat := fun '(l, log) v => (l, log ++ [v], Nat.eqb v 9).
Notation bool_m := (ki_map bool_ki nat).

Example C63_map_example :
  derive KBool = Some bool_ki /\
  (exists st, map_gather bool_m reader dropper w0 9
     ([(false, 1); (true, 2); (false, 3); (false, 4)], []) = Some ([], [1; 3], Built st) /\
     map_get bool_m st true = Some 2 /\ map_get bool_m st false = Some 4) /\
  map_gather bool_m reader dropper w0 9 ([(false, 1); (true, 2); (false, 3); (true, 0); (true, 7)], []) =
    Some ([(true, 7)], [1; 2; 3], Refused "bad"%string) /\
  map_gather bool_m reader dropper w0 9 ([(false, 9); (true, 2); (false, 3); (true, 7)], []) =
    Some ([(true, 7)], [9; 2; 3], Unwinds) /\
  map_gather bool_m reader dropper w0 9 ([(false, 9); (true, 9); (false, 3); (true, 7)], []) =
    Some ([(true, 7)], [9; 9], Aborts).
Proof. split; [reflexivity|]. split; [eexists; repeat split|]. repeat split. Qed.

(** A destructor that unwinds does not keep the others from running, except those of
    the following entries of the same hash table. *)
Example C63_leak_example :
  let read : source (list (key thing_t * nat) * list nat) (key thing_t * nat) string := fun '(l, log) =>
    match l with
    | [] => ([], log, Fails "bad"%string)
    | x :: r => (r, log, Gives x)
    end in
  let dr : drop_fn (list (key thing_t * nat) * list nat) nat := fun '(l, log) v => (l, log ++ [v], Nat.eqb v 9) in
  map_gather thing_m read dr w0 9
    ([(k_unit, 1); (k_flag true, 9); (k_flag false, 2); (k_num (Some 7%Z), 3); (k_num (Some 8%Z), 4);
      (k_num None, 5)], []) = Some ([], [1; 9; 2; 3; 4; 5], Unwinds) /\
  map_gather thing_m read dr w0 9
    ([(k_unit, 1); (k_flag true, 6); (k_flag false, 2); (k_num (Some 7%Z), 9); (k_num (Some 8%Z), 3);
      (k_num None, 5)], []) = Some ([], [1; 6; 2; 9; 5], Unwinds).
Proof. split; reflexivity. Qed.

Example C63_map_returns_example :
  exists f, gathers reader dropper ([(false, 1); (false, 3)], []) (fun _ => None) ([], [1]) ByEnd f.
Proof.
  exists (fun k : bool => if k then None else Some 3).
  eapply GaNew with (f1 := fun k : bool => if k then None else Some 1); [reflexivity|reflexivity| |].
  - split; [reflexivity|]. now intros [] H.
  - eapply GaOld with (f1 := fun k : bool => if k then None else Some 3); [reflexivity..| |].
    + split; [reflexivity|]. now intros [] H.
    + now constructor.
Qed.

(** Nothing else may be dropped. *)
Example C63_map_refuses : forall g,
  ~ gathers reader dropper ([(false, 1)], []) (fun _ => None) ([], [1]) ByEnd g.
Proof.
  intros g H. inversion H as [? ? ? ? Hs| | |? ? k v ? ? ? ? ? Hs _ _ G|? ? ? ? ? ? ? ? ? ? ? Hs Ho| ]; subst;
    [discriminate Hs| |discriminate Ho].
  injection Hs as <- <- <-. inversion G as [? ? ? ? Hs| | |? ? ? ? ? ? ? ? ? Hs|? ? ? ? ? ? ? ? ? ? ? Hs|];
    subst; discriminate Hs.
Qed.

(** A source that panics. *)
Example C63_set_example :
  derive KBool = Some bool_ki /\
  (exists st, set_gather (E := string) (ki_set bool_ki) pop w0 9 [true; true] = Some ([], Built st) /\
     set_contains (ki_set bool_ki) st true = true /\ set_contains (ki_set bool_ki) st false = false) /\
  set_gather (E := string) (ki_set bool_ki)
    (fun n => if Nat.eqb n 2 then (n, Panics) else (n + 1, Gives true)) w0 9 0 = Some (2, Unwinds).
Proof. split; [reflexivity|]. split; [eexists; repeat split|]. reflexivity. Qed.

Example C63_set_returns_example :
  exists p, set_gathers (E := string) pop [true] (fun _ => False) [] ByEnd p /\ p true /\ ~ p false.
Proof.
  exists (fun j => j = true \/ False).
  split; [eapply SgItem; [reflexivity|]; now constructor|]. intuition discriminate.
Qed.

(** A document is a list of entries or something else. *)
Definition documents (is_map : bool) : deserializer state (bool * nat) bool string :=
  MkDe (fun q s => (s, match q with
                       | AskMap => if is_map then VisitMap else VisitOther "integer"%string
                       | AskSeq => if is_map then VisitMap else VisitSeq
                       end))
       reader (fun s => (s, Ends)) (fun found wanted => (found ++ ", expected " ++ wanted)%string).

Example C63_deserialize_example :
  (exists st, map_deserialize bool_m (documents true) dropper w0 9 ([(true, 5)], []) =
     Some ([], [], Built st) /\ map_get bool_m st true = Some 5) /\
  map_deserialize bool_m (documents false) dropper w0 9 ([(true, 5)], []) =
    Some ([(true, 5)], [], Refused "integer, expected a map"%string) /\
  set_deserialize (ki_set bool_ki) (documents true) w0 9 ([], []) =
    Some ([], [], Refused "map, expected a sequence"%string).
Proof. split; [eexists; repeat split|]. split; reflexivity. Qed.
