(** Property theorems about the calls of [V::partial_cmp], [V::cmp] and [V::hash]. *)
Require Import List Arith NArith ZArith Bool.
Import ListNotations.
From Verif Require Import Std Traits MapStorages SetStorages Key Api Spec Reach FullSpec OrdCallSpec OrdCallProofs
  Samples.

(** * C59: ordering and hashing, and the functions of V they call *)

Theorem C59_partial_cmp_calls : forall bitset vs ki V,
  derive (KEnum bitset vs) = Some ki -> all_units vs = true ->
  exists g, forall (S : Type) (f : pcmp_fn S V),
    map_partial_cmp_with (ki_map ki V) f = Some (g S f) /\
    forall s a b, map_reachable (ki_map ki V) a -> map_reachable (ki_map ki V) b ->
    exists la lb, yields (ms_Iter (ki_map ki V)) (map_iter (ki_map ki V) a) la /\
      yields (ms_Iter (ki_map ki V)) (map_iter (ki_map ki V) b) lb /\
      g S f s a b = compare_entries vs f s la lb.
Proof. intros bitset vs ki V E H. exact (c59a bitset vs ki V H E). Qed.
Print Assumptions C59_partial_cmp_calls.

Theorem C59_cmp_calls : forall bitset vs ki V,
  derive (KEnum bitset vs) = Some ki -> all_units vs = true ->
  exists g, forall (S : Type) (f : cmp_fn S V),
    map_cmp_with (ki_map ki V) f = Some (g S f) /\
    forall s a b s' r, map_reachable (ki_map ki V) a -> map_reachable (ki_map ki V) b ->
    g S f s a b = (s', r) ->
    exists la lb, yields (ms_Iter (ki_map ki V)) (map_iter (ki_map ki V) a) la /\
      yields (ms_Iter (ki_map ki V)) (map_iter (ki_map ki V) b) lb /\
      compare_entries vs (fun s v w => let '(s', r) := f s v w in (s', option_map Some r)) s la lb =
      (s', option_map Some r).
Proof. intros bitset vs ki V E H. exact (c59b bitset vs ki V H E). Qed.
Print Assumptions C59_cmp_calls.

Theorem C59_hash_calls : forall bitset vs ki V,
  derive (KEnum bitset vs) = Some ki -> all_units vs = true ->
  exists g, forall (S : Type) (word : hash_fn S Z) (h : hash_fn S V),
    map_hash_with (ki_map ki V) word h = Some (g S word h) /\
    forall s st, g S word h s st =
      feed word h s (to_feed (all_keys (KEnum bitset vs)) (map_get (ki_map ki V) st)).
Proof. intros bitset vs ki V E H. exact (c59_hash bitset vs ki V H E). Qed.
Print Assumptions C59_hash_calls.

(** Without effects: the functions of C21 and C22. *)
Theorem C59_pure : forall bitset vs ki V (S : Type),
  derive (KEnum bitset vs) = Some ki -> all_units vs = true ->
  exists f g h p c w,
    (forall pc, map_partial_cmp (ki_map ki V) pc = Some (f pc)) /\
    (forall cmp, map_cmp (ki_map ki V) cmp = Some (g cmp)) /\
    (forall hv, map_hash (ki_map ki V) hv = Some (h hv)) /\
    (forall F, map_partial_cmp_with (ki_map ki V) F = Some (p F)) /\
    (forall F, map_cmp_with (ki_map ki V) F = Some (c F)) /\
    (forall W H, map_hash_with (ki_map ki V) W H = Some (w W H)) /\
    (forall pc (s : S) a b, map_reachable (ki_map ki V) a -> map_reachable (ki_map ki V) b ->
       p (fun s v w => (s, Some (pc v w))) s a b = (s, Some (f pc a b))) /\
    (forall cmp (s : S) a b, map_reachable (ki_map ki V) a -> map_reachable (ki_map ki V) b ->
       c (fun s v w => (s, Some (cmp v w))) s a b = (s, Some (g cmp a b))) /\
    (forall hv l st, w (fun l z => (l ++ [z], false)) (fun l v => (l ++ hv v, false)) l st =
       (l ++ h hv st, false)).
Proof. intros bitset vs ki V S E H. exact (c59_pure bitset vs ki V H E S). Qed.
Print Assumptions C59_pure.

Notation dir_m := (ki_map dir_ki nat).
Definition dirs : ms_St dir_m := build dir_m [(west, 7); (east, 3); (south, 5)].
Definition dirs2 : ms_St dir_m := build dir_m [(south, 4); (east, 13); (west, 9)].
(** [dirs] without South. *)
Definition dirs3 : ms_St dir_m := build dir_m [(west, 7); (east, 3)].

(** An ordering modulo 10 writing a log; 0 is not comparable, 5 unwinds when the
    flag is set. *)
Definition log_pcmp (p : bool) : pcmp_fn (list (nat * nat)) nat := fun log v w =>
  (log ++ [(v, w)], if p && Nat.eqb v 5 then None else
     if Nat.eqb v 0 || Nat.eqb w 0 then Some None else Some (Some (Nat.compare (v mod 10) (w mod 10)))).
Definition log_cmp : cmp_fn (list (nat * nat)) nat := fun log v w =>
  (log ++ [(v, w)], Some (Nat.compare (v mod 10) (w mod 10))).
(** A hasher writing down what it gets; the hash of 7 unwinds. *)
Definition log_word : hash_fn (list Z) Z := fun log z => (log ++ [z], false).
Definition log_hash : hash_fn (list Z) nat := fun log v => (log ++ [Z.of_nat v], Nat.eqb v 7).

Example C59_example :
  derive dir_t = Some dir_ki /\ all_units dir_vs = true /\
  map_reachable dir_m dirs /\ map_reachable dir_m dirs2 /\ map_reachable dir_m dirs3 /\
  (exists p c w, (forall f, map_partial_cmp_with dir_m f = Some (p f)) /\
     (forall f, map_cmp_with dir_m f = Some (c f)) /\
     (forall a b, map_hash_with dir_m a b = Some (w a b)) /\
     p (log_pcmp false) [] dirs dirs2 = ([(3, 13); (5, 4)], Some (Some Gt)) /\
     p (log_pcmp true) [] dirs dirs2 = ([(3, 13); (5, 4)], None) /\
     p (log_pcmp false) [] dirs dirs3 = ([(3, 3)], Some (Some Lt)) /\
     p (log_pcmp false) [] (build dir_m [(east, 0)]) dirs = ([(0, 3)], Some None) /\
     c log_cmp [] dirs dirs = ([(3, 3); (5, 5); (7, 7)], Some Eq) /\
     w log_word log_hash [] dirs = ([4; 0; 1; 3; 1; 5; 1; 7]%Z, true) /\
     w log_word log_hash [] dirs2 = ([4; 0; 1; 13; 1; 4; 1; 9]%Z, false)).
Proof.
  split; [reflexivity|]. split; [reflexivity|].
  split; [apply build_reachable|]. split; [apply build_reachable|]. split; [apply build_reachable|].
  do 3 eexists. split; [intros f; reflexivity|]. split; [intros f; reflexivity|].
  split; [intros a b; reflexivity|]. repeat split.
Qed.
