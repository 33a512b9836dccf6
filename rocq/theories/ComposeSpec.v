(** What a storage written by hand must do to count as a map: the contract used
    for key types that are not among those of Key.v. *)
Require Import List Arith NArith ZArith Bool.
Import ListNotations.
From Verif Require Import Std Traits DeriveAny Key Api Spec Reach History SetHistory.

(** [m] acts as a finite map: some set [I] of states contains every new map, and
    every call made in a state of [I] terminates without panic or undefined
    behaviour, answers as the finite map [map_get m st] does, and leads to a
    state of [I].  [retain] is said separately once more, for predicates with an
    arbitrary state, not only a log. *)
Definition acts_as_map {K V} (m : MapStorage K V) : Prop :=
  exists I : ms_St m -> Prop,
    (forall w, I (map_new m w) /\ forall k, map_get m (map_new m w) k = None) /\
    (forall st o, I st ->
       exists x st' n0, (forall n, n0 <= n -> run_op m n st o = Ok (x, st')) /\ I st' /\
                        spec_op (map_get m st) o x (map_get m st')) /\
    (forall st (X : Type) (f : retain_fn X K V) (x : X), I st ->
       exists l x' st' l' oc, map_retain m f x st = (x', st', oc) /\ I st' /\
         lists (map_get m st) l /\ retain_list f x l = (x', l', oc) /\
         lists (map_get m st') l').

(** The keys held by the tuple variants of an enum act as keys of maps of [V]. *)
Fixpoint payloads_act {R} (V : Type) (fs : fields R) : Prop :=
  match fs with
  | FNil => True
  | FUnit fs' => payloads_act V fs'
  | FTuple ki fs' => acts_as_map (ki_map ki V) /\ payloads_act V fs'
  end.

(** * Sets *)

(** What one call does to a mathematical set and returns: the documented
    behaviour [spec_sop], except that the results of [insert], [remove] and
    [is_empty] are left open unless [full]. *)
Definition spec_results {T} (full : bool) (p : T -> bool) (o : sop T) (x : sobs T)
  (q : T -> bool) : Prop :=
  if full then spec_sop p o x q
  else
    match o with
    | SInsert k => adds p k q
    | SRemove k => drops p k q
    | SIsEmpty => same_set p q
    | _ => spec_sop p o x q
    end.

(** [m] acts as a set: as [acts_as_map].  [full] says whether the results of
    [insert], [remove] and [is_empty] count.  [into_iter], which is not a [sop],
    is said separately. *)
Definition acts_as_set {T} (full : bool) (m : SetStorage T) : Prop :=
  exists I : ss_St m -> Prop,
    (forall w, I (set_new m w) /\ forall k, set_contains m (set_new m w) k = false) /\
    (forall st o, I st ->
       exists x st' n0, (forall n, n0 <= n -> run_sop m n st o = (x, st')) /\ I st' /\
                        spec_results full (set_contains m st) o x (set_contains m st')) /\
    (forall st (X : Type) (f : set_retain_fn X T) (x : X), I st ->
       exists l x' st' l' oc, set_retain m f x st = (x', st', oc) /\ I st' /\
         elements (set_contains m st) l /\ retain_elems f x l = (x', l', oc) /\
         match oc with
         | Done => elements (set_contains m st') l'
         | Unwound =>
             (forall k, set_contains m st' k = true -> set_contains m st k = true) /\
             (forall k, In k l' -> set_contains m st' k = true)
         end) /\
    (forall st, I st ->
       exists l, elements (set_contains m st) l /\
                 yields (ss_IntoIter m) (set_into_iter m st) l).

(** The elements held by the tuple variants of an enum act as elements of sets. *)
Fixpoint payload_sets_act {R} (full : bool) (fs : fields R) : Prop :=
  match fs with
  | FNil => True
  | FUnit fs' => payload_sets_act full fs'
  | FTuple ki fs' => acts_as_set full (ki_set ki) /\ payload_sets_act full fs'
  end.
