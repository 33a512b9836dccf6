(** Vocabulary for comparing two histories up to the order in which entries are
    listed. *)
Require Import List Bool Permutation.
Import ListNotations.
From Verif Require Import Std Traits History SetHistory.

(** A call whose effect cannot depend on the order of visits: the predicate of
    [retain] looks only at the entry and returns. *)
Definition order_blind {K V} (o : mop K V) : Prop :=
  match o with
  | MRetain f => exists g : K -> V -> V * bool, forall log k v,
      f log k v = (fst (g k v), if snd (g k v) then Keep else Discard)
  | _ => True
  end.

Definition order_blind_set {T} (o : sop T) : Prop :=
  match o with
  | SRetain f => exists g : T -> bool, forall log k, f log k = if g k then Keep else Discard
  | _ => True
  end.

(** Equal results, except for the order of listed entries and of the calls of
    the predicate. *)
Definition same_result {K V} (x y : mobs K V) : Prop :=
  match x, y with
  | RList a, RList b => Permutation a b
  | RRetain a o, RRetain b o' => Permutation a b /\ o = o'
  | _, _ => x = y
  end.

Definition same_result_set {T} (x y : sobs T) : Prop :=
  match x, y with
  | QList a, QList b => Permutation a b
  | QRetain a o, QRetain b o' => Permutation a b /\ o = o'
  | _, _ => x = y
  end.
