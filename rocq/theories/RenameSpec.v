(** The same program over two key types with corresponding values. *)
Require Import List Arith Bool.
Import ListNotations.
From Verif Require Import Std Traits Spec History SetHistory StateSpec.

(** [j] and [i] translate between two key types, one to one. *)
Definition inverse {A B} (j : A -> B) (i : B -> A) : Prop :=
  (forall a, i (j a) = a) /\ (forall b, j (i b) = b).

Definition ren_entry {A B V} (j : A -> B) (e : A * V) : B * V := (j (fst e), snd e).

(** A call, with its keys translated; closures translate back the keys they get. *)
Definition ren_op {A B V} (j : A -> B) (i : B -> A) (o : mop A V) : mop B V :=
  match o with
  | MGet k => MGet (j k)
  | MContains k => MContains (j k)
  | MGetMut k w => MGetMut (j k) w
  | MInsert k v => MInsert (j k) v
  | MRemove k => MRemove (j k)
  | MLen => MLen
  | MIsEmpty => MIsEmpty
  | MClear => MClear
  | MRetain f => MRetain (fun log k v => f (map (ren_entry i) log) (i k) v)
  | MIter => MIter
  | MIterMut g => MIterMut (fun k v => g (i k) v)
  | MEntryKey k => MEntryKey (j k)
  | MOrInsert k d => MOrInsert (j k) d
  | MOrInsertWith k f => MOrInsertWith (j k) (fun k => f (i k))
  | MModify k g d => MModify (j k) g d
  | MEntryInsert k v => MEntryInsert (j k) v
  | MEntryRemove k => MEntryRemove (j k)
  end.

(** A result, with its keys translated. *)
Definition ren_obs {A B V} (j : A -> B) (x : mobs A V) : mobs B V :=
  match x with
  | RUnit => RUnit
  | RBool b => RBool b
  | RNat n => RNat n
  | ROption o => ROption o
  | RValue v => RValue v
  | RKey k => RKey (j k)
  | RList l => RList (map (ren_entry j) l)
  | RUnwound => RUnwound
  | RRetain log o => RRetain (map (ren_entry j) log) o
  | ROutOfFuel => ROutOfFuel
  end.

Definition ren_sop {A B} (j : A -> B) (i : B -> A) (o : sop A) : sop B :=
  match o with
  | SInsert k => SInsert (j k)
  | SRemove k => SRemove (j k)
  | SContains k => SContains (j k)
  | SLen => SLen
  | SIsEmpty => SIsEmpty
  | SClear => SClear
  | SRetain f => SRetain (fun log k => f (map i log) (i k))
  | SIter => SIter
  end.

Definition ren_sobs {A B} (j : A -> B) (x : sobs A) : sobs B :=
  match x with
  | QUnit => QUnit
  | QBool b => QBool b
  | QNat n => QNat n
  | QList l => QList (map j l)
  | QRetain log o => QRetain (map j log) o
  | QOutOfFuel => QOutOfFuel
  end.

(** [xs] and [ys] answer the calls [ops] alike.  Unless [full], the results of
    [insert], [remove] and [is_empty] are not compared. *)
Definition open_result {T} (o : sop T) : Prop :=
  match o with SInsert _ | SRemove _ | SIsEmpty => True | _ => False end.

Fixpoint answer_alike {T} (full : bool) (ops : list (sop T)) (xs ys : list (sobs T)) : Prop :=
  match ops, xs, ys with
  | [], [], [] => True
  | o :: ops, x :: xs, y :: ys =>
      (same_result_set x y \/ full = false /\ open_result o) /\ answer_alike full ops xs ys
  | _, _, _ => False
  end.
