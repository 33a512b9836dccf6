(** The values of a key type without hash tables, one after the other. *)
Require Import List Arith Bool.
Import ListNotations.
From Verif Require Import Std Traits Key Spec History SetHistory.

(** All values, in declaration order: [true] before [false], every [Some] before
    [None], variants as they are declared.  (For types stored in hash tables the
    list is of no use.) *)
Fixpoint all_keys (t : kty) : list (key t) :=
  match t return list (key t) with
  | KBool => [true; false]
  | KUnit => [tt]
  | KPrim _ => []
  | KOption t => map Some (all_keys t) ++ [None]
  | KEnum _ vs => all_variants vs
  end
with all_variants (vs : variants) : list (keys vs) :=
  match vs return list (keys vs) with
  | VNil => []
  | VUnit r => inl tt :: map inr (all_variants r)
  | VTuple t r => map inl (all_keys t) ++ map inr (all_variants r)
  end.

(** How many there are. *)
Fixpoint card (t : kty) : nat :=
  match t with
  | KBool => 2
  | KUnit => 1
  | KPrim _ => 0
  | KOption t => S (card t)
  | KEnum _ vs => card_variants vs
  end
with card_variants (vs : variants) : nat :=
  match vs with
  | VNil => 0
  | VUnit r => S (card_variants r)
  | VTuple t r => card t + card_variants r
  end.

(** The entries of a finite map whose keys are in [ks], in the order of [ks]. *)
Definition entries_of {K V} (f : fmap K V) (ks : list K) : list (K * V) :=
  flat_map (fun k => match f k with Some v => [(k, v)] | None => [] end) ks.

(** * Programs *)

(** As [spec_op], but entries are listed and visited in the order of [ks]: the
    result of a call is determined. *)
Definition spec_listed {K V} (ks : list K) (f : fmap K V) (o : mop K V) (x : mobs K V)
  (f' : fmap K V) : Prop :=
  match o with
  | MIter => x = RList (entries_of f ks) /\ keeps f f'
  | MRetain g =>
      exists log l' oc, retain_list (logged g) [] (entries_of f ks) = (log, l', oc) /\
                        x = RRetain log oc /\ lists f' l'
  | _ => spec_op f o x f'
  end.

Fixpoint spec_all_listed {K V} (ks : list K) (f : fmap K V) (ops : list (mop K V))
  (xs : list (mobs K V)) (f' : fmap K V) : Prop :=
  match ops, xs with
  | [], [] => keeps f f'
  | o :: ops, x :: xs => exists f1, spec_listed ks f o x f1 /\ spec_all_listed ks f1 ops xs f'
  | _, _ => False
  end.

(** As [spec_exact], in the same way; [late j k] says that [retain], unwinding at [j],
    leaves a rejected [k] in the set. *)
Definition spec_listed_set {T} (ks : list T) (lf : T -> leaf) (sb : T -> option T)
  (late : T -> T -> bool)
  (p : T -> bool) (o : sop T) (x : sobs T) (q : T -> bool) : Prop :=
  match o with
  | SIter => x = QList (filter p ks) /\ same_set p q
  | SRetain g =>
      exists log l' w,
        retain_undo (slogged g) late p []
          (filter (fun k => p k || match lf k with LUnit => true | _ => false end) ks) = (log, l', w) /\
        x = QRetain log (match w with Some _ => Unwound | None => Done end) /\ elements q l'
  | _ => spec_exact lf sb p o x q
  end.
