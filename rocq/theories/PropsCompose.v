(** Property theorems: keys built from hand-written key types (C53). *)
Require Import List Arith NArith ZArith Bool Lia.
Import ListNotations.
From Verif Require Import Std Traits MapStorages SetStorages DeriveAny Key Api Spec Reach History
  KeyLaws ComposeSpec ComposeProofs ComposeSample.

(** * C53: composition of key types *)

Theorem C53_option : forall K V (m : MapStorage K V),
  acts_as_map m -> acts_as_map (opt_map_storage m).
Proof. exact @option_acts. Qed.
Print Assumptions C53_option.

Theorem C53_enum : forall R V (fs : fields R),
  payloads_act V fs -> acts_as_map (any_map_storage V fs).
Proof. exact @enum_acts'. Qed.
Print Assumptions C53_enum.

Theorem C53_builtin : forall t ki V, derive t = Some ki -> acts_as_map (ki_map ki V).
Proof. exact builtin_acts. Qed.
Print Assumptions C53_builtin.

Theorem C53_history : forall K V (m : MapStorage K V), acts_as_map m -> forall w ops,
  exists xs st n0, (forall n, n0 <= n -> run_ops m n (map_new m w) ops = Ok (xs, st)) /\
    spec_ops (fun _ => None) ops xs (map_get m st).
Proof. exact @acts_history. Qed.
Print Assumptions C53_history.

(** An enum [enum Key { Unit, Num(N), Opt(Option<N>) }] over the key type [N]
    whose storage is not one of the crate's. *)
Definition over_rev : fields _ :=
  FUnit (FTuple rev_ki
    (FTuple (MkKeyImpl (fun V => opt_map_storage (rev_map_storage V))
                       (opt_set_storage (hash_set_storage Nat.eqb))) FNil)).

Example C53_example :
  (forall V, payloads_act V over_rev) /\
  res_map fst (run_ops (any_map_storage nat over_rev) 20 (map_new (any_map_storage nat over_rev) (fun _ _ => []))
    [MInsert (inr (inl 5)) 50; MInsert (inr (inr (inl (Some 7)))) 70; MInsert (inl tt) 1;
     MInsert (inr (inl 6)) 60; MOrInsert (inr (inr (inl None))) 8;
     MEntryRemove (inr (inr (inl (Some 7)))); MIter; MLen; MGet (inr (inl 7))]) =
  Ok [ROption None; ROption None; ROption None; ROption None; RValue 8; ROption (Some 70);
       RList [(inl tt, 1); (inr (inl 5), 50); (inr (inl 6), 60); (inr (inr (inl None)), 8)];
       RNat 4; ROption None].
Proof.
  split.
  - intros V. split; [apply rev_acts|]. split; [apply option_acts, rev_acts|exact I].
  - vm_compute. reflexivity.
Qed.
