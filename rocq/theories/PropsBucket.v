(** Properties of the option buckets (src/option_bucket.rs). *)
Require Import List Arith.
Import ListNotations.
From Verif Require Import Std OptionBucket BucketSpec BucketProofs.

(** * C48: the safe functions of the buckets *)

(** Every client that uses only the safe functions, on any number of variables of
    any type: never undefined behaviour, never a leaked value, and what it sees and
    leaves behind is what it would with plain options. *)
Theorem C48_buckets : forall (T : Type) (cs : list (cmd T)) (l : list (option T)),
  run_client cs l = Ok (plain_client cs (map (fun o => (o, Free)) l)).
Proof. intros T cs l. exact (client_ok cs l). Qed.
Print Assumptions C48_buckets.

(** Two variables; buckets of both kinds alive at the same time, each function
    used, a refused construction, and a statement rustc would refuse. *)
Example C48_example :
  run_client
    [CSomeNew 0; CNoneNew 0; COptionNew 1; CAsRef 0; CAsMut 0 S; CReplace 0 9;
     CInsert 1 4 (fun n => n + n); CTake 0; CNoneNew 1; CSomeNew 1; CRead 0; CIntoMut 1 S;
     CSomeNew 0; CNoneNew 0; CDrop 0; CRead 0; CWrite 0 (Some 3); CRead 1]
    [Some 7; None] =
  Ok ([OMade true; ORejected; OMade false; OValue 7; OValue 7; OValue 8; OValue 4; OValue 9;
       ONotMade; OMade true; OOption None; OValue 8; ONotMade; OMade false; OUnit; OOption None;
       OUnit; OOption (Some 9)],
      [Some 3; Some 9]).
Proof. reflexivity. Qed.
