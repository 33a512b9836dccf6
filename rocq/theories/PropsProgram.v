(** Property theorems about programs that use several maps. *)
Require Import List Arith Bool ZArith Permutation.
Import ListNotations.
From Verif Require Import Std Traits Key Spec KeyLaws Api Reach ClearSpec Sources SourceSpec AnyRefSpec Program ProgramSpec
  ProgramMain Samples.

(** * C64: programs over several maps *)

(** Whatever the user's functions do, a program does what it should: every answer, every
    effect and every variable afterwards is as for lists of entries; undefined behaviour
    is never among the answers. *)
Theorem C64_program : forall t ki V S (U : helpers S (key t) V) vars l s s' R xs e,
  derive t = Some ki ->
  exec_all (ki_map ki V) U l s (repeat None vars) = (s', R, xs, e) ->
  exists M, does_all (key_before t) (placed t) (hash_free t) U l s (repeat None vars) s' M xs e /\
    Forall2 (osees (ki_map ki V)) R M.
Proof. intros t ki V S U vars l s s' R xs e E. exact (c64 E U vars l s s' R xs e). Qed.
Print Assumptions C64_program.

(** Values are conserved: what was put in or made is in the variables, has been given
    back, or has been dropped; only when a destructor unwinds while what a whole map with
    hashed keys holds is dropped may some be nowhere. *)
Theorem C64_ledger : forall t ki V S (U : helpers S (key t) V) vars l s s' b R xs,
  derive t = Some ki ->
  exec_all (ki_map ki V) (with_book U) l (s, MkBook [] []) (repeat None vars)
    = ((s', b), R, xs, true) ->
  exists M lost, Forall2 (osees (ki_map ki V)) R M /\
    Permutation (all_put_in l xs ++ made b) (held M ++ all_given_back l xs ++ gone b ++ lost) /\
    (lost <> [] -> exists q x, In (q, x) (combine l xs) /\ may_lose (hash_free t) q x).
Proof.
  intros t ki V S U vars l s s' b R xs E. exact (c64_ledger E U vars l s s' b R xs).
Qed.
Print Assumptions C64_ledger.

(** Once no variable holds a map any more, each value has been given back or dropped,
    and only once. *)
Theorem C64_nothing_left : forall t ki V S (U : helpers S (key t) V) vars l s s' b R xs,
  derive t = Some ki ->
  exec_all (ki_map ki V) (with_book U) l (s, MkBook [] []) (repeat None vars)
    = ((s', b), R, xs, true) ->
  (forall a, var a R = None) ->
  (forall q x, In (q, x) (combine l xs) -> ~ may_lose (hash_free t) q x) ->
  Permutation (all_put_in l xs ++ made b) (all_given_back l xs ++ gone b).
Proof.
  intros t ki V S U vars l s s' b R xs E. exact (c64_nothing_left E U vars l s s' b R xs).
Qed.
Print Assumptions C64_nothing_left.

(** Two maps of [Thing]; clones are 100 more; [retain] doubles the value and keeps it
    if it was not 3; the destructor of 13 unwinds. *)
Definition tester : helpers nat (key thing_t) nat :=
  MkHelpers (fun s _ v => (Datatypes.S s, v + v, Some (negb (Nat.eqb v 3))))
            (fun s v => (Datatypes.S s, Some (100 + v)))
            (fun s v w => (Datatypes.S s, Some (Nat.eqb v w)))
            (fun s v => (Datatypes.S s, Nat.eqb v 13)).
Definition sample_program : list (stmt (key thing_t) nat) :=
  [SNew 0 w0; SInsert 0 k_unit 1; SInsert 0 (k_flag true) 2; SInsert 0 (k_num (Some 7%Z)) 3;
   SInsert 0 k_unit 13; SClone 0 1; SEq 0 1; SRetain 1; SSet 1 k_unit 5; SOrInsert 0 k_unit 9;
   SMove 0 1; SGet 0 k_unit; SRemove 1 k_unit; SInsert 1 (k_flag false) 4; SIter 1 [Front; Back];
   SIntoIter 1 [Front; Front]].
Example C64_example : exists s b,
  exec_all thing_m (with_book tester) sample_program (0, MkBook [] []) (repeat None 2) =
  ((s, b), [None; None],
    [Fine; Value None; Value None; Value None; Value (Some 1); Fine; Truth false; Fine; Fine;
     Value (Some 13); Fine; Invalid; Value (Some 13); Value None; Invalid;
     Items [Some (k_flag true, 2); Some (k_flag false, 4)]], true) /\
  gone b = [3; 206; 204; 5; 9; 226; 103; 102; 113] /\ made b = [206; 204; 226; 103; 102; 113].
Proof. eexists _, _. vm_compute. repeat split. Qed.
Example C64_panic_example : exists s b R,
  exec_all (ki_map dir_ki nat) (with_book (MkHelpers (fun s _ v => (s, v, Some true))
      (fun s v => (s, Some v)) (fun s _ _ => (s, Some true)) (fun s v => (s, Nat.eqb v 13))))
    [SNew 0 w0; SInsert 0 north 13; SInsert 0 south 2; SClone 0 1; SNew 0 w0; SInsert 1 east 13;
     SDrop 1; SLen 0]
    (0, MkBook [] []) (repeat None 2) =
  ((s, b), R, [Fine; Value None; Value None; Fine; Panicked; Value None], false).
Proof. eexists _, _, _. vm_compute. reflexivity. Qed.

(** What is not allowed: a value dropped that was given back; a variable changed by a
    statement about another one. *)
Example C64_refuses :
  let does := does_all (K := key dir_t) (key_before dir_t) (placed dir_t) true (V := nat)
    (MkHelpers (fun s _ v => (s, v, Some true)) (fun s v => (s, Some v))
       (fun s _ _ => (s, Some true)) (fun s v => (v :: s, false))) in
  (forall M xs e, ~ does [SInsert 0 north 1; SRemove 0 north] [] [Some []; Some []] [1] M xs e) /\
  (forall s M xs e, does [SInsert 0 north 1] [] [Some []; Some []] s M xs e ->
     M = [Some [(north, 1)]; Some []]).
Proof.
  intros does. subst does. split.
  - intros M xs e H. inversion H as [|? ? ? ? ? ? Ha|? ? ? ? ? ? ? ? ? ? ? Ha Hb]; subst; clear H.
    + inversion Ha; subst; match goal with Y : does_one _ _ _ _ _ _ _ _ _ None |- _ => inversion Y end.
    + inversion Ha as [? ? ? ? ? ? ? ? A1 A2 A3| | | | | | | | | | | | | | |]; subst;
        [|match goal with Y : about _ = Some ?a, Z : var ?a _ = None |- _ => injection Y as <-; discriminate Z end].
      injection A1 as <-. inversion A3; subst.
      * inversion Hb as [|? ? ? ? ? ? Hc|? ? ? ? ? ? ? ? ? ? ? Hc Hd]; subst; 
        [inversion Hc; subst; match goal with Y : does_one _ _ _ _ _ _ _ _ _ None |- _ => inversion Y end|].
        inversion Hd; subst. inversion Hc as [? ? ? ? ? ? ? ? B1 B2 B3| | | | | | | | | | | | | | |]; subst.
        inversion B3.
      * inversion Hb as [|? ? ? ? ? ? Hc|? ? ? ? ? ? ? ? ? ? ? Hc Hd]; subst; 
        [inversion Hc; subst; match goal with Y : does_one _ _ _ _ _ _ _ _ _ None |- _ => inversion Y end|].
        inversion Hd; subst. inversion Hc as [? ? ? ? ? ? ? ? B1 B2 B3| | | | | | | | | | | | | | |]; subst.
        inversion B3.
  - intros s M xs e H. inversion H as [|? ? ? ? ? ? Ha|? ? ? ? ? ? ? ? ? ? ? Ha Hb]; subst; clear H.
    + inversion Ha; subst; match goal with Y : does_one _ _ _ _ _ _ _ _ _ None |- _ => inversion Y end.
    + inversion Hb; subst.
      inversion Ha as [? ? ? ? ? ? ? ? A1 A2 A3| | | | | | | | | | | | | | |]; subst;
        [|match goal with Y : about _ = Some ?a, Z : var ?a _ = None |- _ => injection Y as <-; discriminate Z end].
      injection A1 as <-. injection A2 as <-. inversion A3; subst.
      * match goal with Y : added _ _ _ _ _ |- _ => destruct Y as [P _] end.
        apply Permutation_sym, Permutation_length_1_inv in P. now subst.
      * match goal with Y : replaced _ _ _ _ _ |- _ => destruct Y as ([|? ?] & ? & Z & _); discriminate end.
Qed.

(** Two destructors that unwind during one [clear] abort the process. *)
Example C64_abort_example : exists s R,
  exec_all (ki_map dir_ki nat) (MkHelpers (fun s _ v => (s, v, Some true))
      (fun s v => (s, Some v)) (fun s _ _ => (s, Some true)) (fun s v => (v :: s, Nat.eqb v 13)))
    [SNew 0 w0; SInsert 0 north 13; SInsert 0 south 2; SClear 0; SLen 0;
     SInsert 0 north 13; SInsert 0 south 13; SInsert 0 west 1; SClear 0; SLen 0]
    [] (repeat None 1) =
  (s, R, [Fine; Value None; Value None; Panicked; Num 0; Value None; Value None; Value None], false) /\
  s = [13; 13; 2; 13].
Proof. eexists _, _. vm_compute. repeat split. Qed.

(** Keys of a hash table: after a destructor that unwinds, those behind it in the table
    are not dropped, neither by [drop] nor by [clear] nor by assigning another map. *)
Example C64_leak_example : exists s,
  exec_all (ki_map u8_ki nat) (with_book (MkHelpers (fun s _ v => (s, v, Some true))
      (fun s v => (s, Some v)) (fun s _ _ => (s, Some true)) (fun s v => (Datatypes.S s, Nat.eqb v 13))))
    [SNew 0 w0; SInsert 0 1%Z 13; SInsert 0 2%Z 10; SInsert 0 3%Z 11; SClone 0 1; SClone 0 2;
     SDrop 0; SNew 1 w0; SClear 2; SLen 1; SDrop 1; SLen 2]
    (0, MkBook [] []) (repeat None 3) =
  ((s, MkBook [10; 13; 11; 10; 13; 11] [13; 11; 13; 11; 13; 11]), [None; None; var 2 (snd (fst (fst
     (exec_all (ki_map u8_ki nat) (MkHelpers (fun s _ v => (s, v, Some true))
      (fun s v => (s, Some v)) (fun s _ _ => (s, Some true)) (fun s v => (Datatypes.S s, Nat.eqb v 13)))
    [SNew 0 w0; SInsert 0 1%Z 13; SInsert 0 2%Z 10; SInsert 0 3%Z 11; SClone 0 1; SClone 0 2;
     SDrop 0; SNew 1 w0; SClear 2] 0 (repeat None 3)))))],
    [Fine; Value None; Value None; Value None; Fine; Fine; Panicked; Panicked; Panicked; Num 0; Fine; Num 0], true).
Proof. eexists. vm_compute. reflexivity. Qed.

(** A clone that unwinds: the clones made until then are dropped, and the variables are
    as they were; if a destructor unwinds then, the process is aborted. *)
Example C64_clone_example : exists s R,
  exec_all (ki_map dir_ki nat) (with_book (MkHelpers (fun s _ v => (s, v, Some true))
      (fun s v => (s, if Nat.eqb v 5 then None else Some (v + v))) (fun s _ _ => (s, Some true))
      (fun s v => (s, Nat.eqb v 26))))
    [SNew 0 w0; SInsert 0 north 3; SInsert 0 south 4; SInsert 0 west 5; SClone 0 0; SLen 0;
     SInsert 0 east 13; SClone 0 1; SLen 0]
    (0, MkBook [] []) (repeat None 2) =
  ((s, MkBook [8; 26; 6; 8; 6] [26; 6; 8; 6]), R,
    [Fine; Value None; Value None; Value None; NoClone; Num 3; Value None], false).
Proof. eexists _, _. vm_compute. reflexivity. Qed.
