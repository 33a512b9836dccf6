(** Property theorems about programs that use several sets. *)
Require Import List Arith NArith ZArith Bool Lia.
Import ListNotations.
From Verif Require Import Std Traits Key Spec Api Reach IterFacts Avail Program SetProgram SetProgramSpec SetProgramMain
  SetProgramUnique Samples.

(** * C67: programs over several sets *)

(** Whatever the predicate of [retain] does, a program does what it should: every answer,
    every effect and every variable afterwards is as for lists of elements with some
    bits beside them. *)
Theorem C67_program : forall t ki S (keep : S -> key t -> S * option bool) vars l s s' R xs,
  derive t = Some ki ->
  pexec_all (ki_set ki) (set_impls t TCopy) keep l s (repeat None vars) = (s', R, xs) ->
  exists M, pdoes_all t keep l s (repeat None vars) s' M xs /\ Forall2 (oshows (ki_set ki)) R M.
Proof. exact c67. Qed.
Print Assumptions C67_program.

(** Every statement is answered, and no loop of the crate runs longer than the sets are
    large. *)
Theorem C67_answers : forall t ki S (keep : S -> key t -> S * option bool) vars l s s' R xs,
  derive t = Some ki ->
  pexec_all (ki_set ki) (set_impls t TCopy) keep l s (repeat None vars) = (s', R, xs) ->
  length xs = length l /\ length R = vars /\ ~ In TDiverged xs.
Proof. exact c67_answers. Qed.
Print Assumptions C67_answers.

(** Without hash tables a program has one outcome only. *)
Theorem C67_determined : forall t S (keep : S -> key t -> S * option bool) l s R s1 R1 xs s2 R2 ys,
  hash_free t = true ->
  pdoes_all t keep l s R s1 R1 xs -> pdoes_all t keep l s R s2 R2 ys ->
  s1 = s2 /\ R1 = R2 /\ xs = ys.
Proof. intros t S keep l s R s1 R1 xs s2 R2 ys H. exact (all_fun t keep H l s R s1 R1 xs s2 R2 ys). Qed.
Print Assumptions C67_determined.

(** Adding or removing [#[key(bitset)]] changes no answer of a program, as long as it uses
    neither the integers of the sets nor their order or hash, and the predicate does not
    unwind. *)
Theorem C67_bitset_choice : forall vs S (keep : S -> keys vs -> S * option bool) ki ki' vars l
  s s1 R1 xs1 s2 R2 xs2,
  (forall s k, snd (keep s k) <> None) ->
  derive (KEnum true vs) = Some ki -> derive (KEnum false vs) = Some ki' ->
  forallb alike l = true ->
  pexec_all (ki_set ki) (set_impls (KEnum true vs) TCopy) keep l s (repeat None vars) = (s1, R1, xs1) ->
  pexec_all (ki_set ki') (set_impls (KEnum false vs) TCopy) keep l s (repeat None vars) = (s2, R2, xs2) ->
  s1 = s2 /\ xs1 = xs2.
Proof.
  intros vs S keep ki ki' vars l s s1 R1 xs1 s2 R2 xs2 H.
  exact (choice vs S keep H ki ki' vars l s s1 R1 xs1 s2 R2 xs2).
Qed.
Print Assumptions C67_bitset_choice.

(** Bit sets of four variants: 27 is the first, second and fourth variant, and a bit that
    stands for none.  The predicate keeps every other element it sees, and unwinds once it
    has been asked five times. *)
Definition every_other (s : nat) (k : key bit_t) : nat * option bool :=
  (Datatypes.S s, if Nat.ltb 4 s then None else Some (Nat.even s)).
Definition bit_program : list (pstmt (key bit_t)) :=
  [PFromRaw 0 27; PLen 0; PIter 0 [Back; Front; Front]; PMove 0 1; PInsert 0 south; PLen 0;
   PEq 0 1; PCmp 0 1; PLess 1 0; PInter 0 1 3; PHash 1; PRetain 0; PAsRaw 0; PAsRaw 1;
   PFromRaw 2 256; PRetain 1; PRetain 1; PAsRaw 1; PCollectInter 2 w0 0 1; PAsRaw 2].
Example C67_program_example :
  derive bit_t = Some bit_ki /\
  let '(s, R, xs) := pexec_all (ki_set bit_ki) (set_impls bit_t TCopy) every_other bit_program 0 [None; None; None] in
  (s, xs) = (7,
    [TFine; TNum 4; TItems [Some west; Some north; Some east]; TFine; TTruth true; TNum 5;
     TTruth false; TOrder Gt; TTruth true; TItems [Some north; Some east; Some west];
     TBytes [27%Z]; TFine; TBits 5; TBits 27; TInvalid; TPanicked; TPanicked; TBits 27; TFine;
     TBits 1]) /\
  exists M, pdoes_all bit_t every_other bit_program 0 [None; None; None] s M xs /\
    Forall2 (oshows (ki_set bit_ki)) R M.
Proof.
  split; [reflexivity|].
  destruct (pexec_all (ki_set bit_ki) (set_impls bit_t TCopy) every_other bit_program 0 [None; None; None])
    as [[s R] xs] eqn:E. split.
  - assert (fst (fst (s, R, xs)) = 7 /\ snd (s, R, xs) = snd (pexec_all (ki_set bit_ki) (set_impls bit_t TCopy)
      every_other bit_program 0 [None; None; None])) as [E1 E2] by (rewrite <- E; split; vm_compute; reflexivity).
    cbn in E1, E2. rewrite E1, E2. vm_compute. reflexivity.
  - exact (C67_program bit_t bit_ki nat every_other 3 bit_program 0 s R xs eq_refl E).
Qed.

(** Sets with a hash table cannot be used after they were moved; sets of [()] can.  Keeping
    what another set contains can add [()]. *)
Example C67_moves :
  (let '(_, _, xs) := pexec_all (ki_set thing_ki) (set_impls thing_t TCopy) (fun (s : unit) _ => (s, Some true))
     [PCollect 0 w0 [k_unit; k_flag true; k_num None]; PInsert 0 (k_flag true); PRemove 0 (k_flag false);
      PClone 0 1; PMove 0 2; PLen 0; PEq 1 2; PAddAll 2 1; PAddAll 1 1; PCmp 1 2; PIter 2 [Back];
      PIntoIter 1 [Front; Front]; PIsEmpty 1] tt [None; None; None] in xs)
  = [TFine; TTruth true; TTruth true; TFine; TFine; TInvalid; TTruth true; TFine; TInvalid; TInvalid;
     TInvalid; TItems [Some k_unit; Some (k_flag true)]; TInvalid] /\
  exists ki, derive KUnit = Some ki /\
  (let '(_, _, xs) := pexec_all (ki_set ki) (set_impls KUnit TCopy) (fun (s : unit) _ => (s, Some true))
     [PNew 0 w0; PMove 0 1; PInsert 0 tt; PLess 1 0; PHash 0; PKeepIn 1 0; PEq 0 1] tt [None; None] in xs)
  = [TFine; TFine; TTruth true; TTruth true; TBytes [1%Z]; TFine; TTruth true].
Proof.
  split; [vm_compute; reflexivity|]. eexists. split; [reflexivity|]. vm_compute. reflexivity.
Qed.

(** The program that inserts, removes and lists has no other outcome. *)
Example C67_refuses : forall s M xs,
  pdoes_all dir_t (fun (s : unit) _ => (s, Some true))
    [PNew 0 w0; PInsert 0 south; PInsert 0 north; PInsert 0 south; PIter 0 [Back; Front; Front]] tt [None] s M xs ->
  M = [Some (MkContent [north; south] 0)] /\
  xs = [TFine; TTruth true; TTruth true; TTruth false; TItems [Some south; Some north; None]].
Proof.
  intros s M xs H.
  destruct (pexec_all (ki_set dir_ki) (set_impls dir_t TCopy) (fun (s : unit) _ => (s, Some true))
    [PNew 0 w0; PInsert 0 south; PInsert 0 north; PInsert 0 south; PIter 0 [Back; Front; Front]] tt [None])
    as [[s1 R1] ys] eqn:E.
  destruct (C67_program dir_t dir_ki unit _ 1 _ tt s1 R1 ys eq_refl E) as (M' & D & F).
  destruct (C67_determined dir_t unit _ _ _ _ _ _ _ _ _ _ eq_refl H D) as (_ & -> & ->).
  vm_compute in E. injection E as _ <- <-. split; [|reflexivity].
  inversion F as [|? [c|] ? ? O F']; subst; [|contradiction]. inversion F'; subst.
  destruct O as [Y Z]. destruct c as [e z]. cbn in Z. subst z. cbn [els] in Y. do 3 f_equal.
  apply (yields_fun _ _ _ _ Y). exists 3. intros [|[|[|n]]] Hn; try lia. reflexivity.
Qed.

(** The same program on arrays and on bit sets. *)
Definition both_program : list (pstmt (keys dir_vs)) :=
  [PCollect 0 w0 [west; north; south]; PClone 0 1; PRetain 1; PLen 1; PInter 0 1 3; PKeepIn 0 1; PEq 0 1;
   PIsEmpty 0; PIntoIter 0 [Back; Back]].
Example C67_bitset_choice_example :
  derive (KEnum true dir_vs) = Some bit_ki /\ derive (KEnum false dir_vs) = Some dir_ki /\
  forallb alike both_program = true /\
  (let '(_, _, xs) := pexec_all (ki_set bit_ki) (set_impls (KEnum true dir_vs) TCopy)
     (fun s _ => (Datatypes.S s, Some (Nat.even s))) both_program 0 [None; None] in xs)
  = [TFine; TFine; TFine; TNum 2; TItems [Some north; Some west; None]; TFine; TTruth true; TTruth false;
     TItems [Some west; Some north]] /\
  (let '(_, _, xs) := pexec_all (ki_set dir_ki) (set_impls (KEnum false dir_vs) TCopy)
     (fun s _ => (Datatypes.S s, Some (Nat.even s))) both_program 0 [None; None] in xs)
  = [TFine; TFine; TFine; TNum 2; TItems [Some north; Some west; None]; TFine; TTruth true; TTruth false;
     TItems [Some west; Some north]].
Proof.
  split; [reflexivity|]. split; [reflexivity|]. split; [reflexivity|].
  split; vm_compute; reflexivity.
Qed.
