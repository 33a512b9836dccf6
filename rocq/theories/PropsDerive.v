(** Property theorems: what the derive accepts (C41). *)
Require Import List Arith NArith Bool.
Import ListNotations.
From Verif Require Import Traits Key Api Spec Front FrontSpec FrontProofs.

(** Supported declarations compile; the sets are bitsets exactly if asked for. *)
Theorem C41_accepts : forall i b vs, supported i b vs ->
  expand i = Accepted (KEnum b vs) /\
  exists ki, derive (KEnum b vs) = Some ki /\
    (set_as_raw (ki_set ki) <> None <-> b = true) /\
    (set_from_raw (ki_set ki) <> None <-> b = true).
Proof. exact expand_supported. Qed.
Print Assumptions C41_accepts.

(** The full claim fails: unknown attributes are ignored, [#[key(bitsett)]] on
    [enum { A, B }]. *)
Theorem C41_attribute_refuted : exists i t,
  ~ Forall known_attr (in_attrs i) /\ expand i = Accepted t.
Proof.
  exists (MkInput [AttrKey [IOther]] (DataEnum [FieldsUnit; FieldsUnit])), (KEnum false (VUnit (VUnit VNil))).
  split; [|reflexivity]. intros H. inversion H as [|? ? K _]. inversion K. discriminate.
Qed.
Print Assumptions C41_attribute_refuted.

(** And [#[key(bitset)]] is accepted without effect on [enum { A, B(bool) }]. *)
Theorem C41_bitset_refuted : exists i t ki,
  Forall known_attr (in_attrs i) /\ asks_bitset i /\ expand i = Accepted t /\
  derive t = Some ki /\ set_as_raw (ki_set ki) = None /\ set_from_raw (ki_set ki) = None.
Proof.
  exists (MkInput [AttrKey [IBitset false]] (DataEnum [FieldsUnit; FieldsUnnamed [Some KBool]])).
  do 2 eexists. split; [repeat constructor|]. split; [|repeat split].
  exists [IBitset false], false. simpl. auto.
Qed.
Print Assumptions C41_bitset_refuted.

(** It holds for the shape of the input: what compiles is an enum, all its
    variants are unit variants or have one unnamed field of a key type, bitsets
    have at most 128 variants, and the storages are those of the declared
    variants. *)
Theorem C41_rejects_partial : forall i t, expand i = Accepted t ->
  exists b vs ki, t = KEnum b vs /\ shape i vs /\ derive t = Some ki /\
    (b = true -> (N.of_nat (variant_count vs) <= 128)%N).
Proof. exact expand_shape. Qed.
Print Assumptions C41_rejects_partial.

(** Exactly what compiles, and to what.  [bitset] counts if written before
    anything unknown in its attribute, and takes effect on unit variants only. *)
Theorem C41_accepts_exact : forall i t, expand i = Accepted t <->
  exists b vs, t = KEnum b vs /\ shape i vs /\
    (b = true <-> sees_bitset i /\ all_units vs = true) /\
    (b = true -> (N.of_nat (variant_count vs) <= 128)%N).
Proof. exact expand_accepted. Qed.
Print Assumptions C41_accepts_exact.

(** How the others are rejected: an error message (never an empty list of
    them) for non-enums and too many variants, a panic of the macro for a
    variant [A()], else code that does not compile. *)
Theorem C41_rejects_exact : forall i,
  (forall e, expand i = MacroErrors e ->
     exists e0 x, e = e0 ++ [x] /\
       ((x = ErrNotEnum /\ forall l, in_data i <> DataEnum l) \/
        (exists vs, x = ErrTooMany (N.of_nat (variant_count vs)) /\ sees_bitset i /\ shape i vs /\
           all_units vs = true /\ (128 < N.of_nat (variant_count vs))%N))) /\
  (expand i = MacroPanic <-> exists l, in_data i = DataEnum l /\ In (FieldsUnnamed []) l) /\
  (expand i = CompilerError <->
     exists l, in_data i = DataEnum l /\ ~ In (FieldsUnnamed []) l /\ ~ exists vs, declares l vs).
Proof. exact expand_rejected. Qed.
Print Assumptions C41_rejects_exact.

(** [#[key(bitset)] enum { A, B }], [enum { A, B(bool) }], and rejected ones. *)
Example C41_example :
  supported (MkInput [AttrOther; AttrKey [IBitset false]] (DataEnum [FieldsUnit; FieldsUnit]))
            true (VUnit (VUnit VNil)) /\
  supported (MkInput [] (DataEnum [FieldsUnit; FieldsUnnamed [Some KBool]]))
            false (VUnit (VTuple KBool VNil)) /\
  expand (MkInput [] DataStruct) = MacroErrors [ErrNotEnum] /\
  expand (MkInput [AttrKey [IBitset false]] (DataEnum (repeat FieldsUnit 129))) =
    MacroErrors [ErrTooMany 129] /\
  expand (MkInput [] (DataEnum [FieldsUnit; FieldsUnnamed []])) = MacroPanic /\
  expand (MkInput [] (DataEnum [FieldsUnit; FieldsNamed])) = CompilerError /\
  expand (MkInput [] (DataEnum [FieldsUnnamed [Some KBool; Some KUnit]])) = CompilerError /\
  expand (MkInput [] (DataEnum [FieldsUnnamed [None]])) = CompilerError.
Proof.
  split; [|split; [|repeat split]].
  - split; [repeat constructor|]. split; [|split].
    + split; auto. intros _. exists [IBitset false], false. simpl. auto.
    + eexists. split; [reflexivity|]. repeat constructor.
    + intros _. split; [reflexivity|discriminate].
  - split; [constructor|]. split; [|split].
    + split; [discriminate|]. intros (it & tl & [] & _).
    + eexists. split; [reflexivity|]. repeat econstructor.
    + discriminate.
Qed.
