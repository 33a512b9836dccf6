(** What the text of the derive macro generates, with the names of variants still open:
    the items of each kind of enum. *)
Require Import List Arith NArith Bool String Ascii.
Import ListNotations.
From Verif Require Import DeriveQuote DeriveRead DeriveInst DeriveCode.
Open Scope string_scope.

(** The list, if there is one. *)
Definition or_nil {A} (o : option (list A)) : list A :=
  match o with Some l => l | None => [] end.

(** The items for an enum with a tuple variant (any_variants.rs:12-90). *)
Definition any_its : list item :=
  Eval vm_compute in or_nil (macro_items false false).
Lemma any_items : macro_items false false = Some any_its.
Proof. vm_cast_no_check (@eq_refl (option (list item)) (Some any_its)). Qed.

(** The items for an enum of unit variants (unit_variants.rs:9-45). *)
Definition unit_its : list item :=
  Eval vm_compute in or_nil (macro_items false true).
Lemma unit_items : macro_items false true = Some unit_its.
Proof. vm_cast_no_check (@eq_refl (option (list item)) (Some unit_its)). Qed.

(** The items for an enum of unit variants with [#[key(bitset)]] (unit_variants.rs:9-45). *)
Definition bitset_its : list item :=
  Eval vm_compute in or_nil (macro_items true true).
Lemma bitset_items : macro_items true true = Some bitset_its.
Proof. vm_cast_no_check (@eq_refl (option (list item)) (Some bitset_its)). Qed.

(** The ranges of [determine_bits] (unit_variants.rs:533-548). *)
Definition ranges (bitset : bool) : option (list (N * N * N)) :=
  option_map bits_arms (macro_file bitset true).
Lemma ranges_false : ranges false = ranges true.
Proof. vm_compute. reflexivity. Qed.
Definition bit_ranges : list (N * N * N) :=
  Eval vm_compute in or_nil (ranges true).
Lemma ranges_true : ranges true = Some bit_ranges.
Proof. vm_compute. reflexivity. Qed.
