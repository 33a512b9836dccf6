(** Property theorems: raw integers of bitsets (C35, C36). *)
Require Import List Arith NArith ZArith Bool.
Import ListNotations.
From Verif Require Import Std Traits SetStorages DeriveUnit DeriveAny Key Api Spec Reach
  OrdSpec Samples OrdProofs RawProofs.

(** * C35: the raw value of a set *)

(** [as_raw] and [from_raw] exist for exactly the bitset enums of unit variants. *)
Theorem C35_raw_keys : forall t ki, derive t = Some ki ->
  (set_as_raw (ki_set ki) <> None <-> exists vs, t = KEnum true vs /\ all_units vs = true) /\
  (set_from_raw (ki_set ki) <> None <-> exists vs, t = KEnum true vs /\ all_units vs = true).
Proof. intros t ki E. exact (raw_keys t ki E). Qed.
Print Assumptions C35_raw_keys.

Theorem C35_raw_encoding : forall vs ki,
  derive (KEnum true vs) = Some ki -> all_units vs = true ->
  exists as_raw, set_as_raw (ki_set ki) = Some as_raw /\
    forall st, set_reachable (ki_set ki) st ->
    (forall k, N.testbit (as_raw st) (N.of_nat (variant_index vs k)) =
               set_contains (ki_set ki) st k) /\
    (forall i, (N.of_nat (variant_count vs) <= i)%N -> N.testbit (as_raw st) i = false).
Proof. intros vs ki E H. exact (raw_encoding vs ki H E). Qed.
Print Assumptions C35_raw_encoding.

Theorem C35_raw_roundtrip : forall vs ki,
  derive (KEnum true vs) = Some ki -> all_units vs = true ->
  exists as_raw from_raw,
    set_as_raw (ki_set ki) = Some as_raw /\ set_from_raw (ki_set ki) = Some from_raw /\
    (forall st, set_reachable (ki_set ki) st ->
       set_reachable (ki_set ki) (from_raw (as_raw st)) /\
       set_eq (ki_set ki) (from_raw (as_raw st)) st = true /\
       forall k, set_contains (ki_set ki) (from_raw (as_raw st)) k =
                 set_contains (ki_set ki) st k) /\
    (forall r, as_raw (from_raw r) = r) /\
    (forall a b, set_reachable (ki_set ki) a -> set_reachable (ki_set ki) b ->
       (as_raw a = as_raw b <->
        forall k, set_contains (ki_set ki) a k = set_contains (ki_set ki) b k)).
Proof. intros vs ki E H. exact (raw_roundtrip vs ki H E). Qed.
Print Assumptions C35_raw_roundtrip.

(** The integer type is the smallest one with a bit for every variant. *)
Theorem C35_raw_width : forall vs ki,
  derive (KEnum true vs) = Some ki -> all_units vs = true ->
  exists as_raw w, set_as_raw (ki_set ki) = Some as_raw /\ set_raw_bits (ki_set ki) = Some w /\
    In w [8; 16; 32; 64; 128]%N /\ (N.of_nat (variant_count vs) <= w)%N /\
    (forall w', In w' [8; 16; 32; 64; 128]%N -> (N.of_nat (variant_count vs) <= w')%N ->
       (w <= w')%N) /\
    (forall k, (N.of_nat (variant_index vs k) < w)%N) /\
    (forall st, set_reachable (ki_set ki) st -> (as_raw st < 2 ^ w)%N).
Proof. intros vs ki E H. exact (raw_width vs ki H E). Qed.
Print Assumptions C35_raw_width.

(** More than 128 variants are rejected, fewer are not. *)
Theorem C35_raw_limit : forall vs, all_units vs = true ->
  (derive (KEnum true vs) = None <-> (128 < N.of_nat (variant_count vs))%N).
Proof. intros vs H. exact (derive_bitset vs H). Qed.
Print Assumptions C35_raw_limit.

(** {West, East} is 0b1010; nine variants need sixteen bits; 129 are too many. *)
Example C35_example :
  let m := ki_set bit_ki in
  let st := build_set m [west; east] in
  let nine := Nat.iter 9 VUnit VNil in
  derive bit_t = Some bit_ki /\ all_units dir_vs = true /\ set_reachable m st /\
  option_map (fun f => f st) (set_as_raw m) = Some 10%N /\
  set_raw_bits m = Some 8%N /\
  option_map (fun ki => set_raw_bits (ki_set ki)) (derive (KEnum true nine)) = Some (Some 16%N) /\
  all_units (Nat.iter 129 VUnit VNil) = true /\
  (128 < N.of_nat (variant_count (Nat.iter 129 VUnit VNil)))%N.
Proof.
  split; [reflexivity|]. split; [reflexivity|]. split; [apply build_set_reachable|].
  repeat split.
Qed.

(** * C36: sets built from any raw value *)

(** The full claim fails for bits without a variant: [from_raw(0x10)] of a
    four-variant enum has length 1 and is not empty, yet has no elements and
    differs from the empty set. *)
Theorem C36_from_raw_refuted : exists vs ki from_raw w r,
  derive (KEnum true vs) = Some ki /\ all_units vs = true /\
  set_from_raw (ki_set ki) = Some from_raw /\ set_raw_bits (ki_set ki) = Some w /\
  (r < 2 ^ w)%N /\
  yields (ss_Iter (ki_set ki)) (set_iter (ki_set ki) (from_raw r)) [] /\
  (forall k, set_contains (ki_set ki) (from_raw r) k = false) /\
  set_len (ki_set ki) (from_raw r) = 1 /\
  set_is_empty (ki_set ki) (from_raw r) = false /\
  set_eq (ki_set ki) (from_raw r) (set_new (ki_set ki) w0) = false.
Proof. exact from_raw_stray. Qed.
Print Assumptions C36_from_raw_refuted.

(** It holds for raw values with bits of declared variants only: the set is one
    that could have been built by inserting. *)
Theorem C36_from_raw_partial : forall vs ki,
  derive (KEnum true vs) = Some ki -> all_units vs = true ->
  exists as_raw from_raw,
    set_as_raw (ki_set ki) = Some as_raw /\ set_from_raw (ki_set ki) = Some from_raw /\
    forall r, (r < 2 ^ N.of_nat (variant_count vs))%N ->
      set_reachable (ki_set ki) (from_raw r) /\ as_raw (from_raw r) = r /\
      exists l, yields (ss_Iter (ki_set ki)) (set_iter (ki_set ki) (from_raw r)) l /\
        (forall k, In k l <-> N.testbit r (N.of_nat (variant_index vs k)) = true) /\
        set_len (ki_set ki) (from_raw r) = length l /\
        (set_is_empty (ki_set ki) (from_raw r) = true <-> l = []) /\
        (forall st, set_reachable (ki_set ki) st ->
           yields (ss_Iter (ki_set ki)) (set_iter (ki_set ki) st) l ->
           set_eq (ki_set ki) (from_raw r) st = true).
Proof. intros vs ki E H. exact (raw_valid vs ki H E). Qed.
Print Assumptions C36_from_raw_partial.

(** Any raw value: [contains] and iteration only see declared variants, [len],
    [is_empty] and [==] see all bits. *)
Theorem C36_from_raw_exact : forall vs ki,
  derive (KEnum true vs) = Some ki -> all_units vs = true ->
  exists as_raw from_raw w,
    set_as_raw (ki_set ki) = Some as_raw /\ set_from_raw (ki_set ki) = Some from_raw /\
    set_raw_bits (ki_set ki) = Some w /\
    (forall r, (r < 2 ^ w)%N ->
      as_raw (from_raw r) = r /\
      (forall k, set_contains (ki_set ki) (from_raw r) k =
                 N.testbit r (N.of_nat (variant_index vs k))) /\
      (exists l, yields (ss_Iter (ki_set ki)) (set_iter (ki_set ki) (from_raw r)) l /\
        elements (set_contains (ki_set ki) (from_raw r)) l /\
        set_len (ki_set ki) (from_raw r) = length l +
          length (filter (fun i => N.testbit r (N.of_nat i))
                         (seq (variant_count vs) (N.to_nat w - variant_count vs)))) /\
      (set_is_empty (ki_set ki) (from_raw r) = true <-> r = 0%N) /\
      (forall r', set_eq (ki_set ki) (from_raw r) (from_raw r') = true <-> r = r')).
Proof. intros vs ki E H. exact (raw_exact vs ki H E). Qed.
Print Assumptions C36_from_raw_exact.

(** Operations on sets built from any raw value: [insert] and [remove] change
    the bit of their argument only, [clear] and a completed [retain] also drop
    the bits without a variant. *)
Theorem C36_operations_exact : forall vs ki,
  derive (KEnum true vs) = Some ki -> all_units vs = true ->
  exists as_raw from_raw w,
    set_as_raw (ki_set ki) = Some as_raw /\ set_from_raw (ki_set ki) = Some from_raw /\
    set_raw_bits (ki_set ki) = Some w /\
    (forall r k i, (i < w)%N ->
      N.testbit (as_raw (snd (set_insert (ki_set ki) (from_raw r) k))) i =
        N.testbit r i || N.eqb i (N.of_nat (variant_index vs k))) /\
    (forall r k i, (i < w)%N ->
      N.testbit (as_raw (snd (set_remove (ki_set ki) (from_raw r) k))) i =
        N.testbit r i && negb (N.eqb i (N.of_nat (variant_index vs k)))) /\
    (forall r, as_raw (set_clear (ki_set ki) (from_raw r)) = 0%N) /\
    (forall r X (f : set_retain_fn X (keys vs)) x x' st' oc,
      set_retain (ki_set ki) f x (from_raw r) = (x', st', oc) ->
      exists l l', yields (ss_Iter (ki_set ki)) (set_iter (ki_set ki) (from_raw r)) l /\
        retain_elems f x l = (x', l', oc) /\
        match oc with
        | Done => set_reachable (ki_set ki) st' /\
                  forall k, set_contains (ki_set ki) st' k = true <-> In k l'
        | Unwound => as_raw st' = r
        end).
Proof. intros vs ki E H. exact (raw_operations vs ki H E). Qed.
Print Assumptions C36_operations_exact.

Example C36_example :
  let m := ki_set bit_ki in
  derive bit_t = Some bit_ki /\ all_units dir_vs = true /\
  (10 < 2 ^ N.of_nat (variant_count dir_vs))%N /\ (26 < 2 ^ 8)%N /\
  option_map (fun f => (set_len m (f 10%N), drain (ss_Iter m) 9 (set_iter m (f 10%N))))
             (set_from_raw m) = Some (2, Some [east; west]) /\
  option_map (fun f => (set_len m (f 26%N), drain (ss_Iter m) 9 (set_iter m (f 26%N))))
             (set_from_raw m) = Some (3, Some [east; west]) /\
  option_map (fun f => fst (fst (set_retain m (fun n _ => (S n, Keep)) 0 (f 26%N))))
             (set_from_raw m) = Some 2 /\
  option_map (fun f => set_len m (snd (fst (set_retain m (fun n _ => (S n, Keep)) 0 (f 26%N)))))
             (set_from_raw m) = Some 2.
Proof. repeat split. Qed.
