(** C73: the traits of the storages that the derive macro writes, run as text. *)
Require Import List Arith NArith ZArith Bool String.
Import ListNotations.
From Verif Require Import Std Traits OptionBucket DeriveUnit DeriveAny Key SrcFiles Reach SrcSupport SrcSupportSpec
  PropsSupportText.
From Verif Require Import DeriveCode DeriveTraits DeriveTraitsProofs.
Open Scope string_scope.

(** The traits that storages have: for enums without fields, and for others. *)
Theorem C73_traits :
  traits_of false true = Some (unit_traits ++ ["MapStorage"], unit_traits ++ ["SetStorage"])%list /\
  traits_of true true = Some (unit_traits ++ ["MapStorage"], unit_traits ++ ["SetStorage"; "RawStorage"])%list /\
  traits_of false false = Some (["MapStorage"; "PartialEq"; "Eq"; "Clone"; "Copy"],
                                ["SetStorage"; "PartialEq"; "Eq"; "Clone"; "Copy"]).
Proof. exact (conj traits_unit (conj traits_bitset traits_any)). Qed.
Print Assumptions C73_traits.
(** So the storages of the model can be hashed and ordered exactly when those written can. *)
Theorem C73_unit_kinds : forall R (u : units R) V bitset ki m s, derive_unit bitset u = Some ki ->
  traits_of bitset true = Some (m, s) ->
  (In "Hash" m /\ ms_hash_with (ki_map ki V) <> None) /\ (In "Hash" s /\ ss_hash (ki_set ki) <> None) /\
  (In "PartialOrd" m /\ ms_partial_cmp_with (ki_map ki V) <> None) /\ (In "PartialOrd" s /\ ss_partial_cmp (ki_set ki) <> None) /\
  (In "Ord" m /\ ms_cmp_with (ki_map ki V) <> None) /\ (In "Ord" s /\ ss_cmp (ki_set ki) <> None) /\
  (In "RawStorage" s <-> ss_raw (ki_set ki) <> None).
Proof. exact unit_kinds. Qed.
Print Assumptions C73_unit_kinds.
Theorem C73_any_kinds : forall R (fs : fields R) V m s, traits_of false false = Some (m, s) ->
  (~ In "Hash" m /\ ms_hash_with (any_map_storage V fs) = None) /\
  (~ In "Hash" s /\ ss_hash (any_set_storage fs) = None) /\
  (~ In "PartialOrd" m /\ ms_partial_cmp_with (any_map_storage V fs) = None) /\
  (~ In "PartialOrd" s /\ ss_partial_cmp (any_set_storage fs) = None) /\
  (~ In "Ord" m /\ ms_cmp_with (any_map_storage V fs) = None) /\
  (~ In "Ord" s /\ ss_cmp (any_set_storage fs) = None) /\
  (~ In "RawStorage" s /\ ss_raw (any_set_storage fs) = None).
Proof. exact any_kinds. Qed.
Print Assumptions C73_any_kinds.

(** Maps keyed by an enum without fields.  [clone] makes a storage, calling the user's [clone]
    as the model does, also when one unwinds. *)
Theorem C73_clone : forall R V (u : units R) S (clone : clone_fn S V) eq word hash pcmp cmp bitset s
    (a : ms_St (unit_map_storage u V)),
  returns (fun n => map_trait clone eq word hash pcmp cmp bitset "Clone" "clone" n s [arr_elems u (um_data a)])
    (let '(s', r) := ms_clone_with (unit_map_storage u V) clone s a in
     (s', option_map (fun m => GotStorage (arr_elems u (um_data m))) r)).
Proof. exact clone_ok. Qed.
Print Assumptions C73_clone.
Theorem C73_eq : forall R V (u : units R) S clone (eq : eq_fn S V) word hash pcmp cmp bitset s
    (a b : ms_St (unit_map_storage u V)),
  returns (fun n => map_trait clone eq word hash pcmp cmp bitset "PartialEq" "eq" n s
      [arr_elems u (um_data a); arr_elems u (um_data b)])
    (let '(s', r) := ms_eq_with (unit_map_storage u V) eq s a b in (s', option_map GotBool r)).
Proof. exact eq_ok. Qed.
Print Assumptions C73_eq.
Theorem C73_hash : forall R V (u : units R) S clone eq word (hash : hash_fn S V) pcmp cmp bitset s
    (a : ms_St (unit_map_storage u V)),
  exists f, ms_hash_with (unit_map_storage u V) = Some f /\
  returns (fun n => map_trait clone eq word hash pcmp cmp bitset "Hash" "hash" n s [arr_elems u (um_data a)])
    (let '(s', unwound) := f S word hash s a in (s', if unwound then None else Some GotUnit)).
Proof. exact hash_ok. Qed.
Print Assumptions C73_hash.
Theorem C73_partial_cmp : forall R V (u : units R) S clone eq word hash (pcmp : pcmp_fn S V) cmp bitset s
    (a b : ms_St (unit_map_storage u V)),
  exists f, ms_partial_cmp_with (unit_map_storage u V) = Some f /\
  returns (fun n => map_trait clone eq word hash pcmp cmp bitset "PartialOrd" "partial_cmp" n s
      [arr_elems u (um_data a); arr_elems u (um_data b)])
    (let '(s', r) := f S pcmp s a b in (s', option_map GotOrder r)).
Proof. exact partial_cmp_trait_ok. Qed.
Print Assumptions C73_partial_cmp.
Theorem C73_cmp : forall R V (u : units R) S clone eq word hash pcmp (cmp : cmp_fn S V) bitset s
    (a b : ms_St (unit_map_storage u V)),
  exists f, ms_cmp_with (unit_map_storage u V) = Some f /\
  returns (fun n => map_trait clone eq word hash pcmp cmp bitset "Ord" "cmp" n s
      [arr_elems u (um_data a); arr_elems u (um_data b)])
    (let '(s', r) := f S cmp s a b in (s', option_map (fun o => GotOrder (Some o)) r)).
Proof. exact cmp_trait_ok. Qed.
Print Assumptions C73_cmp.
(** Sets of an enum without fields, as arrays of [bool] and as integers. *)
Theorem C73_sets : forall R (u : units R) (a b : ss_St (unit_set_storage u)),
  exists f g, ss_partial_cmp (unit_set_storage u) = Some f /\ ss_cmp (unit_set_storage u) = Some g /\
  returns (fun n => set_trait "PartialOrd" "partial_cmp" n [arr_elems u (us_data u a); arr_elems u (us_data u b)])
    (tt, Some (GotOrder (f a b))) /\
  returns (fun n => set_trait "Ord" "cmp" n [arr_elems u (us_data u a); arr_elems u (us_data u b)])
    (tt, Some (GotOrder (Some (g a b)))).
Proof. exact sets_ok. Qed.
Print Assumptions C73_sets.
Theorem C73_bitsets : forall R (u : units R) width (a b : ss_St (bit_set_storage u width)),
  exists f g, ss_partial_cmp (bit_set_storage u width) = Some f /\ ss_cmp (bit_set_storage u width) = Some g /\
  bits_trait "PartialOrd" "partial_cmp" [bt_data a; bt_data b] = Some (tt, Some (GotOrder (f a b))) /\
  bits_trait "Ord" "cmp" [bt_data a; bt_data b] = Some (tt, Some (GotOrder (Some (g a b)))).
Proof. exact bitsets_ok. Qed.
Print Assumptions C73_bitsets.

(** In terms of positions, without the model: equality holds if every place of both holds the
    same, and the order is decided at the first place that differs. *)
Theorem C73_equal : forall V (e : V -> V -> bool) clone word hash pcmp cmp bitset a b,
  exists r, (r = true <-> Forall2 (equal_at e) a b) /\
  returns (fun n => map_trait clone (fun s v w => (s, Some (e v w))) word hash pcmp cmp bitset
      "PartialEq" "eq" n tt [a; b]) (tt, Some (GotBool r)).
Proof. exact equal_ok. Qed.
Print Assumptions C73_equal.
Theorem C73_order : forall V (c : V -> V -> comparison) clone eq word hash bitset a b, List.length a = List.length b ->
  let call := map_trait clone eq word hash (fun s v w => (s, Some (Some (c v w)))) (fun s v w => (s, Some (c v w))) bitset in
  exists o, compares c a b o /\
    returns (fun n => call "Ord" "cmp" n tt [a; b]) (tt, Some (GotOrder (Some o))) /\
    returns (fun n => call "PartialOrd" "partial_cmp" n tt [a; b]) (tt, Some (GotOrder (Some o))).
Proof. exact order_ok. Qed.
Print Assumptions C73_order.
Theorem C73_set_order : forall a b, List.length a = List.length b ->
  exists o, compares bool_cmp (map flag a) (map flag b) o /\
    returns (fun n => set_trait "Ord" "cmp" n [a; b]) (tt, Some (GotOrder (Some o))) /\
    returns (fun n => set_trait "PartialOrd" "partial_cmp" n [a; b]) (tt, Some (GotOrder (Some o))).
Proof. exact set_order_ok. Qed.
Print Assumptions C73_set_order.

(** * Examples: the text is run *)
(** Users whose calls are recorded (C72). *)
Definition seen_clone : clone_fn (list nat) nat := fun s v => ((s ++ [v])%list, if Nat.eqb v 9 then None else Some v).
Definition seen_eq : eq_fn (list nat) nat := fun s v w => ((s ++ [v; w])%list, Some (Nat.eqb v w)).
Definition seen_word : hash_fn (list nat) Z := fun s z => ((s ++ [100 + Z.to_nat z])%list, false).
Definition seen_hash : hash_fn (list nat) nat := fun s v => ((s ++ [v])%list, Nat.eqb v 9).
Definition seen_trait := map_trait seen_clone seen_eq seen_word seen_hash seen_pcmp seen_cmp false.
Example C73_map_examples :
  seen_trait "Clone" "clone" 30 [] [[Some 4; None; Some 5]] = Some ([4; 5], Some (GotStorage [Some 4; None; Some 5])) /\
  seen_trait "Clone" "clone" 30 [] [[Some 4; Some 9; Some 5]] = Some ([4; 9], None) /\
  seen_trait "PartialEq" "eq" 30 [] [[Some 4; None; Some 5]; [Some 4; None; Some 6]] = Some ([4; 4; 5; 6], Some (GotBool false)) /\
  seen_trait "Hash" "hash" 30 [] [[Some 4; None; Some 5]] = Some ([103; 101; 4; 100; 101; 5], Some GotUnit) /\
  seen_trait "PartialOrd" "partial_cmp" 30 [] [[Some 4; None; Some 5]; [Some 4; Some 1; None]] = Some ([4; 4], Some (GotOrder (Some Gt))) /\
  seen_trait "Ord" "cmp" 30 [] [[Some 4; Some 3]; [Some 4; Some 5]] = Some ([4; 4; 3; 5], Some (GotOrder (Some Lt))).
Proof. unfold seen_trait. rewrite !map_trait_of. repeat split; vm_compute; reflexivity. Qed.
Example C73_set_examples :
  set_trait "Ord" "cmp" 30 [[true; true; false]; [true; false; true]] = Some (tt, Some (GotOrder (Some Lt))) /\
  bits_trait "Ord" "cmp" [3%N; 5%N] = Some (tt, Some (GotOrder (Some Lt))) /\
  bits_trait "PartialOrd" "partial_cmp" [6%N; 5%N] = Some (tt, Some (GotOrder (Some Gt))).
Proof. rewrite set_trait_of, !bits_trait_of. repeat split; vm_compute; reflexivity. Qed.
Example C73_order_example :
  List.length [Some 1; Some 2; None] = List.length [Some 1; None; Some 0] /\
  compares Nat.compare [Some 1; Some 2; None] [Some 1; None; Some 0] Lt /\
  Forall2 (equal_at Nat.eqb) [Some 1; None] [Some 1; None] /\ ~ Forall2 (equal_at Nat.eqb) [Some 1; None] [None; Some 1].
Proof.
  split; [reflexivity|]. split; [exact (proj1 C72_order_example)|]. split; [repeat constructor|].
  intros H. inversion H; subst. now cbn in *.
Qed.
(** Both kinds of enum without fields are derivable. *)
Example C73_kinds_example :
  derive_unit true (UCons (UCons UNil)) <> None /\ derive_unit false (UCons (UCons UNil)) <> None.
Proof. split; discriminate. Qed.
