(** The code read from the text of the derive macro is the code of AnyCode.v and
    UnitCode.v, for every enum. *)
Require Import List Arith NArith Bool String Ascii Lia.
Import ListNotations.
From Verif Require Import DeriveUnit Names Rust UnitCode AnyCode DeriveText DeriveQuote
  DeriveRead DeriveInst DeriveCode DeriveItems.
Open Scope string_scope.

Lemma all_some_app : forall A (l r : list A),
  all_some (List.map Some l ++ List.map Some r) = Some (l ++ r)%list.
Proof.
  induction l; simpl; intros; [induction r; simpl; [reflexivity | rewrite IHr; reflexivity] |].
  rewrite IHl. reflexivity.
Qed.

Lemma gather_each : forall T A (a : nat -> string -> A) (b : nat -> string -> T -> A)
  (flds : vfields T) k,
  gather (each (fun i n => [Some (a i n)]) (fun i n t => [Some (b i n t)]) k flds)
  = Some (each a b k flds).
Proof.
  unfold gather. induction flds as [| [x [t |]] r IH]; intros; simpl; [reflexivity | |];
  rewrite IH; reflexivity.
Qed.

Lemma gather_tuple : forall T A (b : nat -> string -> T -> A) (flds : vfields T) k,
  gather (each (fun _ _ => []) (fun i n t => [Some (b i n t)]) k flds)
  = Some (List.concat (each (fun _ _ => []) (fun i n t => [b i n t]) k flds)).
Proof.
  unfold gather. induction flds as [| [x [t |]] r IH]; intros; simpl; [reflexivity | |].
  - rewrite IH. reflexivity.
  - apply IH.
Qed.

Lemma map_seq_each : forall T A (g : string -> A) (flds : vfields T) k,
  List.map g (List.map field_name (List.seq k (List.length flds)))
  = each (fun i _ => g (field_name i)) (fun i _ _ => g (field_name i)) k flds.
Proof.
  induction flds as [| [x [t |]] r IH]; intros; simpl; [reflexivity | |]; rewrite IH; reflexivity.
Qed.
Lemma map_anames : forall T A (g : string -> A) (flds : vfields T),
  List.map g (anames flds)
  = each (fun i _ => g (field_name i)) (fun i _ _ => g (field_name i)) 0 flds.
Proof. intros. unfold anames, field_names. apply map_seq_each. Qed.
Lemma anames_each : forall T (flds : vfields T),
  anames flds = each (fun i _ => field_name i) (fun i _ _ => field_name i) 0 flds.
Proof. intros. rewrite <- (List.map_id (anames flds)). apply map_anames. Qed.

(** A piece for each of the names of unit variants. *)
Fixpoint by_name {A} (a : nat -> string -> A) (k : nat) (vs : list string) : list A :=
  match vs with
  | [] => []
  | x :: r => a k x :: by_name a (S k) r
  end.

Lemma gather_names : forall A (a : nat -> string -> A) c vs k,
  gather (each (fun i n => [Some (a i n)]) c k (unit_flds vs)) = Some (by_name a k vs).
Proof.
  unfold gather, unit_flds. induction vs; intros; simpl; [reflexivity |].
  rewrite IHvs. reflexivity.
Qed.
Lemma map_combine_names : forall A (g : string * string -> A) vs,
  List.map g (List.combine vs (names vs)) = by_name (fun i n => g (n, field_name i)) 0 vs.
Proof.
  intros. unfold names, field_names. generalize 0.
  induction vs; intros; simpl; [reflexivity |]. rewrite IHvs. reflexivity.
Qed.
Lemma map_combine_numbers : forall A (g : string * N -> A) vs,
  List.map g (List.combine vs (numbers vs)) = by_name (fun i n => g (n, DeriveUnit.number i)) 0 vs.
Proof.
  intros. unfold numbers. generalize 0.
  induction vs; intros; simpl; [reflexivity |]. rewrite IHvs. reflexivity.
Qed.
Lemma map_names : forall A (g : string -> A) vs,
  List.map g (names vs) = by_name (fun i _ => g (field_name i)) 0 vs.
Proof.
  intros. unfold names, field_names. generalize 0.
  induction vs; intros; simpl; [reflexivity |]. rewrite IHvs. reflexivity.
Qed.
Lemma names_by_name : forall vs, names vs = by_name (fun i _ => field_name i) 0 vs.
Proof. intros. rewrite <- (List.map_id (names vs)). apply map_names. Qed.
Lemma map_by_name : forall A (g : string -> A) vs k,
  List.map g vs = by_name (fun _ n => g n) k vs.
Proof. induction vs; intros; simpl; [reflexivity |]. rewrite (IHvs (S k)). reflexivity. Qed.

Ltac compute_text :=
  cbv -[gather each field_name DeriveUnit.number unit_flds xs_of arms_of seq_of fold_left
        any_set_code any_map_code any_entry_code iter_code
        map_code set_code bitset_code entry_code];
  repeat (first [rewrite gather_names | rewrite gather_each | rewrite gather_tuple];
          cbv beta iota);
  f_equal;
  unfold any_map_code, any_set_code, any_entry_code, iter_code, eq_fn_code, clone_fn_code,
    start_iter, map_code, set_code, bitset_code, let_names, match_key;
  rewrite ?map_anames, ?anames_each, ?map_combine_names, ?map_combine_numbers, ?map_names,
    ?names_by_name;
  try match goal with vs : list string |- _ =>
        rewrite ?(fun A g => map_by_name A g vs 0)
      end;
  try reflexivity.

Lemma map_ok : forall T (flds : vfields T),
  storage_code (@Some (meth T)) flds any_its None ["option_to_entry"] "MapStorage"
    [("PartialEq", ["eq"]); ("Clone", ["clone"]); ("MapStorage", map_fns)]
  = Some (any_map_code flds).
Proof. intros. compute_text. Qed.
Lemma set_ok : forall T (flds : vfields T),
  storage_code (@Some (meth T)) flds any_its None [] "SetStorage"
    [("PartialEq", ["eq"]); ("Clone", ["clone"]); ("SetStorage", set_fns)]
  = Some (any_set_code flds).
Proof. intros. compute_text. Qed.
Lemma entry_ok : forall T (flds : vfields T),
  entry_code_of (@Some (meth T)) flds any_its true = Some (any_entry_code flds).
Proof. intros. compute_text. Qed.
Lemma iter_ok : forall T q (flds : vfields T),
  iterator_code (@Some (meth T)) flds any_its q = Some (iter_code q flds).
Proof. intros. destruct q; compute_text. Qed.

Lemma unit_map_ok : forall vs,
  storage_code (fun _ : meth Empty_set => @None Empty_set) (unit_flds vs) unit_its None
    ["option_to_entry"] "MapStorage" [("MapStorage", unit_map_fns)] = Some (map_code vs).
Proof. intros. compute_text. Qed.
Lemma unit_set_ok : forall vs,
  storage_code (fun _ : meth Empty_set => @None Empty_set) (unit_flds vs) unit_its None
    [] "SetStorage" [("SetStorage", unit_set_fns)] = Some (set_code vs).
Proof. intros. compute_text. Qed.
Lemma unit_entry_ok : forall vs,
  entry_code_of (fun _ : meth Empty_set => @None Empty_set) (unit_flds vs) unit_its false
  = Some entry_code.
Proof. intros. compute_text. Qed.
Lemma bitset_map_ok : forall vs,
  storage_code (fun _ : meth Empty_set => @None Empty_set) (unit_flds vs) bitset_its None
    ["option_to_entry"] "MapStorage" [("MapStorage", unit_map_fns)] = Some (map_code vs).
Proof. intros. compute_text. Qed.
Lemma bitset_set_ok : forall w vs,
  storage_code (fun _ : meth Empty_set => @None Empty_set) (unit_flds vs) bitset_its (Some w)
    ["to_bits"] "SetStorage"
    [("SetStorage", unit_set_fns); ("RawStorage", ["as_raw"; "from_raw"])]
  = Some (bitset_code w vs).
Proof. intros. compute_text. Qed.
Lemma bitset_entry_ok : forall vs,
  entry_code_of (fun _ : meth Empty_set => @None Empty_set) (unit_flds vs) bitset_its false
  = Some entry_code.
Proof. intros. compute_text. Qed.

Lemma bits_ok : forall n, bits_of bit_ranges n = determine_bits n.
Proof.
  intros. unfold bits_of, bit_ranges, determine_bits.
  repeat match goal with |- context [N.leb ?a ?b] => destruct (N.leb_spec a b) end;
  simpl; try reflexivity; lia.
Qed.

Theorem any_text_is : forall T (flds : vfields T),
  any_text flds
  = Some (MkGenerated (any_map_code flds) (any_set_code flds) (any_entry_code flds)).
Proof.
  intros. unfold any_text. rewrite any_items. unfold then_, any_code.
  rewrite map_ok, set_ok, entry_ok. reflexivity.
Qed.
Theorem iterator_text_is : forall T q (flds : vfields T),
  iterator_text q flds = Some (iter_code q flds).
Proof. intros. unfold iterator_text. rewrite any_items. unfold then_. apply iter_ok. Qed.
Theorem unit_text_is : forall bitset vs,
  unit_text bitset vs
  = option_map (fun c => MkGenerated (fst c) (snd c) entry_code) (unit_code bitset vs).
Proof.
  assert (R : forall b (f : list (N * N * N) -> option (generated Empty_set)),
    then_ (macro_file b true) (fun F => f (bits_arms F)) = f bit_ranges).
  { intros. assert (H : ranges b = Some bit_ranges)
      by (destruct b; [| rewrite ranges_false]; apply ranges_true).
    revert H. unfold ranges. generalize (macro_file b true). intros [F |]; simpl; congruence. }
  intros. unfold unit_text.
  rewrite (R bitset (fun l => then_ (macro_items bitset true)
                                (fun its => unit_items_code bitset l vs its))).
  destruct bitset; [rewrite bitset_items | rewrite unit_items]; unfold then_, unit_items_code, unit_code.
  - rewrite bits_ok. destruct (determine_bits _) as [w |]; cbv beta iota zeta delta [option_map].
    + rewrite bitset_map_ok, bitset_set_ok, bitset_entry_ok. reflexivity.
    + rewrite bitset_map_ok. reflexivity.
  - cbv beta iota zeta. rewrite unit_map_ok, unit_set_ok, unit_entry_ok. reflexivity.
Qed.
