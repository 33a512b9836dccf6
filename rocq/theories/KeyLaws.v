(** The laws of the storages chosen for every key type. *)
Require Import List Arith NArith ZArith Bool Lia Permutation Sorted.
Import ListNotations.
From Verif Require Import Std Traits Hashbrown MapStorages SetStorages DeriveUnit DeriveAny
  Key Spec IterLaws MapCore MapLaws OptLaws HashLaws UnitLaws AnyLaws SetCore SetLaws
  BitLaws AnySetLaws.

(** * The specification of a key type *)

Fixpoint key_spec (t : kty) : KeySpec (key t) :=
  match t return KeySpec (key t) with
  | KBool => bool_spec
  | KUnit => unit_spec
  | KPrim p => hash_spec (prim_eqb p)
  | KOption t => opt_spec (key_spec t)
  | KEnum _ vs => keys_spec vs
  end
with keys_spec (vs : variants) : KeySpec (keys vs) :=
  match vs return KeySpec (keys vs) with
  | VNil => nil_spec
  | VUnit r => sum_spec cell_spec (keys_spec r)
  | VTuple t r => sum_spec (key_spec t) (keys_spec r)
  end.

Scheme kty_ind' := Induction for kty Sort Prop
  with variants_ind' := Induction for variants Sort Prop.
Scheme kty_rec' := Induction for kty Sort Type
  with variants_rec' := Induction for variants Sort Type.
Combined Scheme kty_mut from kty_ind', variants_ind'.

Lemma spec_before :
  (forall t a b, ks_before (key_spec t) a b <-> key_before t a b) /\
  (forall vs a b, ks_before (keys_spec vs) a b <-> keys_before vs a b).
Proof.
  apply kty_mut.
  - intros a b. reflexivity.
  - intros a b. reflexivity.
  - intros p a b. reflexivity.
  - intros t IH [a|] [b|]; simpl; auto; reflexivity.
  - intros bs vs IH a b. apply IH.
  - intros a b. reflexivity.
  - intros r IH [a|a] [b|b]; simpl; auto; reflexivity.
  - intros t IHt r IHr [a|a] [b|b]; simpl; auto; reflexivity.
Qed.

Lemma spec_leaf :
  (forall t k, ks_leaf (key_spec t) k = leaf_of t k) /\
  (forall vs k, ks_leaf (keys_spec vs) k = leaves_of vs k).
Proof.
  apply kty_mut; auto.
  - intros t IH [a|]; simpl; auto.
  - intros r IH [a|a]; simpl; auto.
  - intros t IHt r IHr [a|a]; simpl; auto.
Qed.

Lemma spec_sib :
  (forall t k, ks_sib (key_spec t) k = sibling t k) /\
  (forall vs k, ks_sib (keys_spec vs) k = siblings vs k).
Proof.
  apply kty_mut; auto.
  - intros t IH [a|]; simpl; auto. rewrite IH. reflexivity.
  - intros r IH [a|a]; simpl; auto. rewrite IH. reflexivity.
  - intros t IHt r IHr [a|a]; simpl; [rewrite IHt|rewrite IHr]; reflexivity.
Qed.

Lemma seq_eqb_eq a : forall b, seq_eqb a b = true <-> a = b.
Proof.
  induction a as [|x a IH]; intros [|y b]; simpl; try (split; congruence).
  rewrite andb_true_iff, Z.eqb_eq, IH. split; [intros [-> ->]; auto|]. intros [= -> ->]. auto.
Qed.

Lemma prim_eqb_eq p a b : prim_eqb p a b = true <-> a = b.
Proof. destruct p; simpl in *; first [apply Z.eqb_eq|apply seq_eqb_eq]. Qed.

Lemma as_units_spec vs : forall u, as_units vs = Some u -> units_spec u = keys_spec vs.
Proof.
  induction vs as [|vs IH|t vs IH]; simpl; intros u.
  - intros [= <-]. reflexivity.
  - destruct (as_units vs) as [u'|]; simpl; [|discriminate]. intros [= <-]. simpl.
    rewrite (IH u' eq_refl). reflexivity.
  - discriminate.
Qed.

(** * The laws *)

Record KLaws {K} (ki : KeyImpl K) : Type := MkKLaws {
  kl_spec : KeySpec K;
  kl_map : forall V, MapLaws kl_spec (ki_map ki V);
  kl_set : SetLaws kl_spec (ki_set ki)
}.
Arguments MkKLaws {K ki}.
Arguments kl_spec {K ki}.
Arguments kl_map {K ki}.
Arguments kl_set {K ki}.

(** The elements a failed retain forgets to take out, for each storage. *)

Definition late_of {T} {sp : KeySpec T} {m : SetStorage T} (L : SetLaws sp m) : T -> T -> bool :=
  sc_late (sl_core L).

Lemma unit_late {R} (u : units R) : forall a b, sc_late (unit_score u) a b = false.
Proof. induction u as [|R u IH]; [intros []|]. intros [a|a] [b|b]; simpl; auto. Qed.

Lemma as_units_all vs : forall u, as_units vs = Some u -> all_units vs = true.
Proof.
  induction vs as [|vs IH|t vs IH]; simpl; intros u; auto; [|discriminate].
  destruct (as_units vs) as [u'|]; simpl; [|discriminate]. intros _. now apply (IH u').
Qed.

Lemma as_units_none vs : as_units vs = None -> all_units vs = false.
Proof.
  induction vs as [|vs IH|t vs IH]; simpl; auto; [discriminate|].
  destruct (as_units vs) as [u'|]; simpl; [discriminate|]. auto.
Qed.

Definition derive_unit_laws {R} bitset (u : units R) ki :
  derive_unit bitset u = Some ki ->
  { L : KLaws ki | kl_spec L = units_spec u /\ forall a b, late_of (kl_set L) a b = bitset }.
Proof.
  unfold derive_unit. destruct bitset; intros E.
  - destruct (determine_bits (N.of_nat (length (variants_of u)))) as [w|] eqn:Ew; [|discriminate].
    simpl in E. apply determine_bits_le in Ew.
    assert (E' : MkKeyImpl (unit_map_storage u) (bit_set_storage u w) = ki) by congruence.
    subst ki. exists (MkKLaws (ki := MkKeyImpl _ _) (units_spec u) (fun V => unit_laws u) (bit_slaws u w Ew)).
    split; reflexivity.
  - assert (E' : MkKeyImpl (unit_map_storage u) (unit_set_storage u) = ki) by congruence.
    subst ki. exists (MkKLaws (ki := MkKeyImpl _ _) (units_spec u) (fun V => unit_laws u) (unit_slaws u)).
    split; [reflexivity|]. intros a b. exact (unit_late u a b).
Defined.

Lemma option_map_inv {A B} (f : A -> B) o y :
  option_map f o = Some y -> { x | o = Some x /\ y = f x }.
Proof. destruct o as [x|]; simpl; [|discriminate]. intros H. exists x. split; congruence. Defined.

Definition klspec K (ki : KeyImpl K) (L : KLaws ki) : KeySpec K := kl_spec L.

Definition fields_late {R} (fs : fields R) (L : flaws (fun K ki => KLaws ki) fs) : R -> R -> bool :=
  sc_late (any_score klspec (fun K ki p => kl_set p) fs L).

Definition fields_laws (vs : variants) : Type := forall fs, derive_fields vs = Some fs ->
  { L : flaws (fun K ki => KLaws ki) fs |
    fspec klspec fs L = keys_spec vs /\ forall a b, fields_late fs L a b = in_one_bitset vs a b }.

Definition derive_laws : forall t ki, derive t = Some ki ->
  { L : KLaws ki | kl_spec L = key_spec t /\ forall a b, late_of (kl_set L) a b = one_bitset t a b }.
Proof.
  apply (kty_rec' (fun t => forall ki, derive t = Some ki ->
           { L : KLaws ki | kl_spec L = key_spec t /\ forall a b, late_of (kl_set L) a b = one_bitset t a b })
                  fields_laws).
  - intros ki [= <-].
    exists (MkKLaws (ki := MkKeyImpl bool_map_storage bool_set_storage) bool_spec bool_laws bool_slaws).
    split; reflexivity.
  - intros ki [= <-].
    exists (MkKLaws (ki := MkKeyImpl single_map_storage single_set_storage) unit_spec single_laws single_slaws).
    split; reflexivity.
  - intros p ki [= <-].
    exists (MkKLaws (ki := MkKeyImpl _ _) (hash_spec (prim_eqb p)) (fun V => hash_laws_ _ (prim_eqb_eq p))
              (hash_slaws _ (prim_eqb_eq p))).
    split; reflexivity.
  - intros t IH ki E. apply option_map_inv in E as (ki' & E & ->).
    destruct (IH ki' E) as [L [HL HT]].
    exists (MkKLaws (ki := MkKeyImpl _ _) (opt_spec (kl_spec L)) (fun V => opt_laws_ _ _ (kl_map L V))
              (opt_slaws _ _ (kl_set L))).
    split.
    + change (opt_spec (kl_spec L) = opt_spec (key_spec t)). rewrite HL. reflexivity.
    + intros [a|] [b|]; try reflexivity. exact (HT a b).
  - intros bitset vs IH ki E. simpl in E. destruct (as_units vs) as [u|] eqn:Eu.
    + destruct (derive_unit_laws _ _ _ E) as [L [HL HT]]. exists L. split.
      * etransitivity; [exact HL|]. apply as_units_spec. exact Eu.
      * intros a b. simpl. rewrite (as_units_all _ _ Eu). exact (HT a b).
    + apply option_map_inv in E as (fs & E & ->). destruct (IH fs E) as [L [HL HT]].
      exists (MkKLaws (ki := derive_any fs) (fspec klspec fs L)
                (fun V => any_laws klspec V (fun K ki p => kl_map p V) fs L)
                (any_slaws klspec (fun K ki p => kl_set p) fs L)).
      split; [exact HL|]. intros a b. simpl. rewrite (as_units_none _ Eu). exact (HT a b).
  - intros fs [= <-]. exists tt. split; [reflexivity|]. intros [].
  - intros r IH fs E. apply option_map_inv in E as (fs' & E & ->).
    destruct (IH fs' E) as [L [HL HT]]. exists L. split.
    + simpl. rewrite HL. reflexivity.
    + intros [a|a] [b|b]; try reflexivity. exact (HT a b).
  - intros t IHt r IHr fs E. simpl in E.
    destruct (derive t) as [ki|] eqn:Et; [|discriminate].
    destruct (derive_fields r) as [fs'|] eqn:Er; [|discriminate].
    injection E as <-. destruct (IHt ki eq_refl) as [Lt [HLt HTt]]. destruct (IHr fs' Er) as [Lr [HLr HTr]].
    exists (Lt, Lr). split.
    + simpl. rewrite HLr. unfold klspec. simpl. rewrite HLt. reflexivity.
    + intros [a|a] [b|b]; try reflexivity; [exact (HTt a b)|exact (HTr a b)].
Defined.

Definition derive_map_laws t ki V : derive t = Some ki -> MapLaws (key_spec t) (ki_map ki V).
Proof.
  intros E. destruct (derive_laws t ki E) as [L [HL _]]. rewrite <- HL. exact (kl_map L V).
Defined.

Definition derive_set_laws t ki : derive t = Some ki -> SetLaws (key_spec t) (ki_set ki).
Proof.
  intros E. destruct (derive_laws t ki E) as [L [HL _]]. rewrite <- HL. exact (kl_set L).
Defined.

Lemma derive_late t ki E a b : late_of (derive_set_laws t ki E) a b = one_bitset t a b.
Proof.
  unfold derive_set_laws. destruct (derive_laws t ki E) as [L [HL HT]]. rewrite <- HT.
  now destruct HL.
Qed.
