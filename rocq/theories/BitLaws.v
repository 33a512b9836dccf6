(** Laws of the bitset storage of unit enums. *)
Require Import List Arith NArith ZArith Bool Lia Permutation Sorted.
Import ListNotations.
From Verif Require Import Std Traits SetStorages DeriveUnit
  DeriveAny Spec IterLaws MapCore MapLaws UnitLaws SetCore SetLaws.

(** * Bits *)

Lemma number_pow n : number n = (2 ^ N.of_nat n)%N.
Proof. unfold number. rewrite N.shiftl_1_l. reflexivity. Qed.

Lemma number_testbit n m : N.testbit (number n) (N.of_nat m) = Nat.eqb n m.
Proof.
  rewrite number_pow, N.pow2_bits_eqb. destruct (Nat.eqb_spec n m) as [->|H].
  - apply N.eqb_refl.
  - apply N.eqb_neq. lia.
Qed.

Lemma land_number d n : N.eqb (N.land d (number n)) 0 = negb (N.testbit d (N.of_nat n)).
Proof.
  destruct (N.testbit d (N.of_nat n)) eqn:E; simpl.
  - apply N.eqb_neq. intros H.
    assert (H0 : N.testbit (N.land d (number n)) (N.of_nat n) = false) by (rewrite H; apply N.bits_0).
    rewrite N.land_spec, E, number_testbit, Nat.eqb_refl in H0. discriminate.
  - apply N.eqb_eq. apply N.bits_inj_iff. intros m. rewrite N.land_spec, N.bits_0.
    rewrite <- (N2Nat.id m), number_testbit.
    destruct (Nat.eqb_spec n (N.to_nat m)) as [H|H]; [|apply andb_false_r].
    rewrite <- H, E. reflexivity.
Qed.

Lemma has_number d n : negb (N.eqb (N.land d (number n)) 0) = N.testbit d (N.of_nat n).
Proof. rewrite land_number. apply negb_involutive. Qed.

(** No bit from [n] on is set. *)
Definition below (n : nat) (d : N) : Prop := forall m, n <= m -> N.testbit d (N.of_nat m) = false.

Lemma below_inj n a b : below n a -> below n b ->
  (forall m, m < n -> N.testbit a (N.of_nat m) = N.testbit b (N.of_nat m)) -> a = b.
Proof.
  intros Ha Hb H. apply N.bits_inj_iff. intros m. rewrite <- (N2Nat.id m).
  destruct (Nat.lt_ge_cases (N.to_nat m) n) as [Hm|Hm]; auto.
  rewrite Ha, Hb by auto. reflexivity.
Qed.

Lemma below_pow n d : below n d <-> (d < 2 ^ N.of_nat n)%N.
Proof.
  split.
  - intros H. destruct (N.eq_dec d 0) as [->|Hd].
    + pose proof (N.pow_nonzero 2 (N.of_nat n)). lia.
    + apply N.log2_lt_pow2; [lia|].
      destruct (N.lt_ge_cases (N.log2 d) (N.of_nat n)) as [Hl|Hl]; auto.
      specialize (H (N.to_nat (N.log2 d))). rewrite N2Nat.id, N.bit_log2 in H by auto.
      discriminate H. lia.
  - intros H m Hm. destruct (N.eq_dec d 0) as [->|Hd]; [apply N.bits_0|].
    apply N.bits_above_log2. apply N.log2_lt_pow2 in H; lia.
Qed.

Lemma not_bits_testbit w x m : (m < w)%N -> N.testbit (not_bits w x) m = negb (N.testbit x m).
Proof.
  intros H. unfold not_bits. rewrite N.lxor_spec, N.ones_spec_low by auto.
  apply xorb_true_r.
Qed.

Lemma testbit_0_odd p : N.testbit (Npos p) 0 = N.odd (Npos p).
Proof. apply N.bit0_odd. Qed.

Lemma count_ones_double d : count_ones (N.double d) = count_ones d.
Proof. destruct d; reflexivity. Qed.

Lemma count_ones_succ_double d : count_ones (N.succ_double d) = S (count_ones d).
Proof. destruct d; reflexivity. Qed.

Lemma count_ones_spec n : forall d, below n d ->
  count_ones d = length (filter (fun m => N.testbit d (N.of_nat m)) (seq 0 n)).
Proof.
  induction n as [|n IH]; intros d H.
  - assert (d = 0%N) as ->; [|reflexivity]. apply (below_inj 0 d 0); auto.
    + intros m _. apply N.bits_0.
    + lia.
  - assert (Hd : below n (N.div2 d)).
    { intros m Hm. rewrite N.div2_spec, N.shiftr_spec by lia.
      replace (N.of_nat m + 1)%N with (N.of_nat (S m)) by lia. apply H. lia. }
    cbn [seq]. rewrite <- seq_shift. cbn [filter].
    rewrite filter_map_comm.
    assert (E : filter (fun m => N.testbit d (N.of_nat (S m))) (seq 0 n) =
                filter (fun m => N.testbit (N.div2 d) (N.of_nat m)) (seq 0 n)).
    { apply filter_ext. intros m. rewrite N.div2_spec, N.shiftr_spec by lia. f_equal. lia. }
    rewrite E. specialize (IH _ Hd).
    change (N.of_nat 0) with 0%N.
    assert (Hc : count_ones d = (if N.testbit d 0 then 1 else 0) + count_ones (N.div2 d))
      by (destruct d as [|[p|p|]]; reflexivity).
    rewrite Hc, IH. destruct (N.testbit d 0); simpl; rewrite map_length; reflexivity.
Qed.

(** * Enumerated variants *)

Lemma enumerate_from_map {A B} (g : A -> B) l : forall n,
  enumerate_from n (map g l) = map (fun e => (fst e, g (snd e))) (enumerate_from n l).
Proof. induction l; intros n; simpl; congruence. Qed.

Lemma enumerate_from_S {A} (l : list A) : forall n,
  enumerate_from (S n) l = map (fun e => (S (fst e), snd e)) (enumerate_from n l).
Proof. induction l; intros n; simpl; [reflexivity|]. rewrite IHl. reflexivity. Qed.

Lemma enumerate_variants {R} (u : units R) :
  enumerate (variants_of u) = map (fun k => (index_of u k, k)) (variants_of u).
Proof.
  induction u as [|R u IH]; simpl; [reflexivity|]. unfold enumerate in *. simpl. f_equal.
  rewrite enumerate_from_S, enumerate_from_map, IH, !map_map. reflexivity.
Qed.

Lemma variants_seq {R} (u : units R) :
  map (index_of u) (variants_of u) = seq 0 (length (variants_of u)).
Proof.
  induction u as [|R u IH]; simpl; [reflexivity|]. f_equal. rewrite map_map, map_length.
  simpl. rewrite <- map_map, IH. rewrite seq_shift. reflexivity.
Qed.

Lemma units_eqb_eq {R} (u : units R) a b : ks_eqb (units_spec u) a b = true <-> a = b.
Proof.
  revert a b. induction u as [|R u IH]; intros a b; [destruct a|].
  destruct a as [[]|a], b as [[]|b]; simpl.
  - split; auto.
  - split; discriminate.
  - split; discriminate.
  - rewrite IH. split; congruence.
Qed.

(** * Retain *)

Section Retain.
  Context {R : Type} (u : units R).

  Lemma bit_retain_spec {X} (f : set_retain_fn X R) d l : forall x upd, NoDup l ->
    exists x' l' oc,
      retain_elems f x (filter (fun k => N.testbit d (N.of_nat (index_of u k))) l) =
        (x', l', oc) /\
      exists d', bit_retain f d (map (fun k => (index_of u k, k)) l) x upd = (x', d', oc) /\
      match oc with
      | Done => forall k,
          N.testbit d' (N.of_nat (index_of u k)) = true <->
          N.testbit upd (N.of_nat (index_of u k)) = true \/ In k l'
      | Unwound => d' = d
      end /\
      (oc = Done -> forall n, below n upd -> (forall k, In k l -> index_of u k < n) -> below n d').
  Proof.
    induction l as [|k l IH]; intros x upd Hn; simpl.
    - do 3 eexists. split; [reflexivity|]. eexists. split; [reflexivity|]. simpl. split.
      + intros k. tauto.
      + auto.
    - inversion Hn as [|? ? Hk Hn']; subst. rewrite has_number.
      destruct (N.testbit d (N.of_nat (index_of u k))) eqn:E; simpl.
      + destruct (f x k) as [x1 []].
        * destruct (IH x1 (N.lor upd (number (index_of u k))) Hn')
            as (x' & l' & oc & E1 & d' & E2 & H3 & H4).
          rewrite E1, E2. do 3 eexists. split; [reflexivity|]. eexists. split; [reflexivity|].
          split.
          -- destruct oc; auto. intros k'. rewrite H3, N.lor_spec, number_testbit, orb_true_iff.
             simpl. rewrite Nat.eqb_eq. split.
             ++ intros [[H|H]|H]; auto. apply index_of_inj in H. auto.
             ++ intros [H|[->|H]]; auto.
          -- intros -> n Hb Hl. apply (H4 eq_refl); auto.
             intros m Hm. rewrite N.lor_spec, number_testbit, (Hb m Hm). simpl.
             apply Nat.eqb_neq. specialize (Hl k (or_introl eq_refl)). lia.
        * destruct (IH x1 upd Hn') as (x' & l' & oc & E1 & d' & E2 & H3 & H4).
          do 3 eexists. split; [exact E1|]. eexists. split; [exact E2|]. split; auto.
        * do 3 eexists. split; [reflexivity|]. eexists. split; [reflexivity|]. simpl.
          split; [auto|discriminate].
        * destruct (IH x1 upd Hn') as (x' & l' & oc & E1 & d' & E2 & H3 & H4).
          do 3 eexists. split; [exact E1|]. eexists. split; [exact E2|]. split; auto.
      + destruct (IH x upd Hn') as (x' & l' & oc & E1 & d' & E2 & H3 & H4).
        do 3 eexists. split; [exact E1|]. eexists. split; [exact E2|]. split; auto.
  Qed.

  (** A retained list is determined by its elements. *)
  Lemma retain_elems_filter {X} (f : set_retain_fn X R) p l : forall x x' l' oc, NoDup l ->
    retain_elems f x (filter p l) = (x', l', oc) ->
    forall q, (forall k, q k = true <-> In k l') -> filter q l = l'.
  Proof.
    assert (H0 : forall l q, (forall k : R, In k l -> q k = false) -> filter q l = []).
    { induction l0 as [|y l0 IH]; simpl; intros q H; auto. rewrite (H y) by auto. auto. }
    assert (H1 : forall p l q, NoDup l -> (forall k : R, In k l -> q k = true <-> In k (filter p l)) ->
               filter q l = filter p l).
    { intros p0 l0 q Hn H. apply filter_ext_in. intros k Hk. specialize (H k Hk).
      rewrite filter_In in H. destruct (q k), (p0 k); intuition congruence. }
    induction l as [|k l IH]; intros x x' l' oc Hn; simpl.
    - intros [= <- <- <-]. reflexivity.
    - inversion Hn as [|? ? Hk Hn']; subst. destruct (p k) eqn:Ep; simpl.
      + destruct (f x k) as [x1 []].
        * destruct (retain_elems f x1 (filter p l)) as [[x2 l2] o2] eqn:E.
          intros [= <- <- <-] q Hq. rewrite (proj2 (Hq k)) by (simpl; auto). f_equal.
          assert (Hk2 : ~ In k l2).
          { intros Hin. apply (retain_elems_incl _ _ _ _ _ _ E) in Hin.
            apply filter_In in Hin as [Hin _]. auto. }
          rewrite <- (IH _ _ _ _ Hn' E (fun y => q y && negb (ks_eqb (units_spec u) k y))).
          -- apply filter_ext_in. intros y Hy.
             destruct (ks_eqb (units_spec u) k y) eqn:Ek; simpl; [|rewrite andb_true_r; auto].
             apply units_eqb_eq in Ek. subst. contradiction.
          -- intros y. rewrite andb_true_iff, Hq. simpl.
             destruct (ks_eqb (units_spec u) k y) eqn:Ek; simpl.
             ++ apply units_eqb_eq in Ek. subst. split; [intros [_ [=]]|tauto].
             ++ split; [|auto]. intros [[->|Hy] _]; auto.
                rewrite (proj2 (units_eqb_eq u y y) eq_refl) in Ek. discriminate.
        * intros E q Hq. destruct (q k) eqn:Eq; [|eauto].
          apply Hq in Eq. apply (retain_elems_incl _ _ _ _ _ _ E) in Eq.
          apply filter_In in Eq as [Hin _]. contradiction.
        * intros [= <- <- <-] q Hq. rewrite (proj2 (Hq k)) by (simpl; auto). f_equal.
          apply H1; auto. intros y Hy. rewrite Hq. simpl. split; auto.
          intros [<-|Hin]; auto. contradiction.
        * intros E q Hq. destruct (q k) eqn:Eq; [|eauto].
          apply Hq in Eq. apply (retain_elems_incl _ _ _ _ _ _ E) in Eq.
          apply filter_In in Eq as [Hin _]. contradiction.
      + intros E q Hq. destruct (q k) eqn:Eq; [|eauto].
        apply Hq in Eq. apply (retain_elems_incl _ _ _ _ _ _ E) in Eq.
        apply filter_In in Eq as [Hin _]. contradiction.
  Qed.
End Retain.

(** * The storage *)

Section Bit.
  Context {R : Type} (u : units R) (width : N).
  Hypothesis Hw : (N.of_nat (length (variants_of u)) <= width)%N.

  Local Notation m := (bit_set_storage u width).
  Local Notation count := (length (variants_of u)).
  Local Notation bit st k := (N.testbit (bt_data st) (N.of_nat (index_of u k))).

  Definition bt_abs (st : bit_set) : list R :=
    filter (fun k => bit st k) (variants_of u).

  Lemma bt_contains_bit st k : bt_contains u st k = bit st k.
  Proof. unfold bt_contains, bt_to_bits. apply has_number. Qed.

  Lemma in_bt_abs st k : In k (bt_abs st) <-> bit st k = true.
  Proof.
    unfold bt_abs. rewrite filter_In. split; [tauto|]. split; auto. apply variants_all.
  Qed.

  Lemma bt_eq_bits a b : below count (bt_data a) -> below count (bt_data b) ->
    (forall k, bit a k = bit b k) -> bt_data a = bt_data b.
  Proof.
    intros Ha Hb H. apply (below_inj count); auto. intros i Hi.
    assert (Hin : In i (map (index_of u) (variants_of u))).
    { rewrite variants_seq. apply in_seq. lia. }
    apply in_map_iff in Hin as (k & <- & _). apply H.
  Qed.

  Lemma bt_abs_0 : bt_abs (MkBitSet 0) = [].
  Proof.
    clear Hw. unfold bt_abs. induction (variants_of u) as [|y l IH]; cbn [filter bt_data]; auto.
  Qed.

  Definition bit_score : SCore (units_spec u) (sops_of m).
  Proof.
    refine {| sc_inv := (fun st => below count (bt_data st)) : ss_St m -> Prop;
              sc_abs := bt_abs : ss_St m -> list R;
              sc_vis := bt_abs : ss_St m -> list R;
              sc_late := fun _ _ => true |}.
    - intros _ k _. apply units_leaf.
    - apply units_eqb_eq.
    - intros st _. apply NoDup_filter, variants_nodup.
    - intros st _. apply filter_sorted, variants_sorted.
    - intros st _. apply NoDup_filter, variants_nodup.
    - intros st _. apply filter_sorted, variants_sorted.
    - intros st k _. rewrite units_leaf. intuition discriminate.
    - intros st _. simpl. unfold bt_abs. etransitivity; [|apply filter_idem].
      apply filter_ext. intros k. apply bt_contains_bit.
    - intros st Hi. simpl in *. rewrite (count_ones_spec count) by auto.
      rewrite <- variants_seq, filter_map_comm, map_length. reflexivity.
    - intros st k _. simpl. rewrite bt_contains_bit, in_bt_abs. tauto.
    - intros st Hi. simpl in *. rewrite N.eqb_eq. split.
      + intros E k. rewrite units_leaf, bt_contains_bit, E, N.bits_0. split; discriminate.
      + intros H. apply (bt_eq_bits st (MkBitSet 0)); auto.
        * intros i _. apply N.bits_0.
        * intros k. rewrite N.bits_0. specialize (H k). rewrite bt_contains_bit, units_leaf in H.
          destruct (bit st k); auto. destruct H as [H _]. discriminate (H eq_refl).
    - intros st k Hi. rewrite units_leaf. simpl. rewrite bt_contains_bit.
      eexists. split; [unfold bt_insert; simpl; unfold bt_to_bits; rewrite land_number; reflexivity|].
      split.
      + intros i Hm. simpl. rewrite N.lor_spec, number_testbit.
        simpl in Hi. rewrite (Hi i Hm). simpl. apply Nat.eqb_neq.
        pose proof (index_of_lt u k). lia.
      + assert (Hb : forall x, N.testbit (N.lor (bt_data st) (number (index_of u k)))
                       (N.of_nat (index_of u x)) = bit st x || Nat.eqb (index_of u k) (index_of u x)).
        { intros x. rewrite N.lor_spec, number_testbit. reflexivity. }
        destruct (bit st k) eqn:E.
        * unfold bt_abs. apply filter_ext. intros x. simpl. rewrite Hb.
          destruct (Nat.eqb_spec (index_of u k) (index_of u x)) as [Ex|]; [|apply orb_false_r].
          apply index_of_inj in Ex. subst. rewrite E. reflexivity.
        * apply NoDup_Permutation.
          -- apply NoDup_filter, variants_nodup.
          -- constructor; [|apply NoDup_filter, variants_nodup].
             rewrite in_bt_abs. congruence.
          -- intros x. simpl. rewrite !in_bt_abs. simpl. rewrite Hb, orb_true_iff, Nat.eqb_eq.
             split; [intros [H|H]; auto; apply index_of_inj in H; auto|].
             intros [->|H]; auto.
    - intros st k Hi. rewrite units_sib. simpl. rewrite orb_false_r, bt_contains_bit.
      eexists. split; [unfold bt_remove; simpl; unfold bt_to_bits; rewrite has_number; reflexivity|].
      assert (Hb : forall x, N.testbit (N.land (bt_data st) (not_bits width (number (index_of u k))))
                     (N.of_nat (index_of u x)) =
                     bit st x && negb (Nat.eqb (index_of u k) (index_of u x))).
      { intros x. rewrite N.land_spec, not_bits_testbit, number_testbit; auto.
        pose proof (index_of_lt u x). lia. }
      split.
      + intros i Hm. simpl. rewrite N.land_spec. simpl in Hi. rewrite (Hi i Hm). reflexivity.
      + unfold bt_abs. simpl.
        assert (Hf : forall (p q : R -> bool) l, filter p (filter q l) = filter (fun x => q x && p x) l).
        { intros p q l. induction l as [|y l IH]; simpl; auto.
          destruct (q y) eqn:Eq; simpl; [destruct (p y)|]; rewrite ?IH; reflexivity. }
        rewrite Hf. apply filter_ext. intros x. rewrite Hb. f_equal. f_equal.
        destruct (Nat.eqb_spec (index_of u k) (index_of u x)) as [Ex|Ex].
        * apply index_of_inj in Ex. subst. symmetry. apply units_eqb_eq. reflexivity.
        * destruct (ks_eqb (units_spec u) k x) eqn:Ek; auto.
          apply units_eqb_eq in Ek. congruence.
    - intros X f x st Hi. simpl in *.
      destruct (bit_retain_spec u f (bt_data st) (variants_of u) x 0 (variants_nodup u))
        as (x' & l' & oc & E1 & d' & E2 & H3 & H4).
      destruct (undo_all f (fun k => N.testbit (bt_data st) (N.of_nat (index_of u k))) _ _ _ _ _ E1)
        as (w & Ew & U); [intros k Hk; now apply filter_In in Hk|].
      exists x', (MkBitSet d'), w. unfold bt_retain. rewrite enumerate_variants, E2, Ew.
      split; [reflexivity|]. simpl. split.
      + destruct oc; [|subst; auto]. apply (H4 eq_refl).
        * intros i _. apply N.bits_0.
        * intros k _. apply index_of_lt.
      + rewrite (undo_has _ _ _ _ (bt_contains_bit st)). refine (eq_trans U _). f_equal. f_equal. destruct oc.
        * symmetry. unfold bt_abs. simpl. eapply (retain_elems_filter u); [apply variants_nodup|exact E1|].
          intros k. rewrite H3, N.bits_0. intuition discriminate.
        * subst. destruct st. reflexivity.
    - intros st _. simpl. split.
      + intros i _. apply N.bits_0.
      + apply bt_abs_0.
    - reflexivity.
    - intros a b Ha Hb. simpl in *. rewrite N.eqb_eq. split.
      + intros E k. rewrite !bt_contains_bit, E. reflexivity.
      + intros H. apply bt_eq_bits; auto. intros k. rewrite <- !bt_contains_bit. auto.
  Defined.

  Lemma bt_iter_rem st : flatten_rem (bt_iter u st) = bt_abs st.
  Proof.
    unfold bt_iter. rewrite flatten_of_rem, enumerate_variants, map_map. simpl.
    apply filter_cat. intros k. rewrite has_number. reflexivity.
  Qed.

  Definition bit_slaws : SetLaws (units_spec u) m.
  Proof.
    refine {| sl_core := bit_score;
              sl_Iter := flatten_laws _ : it_laws (ss_Iter m);
              sl_IntoIter := flatten_laws _ : it_laws (ss_IntoIter m) |}.
    - intros w. split; [intros i _; apply N.bits_0|].
      simpl. apply bt_abs_0.
    - intros st _. split; [exact I|apply bt_iter_rem].
    - intros st _. split; [exact I|apply bt_iter_rem].
  Defined.
End Bit.

Lemma determine_bits_le n w : determine_bits n = Some w -> (n <= w)%N.
Proof.
  unfold determine_bits.
  repeat match goal with |- context [N.leb ?a ?b] => destruct (N.leb_spec a b) end;
    intros [= <-]; auto.
Qed.
