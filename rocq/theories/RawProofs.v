(** Proofs about the raw integers of bitsets. *)
Require Import List Arith NArith ZArith Bool Lia Permutation.
Import ListNotations.
From Verif Require Import Std Traits SetStorages DeriveUnit Key Api Spec Reach SetHistory
  OrdSpec IterLaws IterFacts MapCore MapLaws UnitLaws BitLaws SetCore SetLaws KeyLaws SetFacts
  SetProofs OrdProofs Samples.

Lemma determine_bits_spec n w : determine_bits n = Some w ->
  In w [8; 16; 32; 64; 128]%N /\ (n <= w)%N /\
  forall w', In w' [8; 16; 32; 64; 128]%N -> (n <= w')%N -> (w <= w')%N.
Proof.
  unfold determine_bits. simpl.
  destruct (N.leb_spec n 8); [intros [= <-]; intuition lia|].
  destruct (N.leb_spec n 16); [intros [= <-]; intuition lia|].
  destruct (N.leb_spec n 32); [intros [= <-]; intuition lia|].
  destruct (N.leb_spec n 64); [intros [= <-]; intuition lia|].
  destruct (N.leb_spec n 128); [intros [= <-]; intuition lia|discriminate].
Qed.

Lemma determine_bits_none n : determine_bits n = None <-> (128 < n)%N.
Proof.
  unfold determine_bits.
  destruct (N.leb_spec n 8); [split; [discriminate|lia]|].
  destruct (N.leb_spec n 16); [split; [discriminate|lia]|].
  destruct (N.leb_spec n 32); [split; [discriminate|lia]|].
  destruct (N.leb_spec n 64); [split; [discriminate|lia]|].
  destruct (N.leb_spec n 128); [split; [discriminate|lia]|]. tauto.
Qed.

Lemma derive_bitset vs : all_units vs = true ->
  (derive (KEnum true vs) = None <-> (128 < N.of_nat (variant_count vs))%N).
Proof.
  intros H. destruct (as_units_all vs H) as [u E]. simpl. rewrite E. unfold derive_unit.
  rewrite <- determine_bits_none, <- (as_units_count vs u E).
  destruct (determine_bits (N.of_nat (length (variants_of u)))); simpl; split; congruence.
Qed.

Section Raw.
  Variables (vs : variants) (u : units (keys vs)) (w : N).
  Hypothesis Eu : as_units vs = Some u.
  Hypothesis Hb : determine_bits (N.of_nat (length (variants_of u))) = Some w.
  Local Notation m := (bit_set_storage u w).
  Local Notation count := (variant_count vs).
  Local Notation Hw := (determine_bits_le _ _ Hb).

  Lemma raw_contains (st : bit_set) k :
    set_contains m st k = N.testbit (bt_data st) (N.of_nat (variant_index vs k)).
  Proof. rewrite <- (as_units_index vs u Eu). apply bt_contains_bit. Qed.

  Lemma raw_below (st : bit_set) : set_reachable m st -> below count (bt_data st).
  Proof.
    intros H. apply (s_reach_inv (bit_slaws u w Hw)) in H. rewrite <- (as_units_count vs u Eu). exact H.
  Qed.

  Lemma raw_fits (st : bit_set) : set_reachable m st -> (bt_data st < 2 ^ w)%N.
  Proof.
    intros H. apply raw_below, below_pow in H. rewrite <- (as_units_count vs u Eu) in H.
    pose proof Hw. apply N.lt_le_trans with (1 := H). apply N.pow_le_mono_r; lia.
  Qed.

  Lemma raw_reachable d : (d < 2 ^ N.of_nat count)%N -> set_reachable m (MkBitSet d).
  Proof.
    intros H. apply below_pow in H.
    pose (l := bt_abs u (MkBitSet d)). pose (wd := (fun _ _ => []) : world).
    destruct (s_c23 (bit_slaws u w Hw) wd l) as [R C].
    replace (MkBitSet d) with (set_from_iter m wd l); auto.
    assert (E : bt_data (set_from_iter m wd l) = d).
    { change d with (bt_data (MkBitSet d)). apply (bt_eq_bits u w Hw).
      - rewrite (as_units_count vs u Eu). apply raw_below. exact R.
      - rewrite (as_units_count vs u Eu). exact H.
      - intros k. apply bool_ext. rewrite <- (in_bt_abs u (MkBitSet d) k).
        rewrite <- (bt_contains_bit u). apply C. }
    destruct (set_from_iter m wd l) as [d']. simpl in E. congruence.
  Qed.

  (** Any integer of the type. *)
  Lemma raw_any d : (d < 2 ^ w)%N ->
    set_len m (MkBitSet d) = length (bt_abs u (MkBitSet d)) +
      length (filter (fun i => N.testbit d (N.of_nat i)) (seq count (N.to_nat w - count))).
  Proof.
    intros H. assert (Hb' : below (N.to_nat w) d) by (apply below_pow; rewrite N2Nat.id; exact H).
    unfold set_len. simpl. rewrite (count_ones_spec _ d Hb').
    assert (Hc : count <= N.to_nat w).
    { pose proof Hw as L. rewrite (as_units_count vs u Eu) in L. lia. }
    replace (seq 0 (N.to_nat w)) with (seq 0 count ++ seq count (N.to_nat w - count)).
    - rewrite filter_app, app_length. f_equal. unfold bt_abs.
      rewrite <- (as_units_count vs u Eu), <- variants_seq, filter_map_comm, map_length. reflexivity.
    - rewrite <- seq_app. f_equal. lia.
  Qed.

  Lemma raw_insert (st : bit_set) k i :
    N.testbit (bt_data (snd (set_insert m st k))) i =
    N.testbit (bt_data st) i || N.eqb i (N.of_nat (variant_index vs k)).
  Proof.
    unfold set_insert. simpl. rewrite N.lor_spec. f_equal. unfold bt_to_bits.
    rewrite <- (N2Nat.id i), number_testbit, (as_units_index vs u Eu).
    rewrite Nat.eqb_sym. apply eq_true_iff_eq. rewrite Nat.eqb_eq, N.eqb_eq. lia.
  Qed.

  Lemma raw_remove (st : bit_set) k i : (i < w)%N ->
    N.testbit (bt_data (snd (set_remove m st k))) i =
    N.testbit (bt_data st) i && negb (N.eqb i (N.of_nat (variant_index vs k))).
  Proof.
    intros Hi.
    change (bt_data (snd (set_remove m st k))) with (N.land (bt_data st) (not_bits w (bt_to_bits u k))).
    rewrite N.land_spec, not_bits_testbit by auto. f_equal. f_equal.
    unfold bt_to_bits. rewrite <- (N2Nat.id i), number_testbit, (as_units_index vs u Eu).
    rewrite Nat.eqb_sym. apply eq_true_iff_eq. rewrite Nat.eqb_eq, N.eqb_eq. lia.
  Qed.

  Lemma bit_abs_lists (st : bit_set) : exists l,
    yields (ss_Iter m) (set_iter m st) l /\ elements (set_contains m st) l /\ l = bt_abs u st.
  Proof.
    exists (bt_abs u st). split; [|split; auto; split].
    - rewrite <- bt_iter_rem. apply (yields_rem _ (flatten_laws (keys vs))). exact I.
    - apply NoDup_filter, variants_nodup.
    - intros k. rewrite in_bt_abs. unfold set_contains. simpl. rewrite bt_contains_bit. tauto.
  Qed.

  Lemma index_count k : variant_index vs k < count.
  Proof. rewrite <- (as_units_index vs u Eu), <- (as_units_count vs u Eu). apply index_of_lt. Qed.

  (** [retain] on any integer of the type: the predicate sees the variants whose
      bit is set; bits without a variant are dropped. *)
  Lemma raw_retain X (f : set_retain_fn X (keys vs)) x (st : bit_set) :
    exists x' l' oc st', set_retain m f x st = (x', st', oc) /\
      retain_elems f x (bt_abs u st) = (x', l', oc) /\
      match oc with
      | Done => below count (bt_data st') /\ forall k, set_contains m st' k = true <-> In k l'
      | Unwound => st' = st
      end.
  Proof.
    destruct (bit_retain_spec u f (bt_data st) (variants_of u) x 0 (variants_nodup u))
      as (x' & l' & oc & E1 & d' & E2 & H3 & H4).
    exists x', l', oc, (MkBitSet d'). unfold set_retain. simpl. unfold bt_retain.
    rewrite enumerate_variants, E2. split; [reflexivity|]. split; [exact E1|].
    destruct oc.
    - split.
      + rewrite <- (as_units_count vs u Eu). apply (H4 eq_refl).
        * intros i _. apply N.bits_0.
        * intros k _. apply index_of_lt.
      + intros k. unfold set_contains. simpl. rewrite bt_contains_bit. simpl. rewrite H3, N.bits_0.
        intuition discriminate.
    - subst. destruct st; auto.
  Qed.
End Raw.

(** * Statements for all bitset enums *)

Section Statements.
  Variables (vs : variants) (ki : KeyImpl (keys vs)).
  Hypothesis Hu : all_units vs = true.
  Hypothesis Hd : derive (KEnum true vs) = Some ki.
  Local Notation m := (ki_set ki).

  Lemma is_bitset : exists u w, as_units vs = Some u /\
    determine_bits (N.of_nat (length (variants_of u))) = Some w /\ m = bit_set_storage u w.
  Proof.
    destruct (derive_units true vs ki Hu Hd) as (u & E & [[N _]|(_ & w & Hw & ->)]); [discriminate|].
    exists u, w. auto.
  Qed.

  Lemma raw_encoding : exists as_raw, set_as_raw m = Some as_raw /\
    forall st, set_reachable m st ->
    (forall k, N.testbit (as_raw st) (N.of_nat (variant_index vs k)) = set_contains m st k) /\
    (forall i, (N.of_nat (variant_count vs) <= i)%N -> N.testbit (as_raw st) i = false).
  Proof.
    destruct is_bitset as (u & w & E & Hw & ->). eexists. split; [reflexivity|].
    intros st R. split.
    - intros k. symmetry. apply (raw_contains vs u w E).
    - intros i Hi. rewrite <- (N2Nat.id i). apply (raw_below vs u w E Hw st R). lia.
  Qed.

  Lemma raw_roundtrip : exists as_raw from_raw,
    set_as_raw m = Some as_raw /\ set_from_raw m = Some from_raw /\
    (forall st, set_reachable m st ->
       set_reachable m (from_raw (as_raw st)) /\ set_eq m (from_raw (as_raw st)) st = true /\
       forall k, set_contains m (from_raw (as_raw st)) k = set_contains m st k) /\
    (forall r, as_raw (from_raw r) = r) /\
    (forall a b, set_reachable m a -> set_reachable m b ->
       (as_raw a = as_raw b <-> forall k, set_contains m a k = set_contains m b k)).
  Proof.
    destruct is_bitset as (u & w & E & Hw & ->). do 2 eexists.
    split; [reflexivity|]. split; [reflexivity|]. split; [|split].
    - intros st R. assert (Es : MkBitSet (bt_data st) = st) by (destruct st; auto). simpl. rewrite Es.
      split; auto. split; auto. unfold set_eq. simpl. apply N.eqb_refl.
    - reflexivity.
    - intros a b Ra Rb. split.
      + intros H k. pose proof (raw_contains vs u w E a k) as Ca. pose proof (raw_contains vs u w E b k) as Cb.
        change (bt_data a = bt_data b) in H. rewrite H in Ca. congruence.
      + intros H. apply (bt_eq_bits u w (determine_bits_le _ _ Hw)).
        * rewrite (as_units_count vs u E). apply (raw_below vs u w E Hw); auto.
        * rewrite (as_units_count vs u E). apply (raw_below vs u w E Hw); auto.
        * intros k. specialize (H k).
          pose proof (raw_contains vs u w E a k) as Ca. pose proof (raw_contains vs u w E b k) as Cb.
          rewrite (as_units_index vs u E). congruence.
  Qed.

  Lemma raw_width : exists as_raw w, set_as_raw m = Some as_raw /\ set_raw_bits m = Some w /\
    In w [8; 16; 32; 64; 128]%N /\ (N.of_nat (variant_count vs) <= w)%N /\
    (forall w', In w' [8; 16; 32; 64; 128]%N -> (N.of_nat (variant_count vs) <= w')%N -> (w <= w')%N) /\
    (forall k, (N.of_nat (variant_index vs k) < w)%N) /\
    (forall st, set_reachable m st -> (as_raw st < 2 ^ w)%N).
  Proof.
    destruct is_bitset as (u & w & E & Hw & ->). eexists. exists w. split; [reflexivity|]. split; [reflexivity|].
    pose proof (determine_bits_spec _ _ Hw) as (H1 & H2 & H3). rewrite (as_units_count vs u E) in H2, H3.
    split; auto. split; auto. split; auto. split.
    - intros k. pose proof (index_count vs u E k) as Hk. clear - Hk H2. lia.
    - intros st R. simpl. apply (raw_fits vs u w E Hw st R).
  Qed.

  Lemma raw_valid : exists as_raw from_raw,
    set_as_raw m = Some as_raw /\ set_from_raw m = Some from_raw /\
    forall r, (r < 2 ^ N.of_nat (variant_count vs))%N ->
      set_reachable m (from_raw r) /\ as_raw (from_raw r) = r /\
      exists l, yields (ss_Iter m) (set_iter m (from_raw r)) l /\
        (forall k, In k l <-> N.testbit r (N.of_nat (variant_index vs k)) = true) /\
        set_len m (from_raw r) = length l /\
        (set_is_empty m (from_raw r) = true <-> l = []) /\
        (forall st, set_reachable m st -> yields (ss_Iter m) (set_iter m st) l ->
           set_eq m (from_raw r) st = true).
  Proof.
    destruct is_bitset as (u & w & E & Hw & ->). do 2 eexists.
    split; [reflexivity|]. split; [reflexivity|]. intros r Hr.
    pose proof (raw_reachable vs u w E Hw r Hr) as R. split; [exact R|]. split; [reflexivity|].
    set (L := bit_slaws u w (determine_bits_le _ _ Hw)).
    pose proof (s_reach_inv L _ R) as Hi.
    exists (bt_abs u (MkBitSet r)).
    assert (Hin : forall k, In k (bt_abs u (MkBitSet r)) <-> N.testbit r (N.of_nat (variant_index vs k)) = true).
    { intros k. rewrite in_bt_abs. simpl. rewrite (as_units_index vs u E). tauto. }
    split; [exact (s_iter L _ Hi)|]. split; [exact Hin|]. split; [exact (s_len L _ Hi)|]. split.
    - simpl. unfold set_is_empty. simpl. rewrite N.eqb_eq. split; [intros ->; apply bt_abs_0|].
      intros H0. apply N.bits_inj_iff. intros i. rewrite N.bits_0.
      destruct (N.testbit r i) eqn:Q; auto. exfalso.
      apply below_pow in Hr. rewrite <- (N2Nat.id i) in Q.
      destruct (Nat.lt_ge_cases (N.to_nat i) (variant_count vs)) as [Hl|Hl]; [|rewrite Hr in Q by auto; discriminate].
      assert (Hs : In (N.to_nat i) (map (index_of u) (variants_of u))).
      { rewrite variants_seq, (as_units_count vs u E). apply in_seq. lia. }
      apply in_map_iff in Hs as (k & Ek & _). rewrite (as_units_index vs u E) in Ek. rewrite <- Ek in Q.
      apply Hin in Q. rewrite H0 in Q. destruct Q.
    - intros st Rst Y. apply (s_c32 L); auto. intros k. apply bit_yields in Y.
      apply bool_ext. unfold set_contains. simpl. rewrite !bt_contains_bit, <- !(in_bt_abs u), Y. reflexivity.
  Qed.

  Lemma raw_exact : exists as_raw from_raw w,
    set_as_raw m = Some as_raw /\ set_from_raw m = Some from_raw /\ set_raw_bits m = Some w /\
    (forall r, (r < 2 ^ w)%N ->
      as_raw (from_raw r) = r /\
      (forall k, set_contains m (from_raw r) k = N.testbit r (N.of_nat (variant_index vs k))) /\
      (exists l, yields (ss_Iter m) (set_iter m (from_raw r)) l /\
        elements (set_contains m (from_raw r)) l /\
        set_len m (from_raw r) = length l +
          length (filter (fun i => N.testbit r (N.of_nat i))
                         (seq (variant_count vs) (N.to_nat w - variant_count vs)))) /\
      (set_is_empty m (from_raw r) = true <-> r = 0%N) /\
      (forall r', set_eq m (from_raw r) (from_raw r') = true <-> r = r')).
  Proof.
    destruct is_bitset as (u & w & E & Hw & ->). do 2 eexists. exists w.
    split; [reflexivity|]. split; [reflexivity|]. split; [reflexivity|]. intros r Hr.
    split; [reflexivity|]. split; [intros k; apply (raw_contains vs u w E)|]. split; [|split].
    - destruct (bit_abs_lists vs u w (MkBitSet r)) as (l & Y & El & ->).
      exists (bt_abs u (MkBitSet r)). split; auto. split; auto. apply (raw_any vs u w E Hw r Hr).
    - unfold set_is_empty. simpl. apply N.eqb_eq.
    - intros r'. unfold set_eq. simpl. apply N.eqb_eq.
  Qed.

  Lemma raw_operations : exists as_raw from_raw w,
    set_as_raw m = Some as_raw /\ set_from_raw m = Some from_raw /\ set_raw_bits m = Some w /\
    (forall r k i, (i < w)%N ->
      N.testbit (as_raw (snd (set_insert m (from_raw r) k))) i =
        N.testbit r i || N.eqb i (N.of_nat (variant_index vs k))) /\
    (forall r k i, (i < w)%N ->
      N.testbit (as_raw (snd (set_remove m (from_raw r) k))) i =
        N.testbit r i && negb (N.eqb i (N.of_nat (variant_index vs k)))) /\
    (forall r, as_raw (set_clear m (from_raw r)) = 0%N) /\
    (forall r X (f : set_retain_fn X (keys vs)) x x' st' oc,
      set_retain m f x (from_raw r) = (x', st', oc) ->
      exists l l', yields (ss_Iter m) (set_iter m (from_raw r)) l /\
        retain_elems f x l = (x', l', oc) /\
        match oc with
        | Done => set_reachable m st' /\ forall k, set_contains m st' k = true <-> In k l'
        | Unwound => as_raw st' = r
        end).
  Proof.
    destruct is_bitset as (u & w & E & Hw & ->). do 2 eexists. exists w.
    split; [reflexivity|]. split; [reflexivity|]. split; [reflexivity|]. split; [|split; [|split]].
    - intros r k i Hi. apply (raw_insert vs u w E (MkBitSet r)).
    - intros r k i Hi. apply (raw_remove vs u w E (MkBitSet r)). exact Hi.
    - reflexivity.
    - intros r X f x x' st' oc H.
      destruct (raw_retain vs u w E X f x (MkBitSet r)) as (x1 & l' & oc1 & st1 & E1 & E2 & E3).
      change (set_retain (bit_set_storage u w) f x (MkBitSet r) = (x', st', oc)) in H.
      rewrite E1 in H. injection H as <- <- <-.
      destruct (bit_abs_lists vs u w (MkBitSet r)) as (l & Y & El & ->).
      exists (bt_abs u (MkBitSet r)), l'. split; [exact Y|]. split; [exact E2|].
      destruct oc1.
      + destruct E3 as [B C]. split; auto. destruct st1 as [d]. apply (raw_reachable vs u w E Hw).
        apply below_pow. exact B.
      + rewrite E3. reflexivity.
  Qed.
End Statements.

Lemma raw_keys t ki : derive t = Some ki ->
  (set_as_raw (ki_set ki) <> None <-> exists vs, t = KEnum true vs /\ all_units vs = true) /\
  (set_from_raw (ki_set ki) <> None <-> exists vs, t = KEnum true vs /\ all_units vs = true).
Proof.
  intros E. unfold set_as_raw, set_from_raw.
  destruct (match t with KEnum true vs => all_units vs | _ => false end) eqn:H.
  - destruct t as [| |p|t|[] vs]; try discriminate H.
    destruct (derive_units true vs ki H E) as (u & _ & [[N _]|(_ & w & _ & ->)]); [discriminate|].
    split; (split; [intros _; exists vs; auto|discriminate]).
  - rewrite (set_raw_none t ki E H). simpl.
    split; (split; [congruence|intros (vs & -> & A); simpl in H; congruence]).
Qed.

Lemma from_raw_stray : exists vs ki from_raw w r,
  derive (KEnum true vs) = Some ki /\ all_units vs = true /\
  set_from_raw (ki_set ki) = Some from_raw /\ set_raw_bits (ki_set ki) = Some w /\
  (r < 2 ^ w)%N /\
  yields (ss_Iter (ki_set ki)) (set_iter (ki_set ki) (from_raw r)) [] /\
  (forall k, set_contains (ki_set ki) (from_raw r) k = false) /\
  set_len (ki_set ki) (from_raw r) = 1 /\
  set_is_empty (ki_set ki) (from_raw r) = false /\
  set_eq (ki_set ki) (from_raw r) (set_new (ki_set ki) w0) = false.
Proof.
  exists dir_vs, bit_ki. do 2 eexists. exists 16%N.
  split; [reflexivity|]. split; [reflexivity|]. split; [reflexivity|]. split; [reflexivity|].
  split; [reflexivity|]. split; [|split].
  - exists 1. intros [|n] H; [lia|reflexivity].
  - intros k. destruct k as [[]|[[]|[[]|[[]|[]]]]]; reflexivity.
  - repeat split.
Qed.
