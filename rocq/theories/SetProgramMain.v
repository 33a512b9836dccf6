(** Programs over several sets of one derived key type. *)
Require Import List Arith NArith ZArith Bool Lia Permutation.
Import ListNotations.
From Verif Require Import Std Traits SetStorages DeriveUnit Key Spec OrdSpec Api Reach KeyLaws IterLaws IterFacts IterProofs
  MapCore MapLaws UnitLaws BitLaws SetCore SetLaws SetFacts SetProofs OrdProofs RawProofs Avail AvailSpec AvailProofs KeyFacts
  Program ProgramProofs SetProgram SetProgramSpec SetProgramProofs.

Lemma sorted_iff {A} (b b' : A -> A -> Prop) l : (forall x y, b x y <-> b' x y) ->
  sorted_by b l -> sorted_by b' l.
Proof.
  intros H. induction l as [|x l IH]; cbn; auto. intros [H1 H2]. split; [|auto].
  intros y Hy Hb. apply (H1 y Hy). now apply H.
Qed.
Lemma key_dec {T} (sp : KeySpec T) (H : forall a b, ks_eqb sp a b = true <-> a = b)
  (a b : T) : {a = b} + {a <> b}.
Proof. destruct (ks_eqb sp a b) eqn:E; [left|right]; [now apply H|]. intros F. apply H in F. congruence. Defined.

Section Plain.
  Context {t : kty} {ki : KeyImpl (key t)} (E : derive t = Some ki) (Hb : bits t = false).
  Notation m := (ki_set ki).
  Notation L := (derive_set_laws t ki E).
  Notation C := (sl_core L).
  Notation inv := (sc_inv C).
  Notation abs := (sc_abs C).

  Lemma p_before a b : ks_before (key_spec t) a b <-> key_before t a b.
  Proof. exact (proj1 spec_before t a b). Qed.
  Lemma p_leaf k : ks_leaf (key_spec t) k = leaf_of t k.
  Proof. exact (proj1 spec_leaf t k). Qed.
  Lemma p_sib k : ks_sib (key_spec t) k = sibling t k.
  Proof. exact (proj1 spec_sib t k). Qed.

  Lemma p_raw : ss_raw m = None.
  Proof.
    apply (set_raw_none t ki E). unfold bits in Hb. destruct t as [| | | |[] vs]; auto.
  Qed.

  Lemma p_cmp : match set_cmp m with
    | Some f => forall a b la lb, yields (ss_Iter m) (set_iter m a) la -> yields (ss_Iter m) (set_iter m b) lb ->
        ordered_as t (MkContent la 0) (MkContent lb 0) (f a b)
    | None => ~ orderable t
    end.
  Proof.
    destruct (OrdSpec.unit_enum t) eqn:U.
    - destruct t as [| | | |[] vs] eqn:Et; try discriminate U.
      + unfold bits in Hb. cbn in Hb, U. congruence.
      + destruct (derive_units false vs ki U E) as (u & Eu & [[_ ->]|(F & _)]); [|discriminate].
        intros a b la lb Ya Yb. apply (OrdList (KEnum false vs) _ _ _ vs); auto.
        symmetry. exact (proj2 (array_lex vs u Eu a b la lb Ya Yb)).
    - destruct t as [| | | |bs vs] eqn:Et;
        try (destruct (set_traits _ ki E U ltac:(discriminate)) as (_ & _ & N); unfold set_cmp; rewrite N;
             intros [F|F]; [congruence|discriminate]).
      injection E as <-. intros a b la lb Ya Yb.
      assert (Y : forall (x : single_set) l, yields (ss_Iter single_set_storage) (set_iter single_set_storage x) l ->
        l = if st_is_set x then [tt] else []).
      { intros x l Y. refine (yields_fun _ _ _ _ Y _). destruct x as [[|]]; exists 2; intros [|[|n]] Hn; try lia; reflexivity. }
      apply Y in Ya, Yb. subst. apply OrdUnit; [reflexivity|].
      destruct a as [[|]], b as [[|]]; reflexivity.
  Qed.
  Lemma p_lt : match set_lt m with
    | Some f => exists g, set_cmp m = Some g /\
        forall a b la lb, yields (ss_Iter m) (set_iter m a) la -> yields (ss_Iter m) (set_iter m b) lb ->
        f a b = match g a b with Lt => true | _ => false end
    | None => ~ orderable t
    end.
  Proof.
    destruct (OrdSpec.unit_enum t) eqn:U.
    - destruct t as [| | | |[] vs] eqn:Et; try discriminate U.
      + unfold bits in Hb. cbn in Hb, U. congruence.
      + destruct (derive_units false vs ki U E) as (u & Eu & [[_ ->]|(F & _)]); [|discriminate].
        eexists. split; [reflexivity|]. intros a b la lb Ya Yb.
        destruct (array_lex vs u Eu a b la lb Ya Yb) as [E1 E2]. rewrite <- E2 in E1.
        cbn. rewrite E1. reflexivity.
    - destruct t as [| | | |bs vs] eqn:Et;
        try (destruct (set_traits _ ki E U ltac:(discriminate)) as (_ & N & _);
             unfold set_lt, set_partial_cmp; rewrite N;
             intros [F|F]; [congruence|discriminate]).
      injection E as <-. eexists. split; [reflexivity|]. intros [[]] [[]] _ _ _ _; reflexivity.
  Qed.
  Lemma p_hash : match set_hash m with
    | Some f => forall a la, yields (ss_Iter m) (set_iter m a) la -> hashed t (MkContent la 0) (f a)
    | None => ~ orderable t
    end.
  Proof.
    destruct (OrdSpec.unit_enum t) eqn:U.
    - destruct t as [| | | |[] vs] eqn:Et; try discriminate U.
      + unfold bits in Hb. cbn in Hb, U. congruence.
      + destruct (derive_units false vs ki U E) as (u & Eu & [[_ ->]|(F & _)]); [|discriminate].
        intros a la Ya. apply unit_set_yields in Ya. subst la. cbn [set_hash ss_hash unit_set_storage].
        unfold hash_array. rewrite arr_elems_map, map_length.
        assert (forall l, flat_map hash_bool l = map (fun b : bool => if b then 1%Z else 0%Z) l) as Hf.
        { induction l as [|x l IH]; [reflexivity|]. cbn. now rewrite IH. }
        rewrite Hf, map_map.
        match goal with |- hashed _ ?c ?l => assert (l = Z.of_nat (declared (KEnum false vs)) ::
          map (fun i => if existsb (fun k => Nat.eqb (position (KEnum false vs) k) i) (els c) then 1 else 0)%Z
            (seq 0 (declared (KEnum false vs)))) as -> end; [|now apply (HashList (KEnum false vs) _ vs)].
        cbn [declared els]. rewrite <- (as_units_count vs u Eu). f_equal.
        rewrite <- variants_seq, map_map. apply map_ext. intros k. cbn [position].
        assert (forall b b' : bool, b = b' -> (if b then 1%Z else 0%Z) = (if b' then 1%Z else 0%Z)) as Hi by (intros ? ? ->; reflexivity).
        apply Hi, bool_ext. rewrite existsb_exists. split.
        * intros H. exists k. split.
          -- apply filter_In. split; [apply variants_all|exact H].
          -- apply Nat.eqb_eq. symmetry. apply (as_units_index vs u Eu).
        * intros (k' & H1 & H2). apply filter_In in H1 as [_ H1]. apply Nat.eqb_eq in H2.
          rewrite <- (as_units_index vs u Eu) in H2. apply index_of_inj in H2. now subst.
    - destruct t as [| | | |bs vs] eqn:Et;
        try (destruct (set_traits _ ki E U ltac:(discriminate)) as (N & _); unfold set_hash; rewrite N;
             intros [F|F]; [congruence|discriminate]).
      injection E as <-. intros a la Ya.
      assert (la = if st_is_set a then [tt] else []) as ->.
      { refine (yields_fun _ _ _ _ Ya _). destruct a as [[|]]; exists 2; intros [|[|n]] Hn; try lia; reflexivity. }
      apply HashUnit; [reflexivity|]. destruct a as [[|]]; cbn; split; congruence.
  Qed.

  Definition plain_laws : plaws t m.
  Proof.
    refine {| pl_sp := key_spec t; pl_L := L; pl_inv := inv; pl_abs := abs; pl_stray := fun _ => 0%N;
              pl_eqb := key_dec (key_spec t) (sc_keqb _ _ C) |}.
    - intros st H. exact (sc_nodup _ _ C st H).
    - intros st H. apply (sorted_iff _ _ _ p_before), strongly_sorted_by. exact (sc_sorted _ _ C st H).
    - intros st H. exact (sl_iter _ _ L st H).
    - intros st H. exact (sl_into_iter _ _ L st H).
    - exact (proj2 (proj1 derive_ends t ki E)).
    - intros w. destruct (s_new L w) as (H & A & _). auto.
    - intros st H. unfold size. cbn. rewrite Nat.add_0_r. exact (s_len L st H).
    - intros st H. rewrite (s_is_empty L st H). pose proof (s_contains_in L st) as Hc. split.
      + intros G. split; [|reflexivity]. intros k. rewrite <- Hc by exact H. rewrite <- p_leaf. apply G.
      + intros [G _] k. rewrite Hc by exact H. rewrite p_leaf. apply G.
    - intros st H k. apply (s_contains_in L st k H).
    - intros st k H. destruct (sc_insert _ _ C st k H) as (st' & Ei & H' & A).
      exists st'. split; [|split; [exact H'|split; [|reflexivity]]].
      + etransitivity; [exact Ei|]. rewrite p_leaf. unfold insert_tells, set_contains. cbn.
        destruct (leaf_of t k); reflexivity.
      + pose proof (sc_contains _ _ C st k H) as Hc. destruct (p_contains (sops_of m) st k) eqn:Q.
        * rewrite A. constructor. now apply Hc.
        * apply InsNew; [|exact A|].
          -- intros F. apply Hc in F. discriminate.
          -- apply (sorted_iff _ _ _ p_before), strongly_sorted_by. exact (sc_sorted _ _ C st' H').
    - intros st k H. destruct (sc_remove _ _ C st k H) as (st' & Er & H' & A).
      exists st'. split; [|split; [exact H'|split; [reflexivity|]]].
      + etransitivity; [exact Er|]. rewrite p_sib. reflexivity.
      + rewrite A. apply filter_ext. intros x. destruct (key_dec (key_spec t) (sc_keqb _ _ C) k x) as [F|F].
        * apply (sc_keqb _ _ C) in F. now rewrite F.
        * destruct (ks_eqb (key_spec t) k x) eqn:Q; [|reflexivity]. apply (sc_keqb _ _ C) in Q. contradiction.
    - intros st H. destruct (sc_clear _ _ C st H). auto.
    - intros X f x st H. destruct (sc_retain _ _ C X f x st H) as (x' & st' & w & Er & H' & U).
      exists (sc_vis C st), x', st', w. split; [exact Er|]. split; [exact H'|]. split; [|split].
      + split; [exact (sc_vis_nodup _ _ C st H)|]. split; [|split].
        * apply (sorted_iff _ _ _ p_before), strongly_sorted_by. exact (sc_vis_sorted _ _ C st H).
        * intros k. rewrite <- p_leaf. exact (sc_vis_in _ _ C st k H).
        * exact (sc_vis_filter _ _ C st H).
      + rewrite <- U. symmetry. apply undo_late. intros a b. exact (derive_late t ki E a b).
      + destruct w; reflexivity.
    - intros st. exact (sc_clone _ _ C st).
    - intros a b Ha Hb'. rewrite (s_eq L a b Ha Hb').
      pose proof (s_contains_in L) as Hc. split.
      + intros G. split; [|reflexivity]. intros k. rewrite <- (Hc a k Ha), <- (Hc b k Hb'), (G k). reflexivity.
      + intros [G _] k. apply bool_ext. rewrite (Hc a k Ha), (Hc b k Hb'). apply G.
    - pose proof p_cmp as P. destruct (set_cmp m); [|exact P]. intros a b Ha Hb'.
      apply P; now apply (s_iter L).
    - pose proof p_lt as P. pose proof p_cmp as Q. destruct (set_lt m) as [f|]; [|exact P]. intros a b Ha Hb'.
      destruct P as (g & Eg & P). rewrite Eg in Q. exists (g a b). split.
      + apply Q; now apply (s_iter L).
      + eapply P; now apply (s_iter L).
    - pose proof p_hash as P. destruct (set_hash m); [|exact P]. intros a Ha. apply P. now apply (s_iter L).
    - unfold set_as_raw. rewrite p_raw. cbn. auto.
    - unfold set_from_raw. rewrite p_raw. exact Hb.
  Qed.
End Plain.

Lemma filter_true {A} (f : A -> bool) l : (forall k, In k l -> f k = true) -> filter f l = l.
Proof.
  induction l as [|x l IH]; intros H; [reflexivity|]. cbn. rewrite (H x) by now left.
  f_equal. apply IH. intros k Hk. apply H. now right.
Qed.

(** The bits at [n] and above. *)
Definition high (n : nat) (d : N) : N := N.shiftl (N.shiftr d (N.of_nat n)) (N.of_nat n).
Lemma high_spec n d i : N.testbit (high n d) i = (N.of_nat n <=? i)%N && N.testbit d i.
Proof.
  unfold high. destruct (N.leb_spec (N.of_nat n) i) as [H|H]; cbn [andb].
  - rewrite N.shiftl_spec_high', N.shiftr_spec' by exact H. f_equal. lia.
  - now rewrite N.shiftl_spec_low.
Qed.

Section Bits.
  Variables (vs : variants) (u : units (keys vs)) (w : N).
  Hypothesis Eu : as_units vs = Some u.
  Hypothesis Hd : determine_bits (N.of_nat (length (variants_of u))) = Some w.
  Notation t := (KEnum true vs).
  Notation m := (bit_set_storage u w).
  Notation count := (variant_count vs).
  Notation Hw := (determine_bits_le _ _ Hd).
  Notation L := (bit_slaws u w Hw).
  Notation C := (sl_core L).

  Definition fits (st : bit_set) : Prop := (bt_data st < 2 ^ w)%N.
  Definition over (st : bit_set) : N := high count (bt_data st).

  Lemma b_all : all_units vs = true.
  Proof. eapply as_units_some. exact Eu. Qed.
  Lemma b_spec : units_spec u = keys_spec vs.
  Proof. exact (as_units_spec vs u Eu). Qed.
  Lemma b_leaf k : leaf_of t k = LVariant.
  Proof. etransitivity; [symmetry; exact (proj1 spec_leaf t k)|]. change (key_spec t) with (keys_spec vs). rewrite <- b_spec. apply units_leaf. Qed.
  Lemma b_sib k : sibling t k = None.
  Proof. etransitivity; [symmetry; exact (proj1 spec_sib t k)|]. change (key_spec t) with (keys_spec vs). rewrite <- b_spec. apply units_sib. Qed.
  Lemma b_late j k : one_bitset t j k = true.
  Proof. cbn. now rewrite b_all. Qed.
  Lemma b_width : (In w [8; 16; 32; 64; 128] /\ N.of_nat count <= w)%N.
  Proof.
    destruct (determine_bits_spec _ _ Hd) as (H1 & H2 & _). rewrite (as_units_count vs u Eu) in H2. auto.
  Qed.
  Lemma b_below st : fits st <-> below (N.to_nat w) (bt_data st).
  Proof. rewrite below_pow, N2Nat.id. reflexivity. Qed.
  Lemma b_sorted st : sorted_by (key_before t) (bt_abs u st).
  Proof.
    apply (sorted_iff (ks_before (units_spec u))).
    - intros x y. rewrite b_spec. exact (proj1 spec_before t x y).
    - apply strongly_sorted_by. unfold bt_abs. apply filter_sorted, variants_sorted.
  Qed.
  Lemma b_in st k : In k (bt_abs u st) <-> N.testbit (bt_data st) (N.of_nat (variant_index vs k)) = true.
  Proof. rewrite in_bt_abs. rewrite (as_units_index vs u Eu). reflexivity. Qed.
  Lemma b_has st : decides t (set_contains m st) (bt_abs u st).
  Proof. intros k. rewrite b_in. rewrite (raw_contains vs u w Eu). reflexivity. Qed.
  Lemma b_numbered st : numbered t (MkContent (bt_abs u st) (over st)) (bt_data st).
  Proof.
    intros i. cbn [els stray]. unfold over. rewrite high_spec. split.
    - intros H. destruct (N.leb_spec (N.of_nat count) i) as [Hi|Hi]; [now right|]. left.
      assert (Hs : In (N.to_nat i) (map (index_of u) (variants_of u))).
      { rewrite variants_seq, (as_units_count vs u Eu). apply in_seq. lia. }
      apply in_map_iff in Hs as (k & Ek & _). rewrite (as_units_index vs u Eu) in Ek.
      exists k. assert (i = N.of_nat (variant_index vs k)) as Ei by lia. split; [|exact Ei].
      apply b_in. congruence.
    - intros [(k & Hk & ->)|H]; [now apply b_in|]. now apply andb_true_iff in H.
  Qed.
  Lemma b_same a b : (forall k, In k (bt_abs u a) <-> In k (bt_abs u b)) /\ over a = over b <->
    bt_data a = bt_data b.
  Proof.
    split.
    - intros [H1 H2]. apply N.bits_inj_iff. intros i.
      apply bool_ext. rewrite (b_numbered a i), (b_numbered b i). cbn [els stray]. rewrite H2.
      split; (intros [(k & Hk & ->)|H]; [left; exists k; split; [now apply H1|reflexivity]|now right]).
    - intros H. unfold over. rewrite <- H. split; [|reflexivity]. intros k. rewrite !b_in, H. reflexivity.
  Qed.
  Lemma b_bits st : fits st -> length (bits_in (over st)) =
    length (filter (fun i => N.testbit (bt_data st) (N.of_nat i)) (seq count (N.to_nat w - count))).
  Proof.
    intros H. apply b_below in H. destruct b_width as [W1 W2].
    assert (w <= 128)%N as W3 by (clear - W1; cbn in W1; intuition lia).
    unfold bits_in. replace 128 with (count + ((N.to_nat w - count) + (128 - N.to_nat w))) at 1 by lia.
    rewrite !seq_app, !filter_app, !app_length. rewrite Nat.add_0_l.
    replace (count + (N.to_nat w - count)) with (N.to_nat w) by lia.
    assert (G : forall f (l : list nat), (forall i, In i l -> f i = false) -> filter f l = []).
    { clear. induction l as [|x l IH]; intros G; [reflexivity|]. cbn. rewrite (G x) by now left.
      apply IH. intros i Hi. apply G. now right. }
    rewrite (G _ (seq 0 count)), (G _ (seq (N.to_nat w) _)).
    - cbn [length]. rewrite Nat.add_0_l, Nat.add_0_r. f_equal. apply filter_ext_in. intros i Hi. apply in_seq in Hi.
      unfold over. rewrite high_spec. destruct (N.leb_spec (N.of_nat count) (N.of_nat i)); [reflexivity|lia].
    - intros i Hi. apply in_seq in Hi. unfold over. rewrite high_spec, (H i) by lia. apply andb_false_r.
    - intros i Hi. apply in_seq in Hi. unfold over. rewrite high_spec.
      destruct (N.leb_spec (N.of_nat count) (N.of_nat i)); [lia|reflexivity].
  Qed.
  Lemma b_fits (st : bit_set) : (forall i, (w <= i)%N -> N.testbit (bt_data st) i = false) -> fits st.
  Proof. intros H. apply b_below. intros i Hi. apply H. lia. Qed.
  Lemma b_high (st : bit_set) i : fits st -> (w <= i)%N -> N.testbit (bt_data st) i = false.
  Proof. intros H Hi. apply b_below in H. rewrite <- (N2Nat.id i). apply H. lia. Qed.
  Lemma b_index k : (N.of_nat (variant_index vs k) < N.of_nat count)%N.
  Proof. pose proof (index_count vs u Eu k). lia. Qed.

  Definition bits_laws : plaws t m.
  Proof.
    refine {| pl_sp := (units_spec u : KeySpec (key t)); pl_L := (L : SetLaws (T := key t) (units_spec u) m); pl_inv := (fits : ss_St m -> Prop);
              pl_abs := (bt_abs u : ss_St m -> list (key t)); pl_stray := (over : ss_St m -> N);
              pl_eqb := key_dec (units_spec u) (units_eqb_eq u) : forall a b : key t, {a = b} + {a <> b} |}.
    - intros st _. apply NoDup_filter, variants_nodup.
    - intros st _. apply b_sorted.
    - intros st _. split; [exact Logic.I|]. exact (bt_iter_rem u st).
    - intros st _. split; [exact Logic.I|]. exact (bt_iter_rem u st).
    - split; cbn; now rewrite (hash_free_units vs b_all).
    - intros wd. split; [|split].
      + unfold fits. cbn. apply N.neq_0_lt_0. now apply N.pow_nonzero.
      + exact (bt_abs_0 u).
      + unfold over. cbn. unfold high. now rewrite N.shiftr_0_l, N.shiftl_0_l.
    - intros st H. unfold size. cbn [els stray]. rewrite (b_bits st H). destruct st as [d]. exact (raw_any vs u w Eu Hd d H).
    - intros st H. unfold set_is_empty. cbn. rewrite N.eqb_eq. split.
      + intros E0. split.
        * intros k. rewrite b_in, E0, N.bits_0. pose proof (b_leaf k) as Hl. cbn in Hl. rewrite Hl. split; discriminate.
        * unfold over. rewrite E0. unfold high. now rewrite N.shiftr_0_l, N.shiftl_0_l.
      + intros [G1 G2]. apply (b_same st (MkBitSet 0)). split.
        * intros k. rewrite (b_in (MkBitSet 0)). cbn [bt_data]. rewrite N.bits_0. rewrite G1. pose proof (b_leaf k) as Hl. cbn in Hl. rewrite Hl. split; discriminate.
        * rewrite G2. unfold over, high. cbn [bt_data]. now rewrite N.shiftr_0_l, N.shiftl_0_l.
    - intros st _. apply b_has.
    - intros st k H. exists (snd (set_insert m st k)).
      pose proof (raw_insert vs u w Eu st k) as R. destruct b_width as [_ W]. pose proof (b_index k) as K.
      assert (HS : over (snd (set_insert m st k)) = over st).
      { apply N.bits_inj_iff. intros i. unfold over. rewrite !high_spec, R.
        destruct (N.leb_spec (N.of_nat count) i); [|reflexivity]. destruct (N.eqb_spec i (N.of_nat (variant_index vs k))); [lia|].
        now rewrite orb_false_r. }
      assert (HI : forall j, In j (bt_abs u (snd (set_insert m st k))) <-> In j (bt_abs u st) \/ j = k).
      { intros j. rewrite !b_in, R, orb_true_iff, N.eqb_eq. split; (intros [Hj|Hj]; [now left|right]).
        - apply (index_inj vs b_all). lia.
        - now subst. }
      split; [|split; [|split; [|exact HS]]].
      + apply injective_projections; [|reflexivity]. cbn [fst]. unfold insert_tells. rewrite b_leaf.
        unfold set_insert, set_contains. cbn. unfold bt_contains. now rewrite negb_involutive.
      + apply b_fits. intros i Hi. rewrite R. rewrite (b_high st i H Hi). apply N.eqb_neq. lia.
      + destruct (set_contains m st k) eqn:Q; apply b_has in Q || idtac.
        * replace (bt_abs u (snd (set_insert m st k))) with (bt_abs u st); [now constructor|].
          unfold bt_abs. apply filter_ext. intros j. apply bool_ext. rewrite <- !in_bt_abs, HI. split; [auto|].
          intros [?| ->]; auto.
        * assert (~ In k (bt_abs u st)) as N by (intros F; apply b_has in F; congruence).
          apply InsNew; [exact N| |apply b_sorted]. apply NoDup_Permutation.
          -- apply NoDup_filter, variants_nodup.
          -- constructor; [exact N|apply NoDup_filter, variants_nodup].
          -- intros j. rewrite HI. cbn. intuition.
    - intros st k H. exists (snd (set_remove m st k)).
      destruct b_width as [_ W]. pose proof (b_index k) as K.
      assert (R : forall i, N.testbit (bt_data (snd (set_remove m st k))) i =
        N.testbit (bt_data st) i && negb (N.eqb i (N.of_nat (variant_index vs k)))).
      { intros i. destruct (N.lt_ge_cases i w) as [Hi|Hi]; [exact (raw_remove vs u w Eu st k i Hi)|].
        change (bt_data (snd (set_remove m st k))) with (N.land (bt_data st) (not_bits w (bt_to_bits u k))).
        now rewrite N.land_spec, (b_high st i H Hi). }
      assert (Hf : forall (p q : keys vs -> bool) l, filter p (filter q l) = filter (fun x => q x && p x) l).
      { intros p q l. induction l as [|y l IH]; cbn; auto. destruct (q y) eqn:Eq; cbn; [destruct (p y)|]; rewrite ?IH; reflexivity. }
      split; [|split; [|split]].
      + apply injective_projections; [|reflexivity]. cbn [fst]. rewrite b_sib. cbn [sib_contains]. rewrite orb_false_r. reflexivity.
      + apply b_fits. intros i Hi. now rewrite R, (b_high st i H Hi).
      + apply N.bits_inj_iff. intros i. unfold over. rewrite !high_spec, R.
        destruct (N.leb_spec (N.of_nat count) i); [|reflexivity]. destruct (N.eqb_spec i (N.of_nat (variant_index vs k))); [lia|].
        now rewrite andb_true_r.
      + unfold bt_abs. rewrite Hf. apply filter_ext. intros j. rewrite !(as_units_index vs u Eu), R.
        destruct (key_dec (units_spec u) (units_eqb_eq u) k j) as [<-|N].
        * now rewrite N.eqb_refl.
        * destruct (N.eqb_spec (N.of_nat (variant_index vs j)) (N.of_nat (variant_index vs k))) as [F|F]; [|reflexivity].
          exfalso. apply N. apply (index_inj vs b_all). lia.
    - intros st H. split; [|split].
      + unfold fits. cbn. apply N.neq_0_lt_0. now apply N.pow_nonzero.
      + exact (bt_abs_0 u).
      + unfold over. cbn. unfold high. now rewrite N.shiftr_0_l, N.shiftl_0_l.
    - intros X f x st H. destruct (raw_retain vs u w Eu X f x st) as (x' & l' & oc & st' & E1 & E2 & E3).
      assert (Ha : forall k, In k (bt_abs u st) -> set_contains m st k = true) by (intros; now apply b_has).
      destruct (undo_all f (set_contains m st) (bt_abs u st) x x' l' oc E2 Ha) as (wk & -> & U).
      exists (bt_abs u st), x', st', wk. split; [exact E1|].
      assert (Hv : visits t (bt_abs u st) (set_contains m st) (bt_abs u st)).
      { split; [apply NoDup_filter, variants_nodup|]. split; [apply b_sorted|]. split.
        - intros k. rewrite b_leaf. intuition discriminate.
        - exact (filter_true _ _ Ha). }
      assert (U2 : retain_undo f (one_bitset t) (set_contains m st) x (bt_abs u st) =
        (x', match ends_at wk with Done => l' | Unwound => bt_abs u st end, wk)).
      { etransitivity; [|exact U]. apply undo_late. exact b_late. }
      destruct wk as [k|]; cbn [ends_at] in *.
      + subst st'. auto.
      + destruct E3 as [B Hc]. split; [|split; [exact Hv|split]].
        * destruct b_width as [_ W]. apply b_below. intros i Hi. apply B. lia.
        * etransitivity; [exact U2|]. f_equal. f_equal.
          symmetry. unfold bt_abs at 1. eapply (retain_elems_filter u); [apply variants_nodup|exact E2|].
          intros k. rewrite <- in_bt_abs. rewrite <- Hc. symmetry. apply b_has.
        * unfold over. apply N.bits_inj_iff. intros i. rewrite high_spec, N.bits_0.
          destruct (N.leb_spec (N.of_nat count) i); [|reflexivity]. cbn. rewrite <- (N2Nat.id i). apply B. lia.
    - reflexivity.
    - intros a b _ _. rewrite b_same. unfold set_eq. cbn. apply N.eqb_eq.
    - intros a b _ _. apply (OrdBits t); [cbn; apply b_all| |]; apply b_numbered.
    - intros a b _ _. exists (N.compare (bt_data a) (bt_data b)). split; [|reflexivity].
      apply (OrdBits t); [cbn; apply b_all| |]; apply b_numbered.
    - intros a _. apply (HashBits t); [cbn; apply b_all|]. apply b_numbered.
    - split; [cbn; apply b_all|]. intros a _. split; [apply b_numbered|]. intros i. apply high_spec.
    - split; [cbn; apply b_all|]. split.
      + pose proof (determine_bits_spec _ _ Hd) as P. rewrite (as_units_count vs u Eu) in P. exact P.
      + intros r Hr. split; [exact Hr|]. split; [|intros i; apply high_spec].
        intros k. rewrite b_in. reflexivity.
  Defined.
End Bits.

Lemma c67 t ki S (keep : S -> key t -> S * option bool) vars l s s' R xs :
  derive t = Some ki ->
  pexec_all (ki_set ki) (set_impls t TCopy) keep l s (repeat None vars) = (s', R, xs) ->
  exists M, pdoes_all t keep l s (repeat None vars) s' M xs /\ Forall2 (oshows (ki_set ki)) R M.
Proof.
  intros E. assert (set_impls t TCopy = hash_free t) as -> by exact (proj1 set_impls_closed t TCopy).
  destruct (bits t) eqn:B.
  - destruct t as [| | | |[] vs]; try discriminate B. cbn in B.
    destruct (is_bitset vs ki B E) as (u & w & Eu & Hw & Em). clear E.
    assert (@ki_set (key (KEnum true vs)) ki = bit_set_storage u w) as Em' by exact Em. clear Em.
    revert R. rewrite Em'. intros R.
    exact (program_ok (bits_laws vs u w Eu Hw) keep _ eq_refl vars l s s' R xs).
  - exact (program_ok (plain_laws E B) keep _ eq_refl vars l s s' R xs).
Qed.

Lemma c67_answers t ki S (keep : S -> key t -> S * option bool) vars l s s' R xs :
  derive t = Some ki ->
  pexec_all (ki_set ki) (set_impls t TCopy) keep l s (repeat None vars) = (s', R, xs) ->
  length xs = length l /\ length R = vars /\ ~ In TDiverged xs.
Proof.
  intros E H. destruct (c67 t ki S keep vars l s s' R xs E H) as (M & D & F).
  assert (G : forall l s M0 s' M xs, pdoes_all t keep l s M0 s' M xs ->
    length xs = length l /\ length M = length M0 /\ ~ In TDiverged xs).
  { clear. induction 1 as [|q l s R s1 R1 x s2 R2 xs D _ (IH1 & IH2 & IH3)]; [cbn; auto|].
    split; [cbn; congruence|]. split.
    - rewrite IH2. inversion D; subst; unfold used_up; rewrite ?set_var_length; try reflexivity;
        destruct (hash_free t); rewrite ?set_var_length; reflexivity.
    - intros [->|Hx]; [|auto]. inversion D; subst;
        match goal with H : pdoes_one _ _ _ _ _ _ _ _ |- _ => inversion H | H : pdoes_two _ _ _ _ _ |- _ => inversion H end. }
  destruct (G _ _ _ _ _ _ D) as (H1 & H2 & H3). rewrite repeat_length in H2.
  split; [exact H1|]. split; [|exact H3]. rewrite <- H2. clear -F. induction F; cbn; congruence.
Qed.
