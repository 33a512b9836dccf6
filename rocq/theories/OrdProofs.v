(** Proofs about orderings and hashes of maps and sets. *)
Require Import List Arith NArith ZArith Bool Lia Sorted.
Import ListNotations.
From Verif Require Import Std Traits MapStorages SetStorages DeriveUnit DeriveAny Key Api Spec Reach
  OrdSpec IterLaws IterFacts MapCore MapLaws UnitLaws BitLaws SetCore SetLaws KeyLaws MapFacts
  MapProofs SetFacts.

(** * Lexicographic comparison *)

Section Lex.
  Context {A : Type} (pc : A -> A -> option comparison).

  Definition all_eq (eq : A -> A -> bool) : list A -> list A -> bool :=
    fix go a b := match a, b with
    | [], [] => true
    | x :: a, y :: b => eq x y && go a b
    | _, _ => false
    end.

  Lemma lex_iter a : forall b, iter_partial_cmp pc a b = lex pc a b.
  Proof. induction a as [|x a IH]; intros [|y b]; simpl; auto. Qed.

  Lemma lex_eq eq : (forall x y, pc x y = Some Eq <-> eq x y = true) ->
    forall a b, lex pc a b = Some Eq <-> all_eq eq a b = true.
  Proof.
    intros H. induction a as [|x a IH]; intros [|y b]; simpl; try (split; congruence).
    rewrite andb_true_iff, <- H, <- IH. destruct (pc x y) as [[]|]; intuition congruence.
  Qed.

  Lemma lex_dual : (forall x y, pc y x = option_map CompOpp (pc x y)) ->
    forall a b, lex pc b a = option_map CompOpp (lex pc a b).
  Proof.
    intros H. induction a as [|x a IH]; intros [|y b]; simpl; auto.
    rewrite (H x y). destruct (pc x y) as [[]|]; simpl; auto.
  Qed.

  Lemma lex_congr : (forall x y z, pc x y = Some Eq -> pc x z = pc y z) ->
    forall a b c, lex pc a b = Some Eq -> lex pc a c = lex pc b c.
  Proof.
    intros H. induction a as [|x a IH]; intros [|y b] c; simpl; try discriminate; auto.
    destruct (pc x y) as [[]|] eqn:E; try discriminate. intros E'.
    destruct c as [|z c]; auto. rewrite (H _ _ z E), (IH b c E'). reflexivity.
  Qed.

  Lemma lex_trans : (forall x y z, pc x y = Some Eq -> pc x z = pc y z) ->
    (forall x y, pc y x = option_map CompOpp (pc x y)) ->
    (forall x y z, pc x y = Some Lt -> pc y z = Some Lt -> pc x z = Some Lt) ->
    forall a b c, lex pc a b = Some Lt -> lex pc b c = Some Lt -> lex pc a c = Some Lt.
  Proof.
    intros Hc Hd Ht. induction a as [|x a IH]; intros [|y b] [|z c]; simpl; try discriminate; auto.
    assert (Hr : forall x y z, pc y z = Some Eq -> pc x y = pc x z).
    { intros p q r E. rewrite (Hd q p), (Hd r p), (Hc q r p E). reflexivity. }
    destruct (pc x y) as [[]|] eqn:E1; try discriminate.
    - rewrite (Hc _ _ z E1). destruct (pc y z) as [[]|]; try discriminate; eauto.
    - intros _. destruct (pc y z) as [[]|] eqn:E2; try discriminate.
      + rewrite <- (Hr x _ _ E2), E1. auto.
      + rewrite (Ht _ _ _ E1 E2). auto.
  Qed.
End Lex.

Lemma lex_map {A B} (g : A -> B) ca cb : (forall x y, cb (g x) (g y) = ca x y) ->
  forall a b, lex cb (map g a) (map g b) = lex ca a b.
Proof.
  intros H. induction a as [|x a IH]; intros [|y b]; simpl; auto. rewrite H, IH. auto.
Qed.

Lemma iter_total {A} (cmp : A -> A -> comparison) a : forall b,
  Some (iter_cmp cmp a b) = lex (fun x y => Some (cmp x y)) a b.
Proof.
  induction a as [|x a IH]; intros [|y b]; simpl; auto. destruct (cmp x y); auto.
Qed.

Lemma lex_ext {A} (c1 c2 : A -> A -> option comparison) : (forall x y, c1 x y = c2 x y) ->
  forall a b, lex c1 a b = lex c2 a b.
Proof.
  intros H. induction a as [|x a IH]; intros [|y b]; simpl; auto. rewrite H, IH. auto.
Qed.

(** * Laws of the derived comparison *)

Lemma po_of_ord {A} (P : A -> Prop) eq cmp :
  ord_laws P eq cmp -> partial_ord_laws P eq (fun a b => Some (cmp a b)).
Proof.
  intros [E D T]. constructor.
  - intros a b Ha Hb. rewrite <- E by auto. split; congruence.
  - intros a b Ha Hb. simpl. rewrite D by auto. reflexivity.
  - intros a b c Ha Hb Hc [= H1] [= H2]. rewrite (T a b c Lt); auto.
  - intros a b c Ha Hb Hc [= H]. f_equal.
    assert (Hba : cmp b a = Eq) by (rewrite D, H; auto).
    assert (Dab := D a c Ha Hc). assert (Dbc := D b c Hb Hc).
    assert (T1 := fun o => T a b c o Ha Hb Hc). assert (T2 := fun o => T b a c o Hb Ha Hc).
    assert (T3 := fun o => T a c b o Ha Hc Hb). assert (T4 := fun o => T b c a o Hb Hc Ha).
    assert (T5 := T1 Eq H). assert (T6 := T2 Eq Hba). assert (T7 := T3 Lt). assert (T8 := T4 Lt).
    clear T1 T2 T3 T4 T D E.
    destruct (cmp a c), (cmp b c); auto; simpl in *; intuition congruence.
Qed.

Lemma ord_of_po {A} (P : A -> Prop) eq cmp :
  partial_ord_laws P eq (fun a b => Some (cmp a b)) -> ord_laws P eq cmp.
Proof.
  intros [E D T C]. constructor.
  - intros a b Ha Hb. rewrite <- E by auto. split; congruence.
  - intros a b Ha Hb. specialize (D a b Ha Hb). simpl in D. congruence.
  - intros a b c o Ha Hb Hc H1 H2. destruct o.
    + assert (H : Some (cmp a c) = Some (cmp b c)) by (apply C; auto; congruence). congruence.
    + assert (H : Some (cmp a c) = Some Lt) by (apply (T a b c); auto; congruence). congruence.
    + assert (D1 := D a b Ha Hb). assert (D2 := D b c Hb Hc). assert (D3 := D c a Hc Ha).
      simpl in *. rewrite H1 in D1. rewrite H2 in D2. simpl in *.
      assert (H : Some (cmp c a) = Some Lt) by (apply (T c b a); auto). injection H as H. rewrite H in D3. simpl in *. congruence.
Qed.

Lemma po_ext {A} (P : A -> Prop) eq p q : (forall a b, P a -> P b -> p a b = q a b) ->
  partial_ord_laws P eq p -> partial_ord_laws P eq q.
Proof.
  intros H [E D T C]. constructor; intros.
  - rewrite <- H by auto. auto.
  - rewrite <- !H by auto. auto.
  - rewrite <- H in * by auto. eauto.
  - rewrite <- !H in * by auto. eauto.
Qed.

Lemma po_by_entry {V} vs (veq : V -> V -> bool) pc :
  (forall a b : keys vs, variant_index vs a = variant_index vs b -> a = b) ->
  partial_ord_laws (fun _ => True) veq pc ->
  (forall x y : keys vs * V, by_entry vs pc x y = Some Eq <-> fst x = fst y /\ veq (snd x) (snd y) = true) /\
  (forall x y, by_entry vs pc y x = option_map CompOpp (by_entry vs pc x y)) /\
  (forall x y z, by_entry vs pc x y = Some Lt -> by_entry vs pc y z = Some Lt -> by_entry vs pc x z = Some Lt) /\
  (forall x y z, by_entry vs pc x y = Some Eq -> by_entry vs pc x z = by_entry vs pc y z).
Proof.
  intros I [E D T C]. unfold by_entry. repeat split.
  - destruct (Nat.compare_spec (variant_index vs (fst x)) (variant_index vs (fst y))); try discriminate. auto.
  - apply E; auto. destruct (Nat.compare_spec (variant_index vs (fst x)) (variant_index vs (fst y))); try discriminate. auto.
  - intros [-> H]. rewrite Nat.compare_refl. apply E; auto.
  - intros x y. rewrite (Nat.compare_antisym (variant_index vs (fst x))).
    destruct (Nat.compare (variant_index vs (fst x)) (variant_index vs (fst y))); simpl; auto.
  - intros x y z.
    destruct (Nat.compare_spec (variant_index vs (fst x)) (variant_index vs (fst y)));
    destruct (Nat.compare_spec (variant_index vs (fst y)) (variant_index vs (fst z))); try discriminate;
    destruct (Nat.compare_spec (variant_index vs (fst x)) (variant_index vs (fst z))); try lia; eauto.
  - intros x y z.
    destruct (Nat.compare_spec (variant_index vs (fst x)) (variant_index vs (fst y))) as [H|H|H]; try discriminate.
    rewrite H. destruct (Nat.compare (variant_index vs (fst y)) (variant_index vs (fst z))); auto.
Qed.

(** * Operators *)

Lemma operators_pc {A} (P : A -> Prop) pc :
  operators P pc (fun a b => pc_lt (pc a b)) (fun a b => pc_le (pc a b))
    (fun a b => pc_gt (pc a b)) (fun a b => pc_ge (pc a b)).
Proof.
  intros a b _ _. destruct (pc a b) as [[]|]; simpl; intuition congruence.
Qed.

Lemma selectors_cmp {A} (P : A -> Prop) cmp pc :
  (forall a b, P a -> P b -> pc a b = Some (cmp a b)) ->
  (forall a b c, P a -> P b -> P c -> cmp a b = Lt -> cmp a c = Gt -> cmp b c = Gt) ->
  selectors P cmp (ord_max cmp) (ord_min cmp) (ord_clamp pc).
Proof.
  intros H T. split.
  - intros a b _ _. unfold ord_max, ord_min. destruct (cmp a b); repeat split; congruence.
  - intros a lo hi Ha Hl Hh. unfold ord_clamp. rewrite !H by auto.
    specialize (T a lo hi Ha Hl Hh).
    destruct (cmp lo hi), (cmp a lo), (cmp a hi); simpl; repeat split; try congruence;
      try (exfalso; discriminate (T eq_refl eq_refl)).
Qed.

Lemma ord_between {A} (P : A -> Prop) eq cmp : ord_laws P eq cmp ->
  forall a b c, P a -> P b -> P c -> cmp a b = Lt -> cmp a c = Gt -> cmp b c = Gt.
Proof.
  intros [E D T] a b c Ha Hb Hc H1 H2.
  assert (H3 : cmp c a = Lt) by (rewrite D, H2; auto).
  assert (H4 : cmp c b = Lt) by (apply (T c a b); auto).
  rewrite D, H4; auto.
Qed.

(** * Unit enums *)

Lemma as_units_index vs : forall u, as_units vs = Some u -> forall k, index_of u k = variant_index vs k.
Proof.
  induction vs as [|vs IH|t vs IH]; simpl; intros u.
  - intros [= <-] [].
  - destruct (as_units vs) as [u'|]; simpl; [|discriminate]. intros [= <-] [k|k]; simpl; auto.
  - discriminate.
Qed.

Lemma as_units_all vs : all_units vs = true -> exists u, as_units vs = Some u.
Proof.
  induction vs as [|vs IH|t vs IH]; simpl; intros H.
  - eauto.
  - destruct (IH H) as [u ->]. simpl. eauto.
  - discriminate.
Qed.

Lemma as_units_none vs : all_units vs = false -> as_units vs = None.
Proof.
  induction vs as [|vs IH|t vs IH]; simpl; intros H; auto; [discriminate|].
  rewrite (IH H). auto.
Qed.

Lemma as_units_count vs : forall u, as_units vs = Some u -> length (variants_of u) = variant_count vs.
Proof.
  induction vs as [|vs IH|t vs IH]; simpl; intros u.
  - intros [= <-]. auto.
  - destruct (as_units vs) as [u'|]; simpl; [|discriminate]. intros [= <-]. simpl.
    rewrite map_length. auto.
  - discriminate.
Qed.

Lemma index_inj vs : all_units vs = true ->
  forall a b : keys vs, variant_index vs a = variant_index vs b -> a = b.
Proof.
  intros H a b. destruct (as_units_all vs H) as [u E]. rewrite <- !(as_units_index vs u E).
  apply index_of_inj.
Qed.

(** What [derive] makes of an enum of unit variants. *)
Lemma derive_units bitset vs ki : all_units vs = true -> derive (KEnum bitset vs) = Some ki ->
  exists u, as_units vs = Some u /\
    ((bitset = false /\ ki = MkKeyImpl (unit_map_storage u) (unit_set_storage u)) \/
     (bitset = true /\ exists w, determine_bits (N.of_nat (length (variants_of u))) = Some w /\
        ki = MkKeyImpl (unit_map_storage u) (bit_set_storage u w))).
Proof.
  intros H. destruct (as_units_all vs H) as [u E]. simpl. rewrite E. unfold derive_unit.
  intros D. exists u. split; auto. destruct bitset.
  - right. split; auto.
    destruct (determine_bits (N.of_nat (length (variants_of u)))) as [w|]; simpl in D; [|discriminate].
    exists w. split; auto. congruence.
  - left. split; auto. congruence.
Qed.

Lemma seq_sorted n : forall a, StronglySorted lt (seq a n).
Proof.
  induction n as [|n IH]; intros a; simpl; constructor; auto.
  apply Forall_forall. intros x H. apply in_seq in H. lia.
Qed.

Lemma all_eq_pairs {K V} (ix : K -> nat) (veq : V -> V -> bool) (ga gb : K -> option V) l :
  StronglySorted lt (map ix l) ->
  (all_eq (fun x y => Nat.eqb (ix (fst x)) (ix (fst y)) && veq (snd x) (snd y))
     (cat_options (map (fun k => some_pair k (ga k)) l))
     (cat_options (map (fun k => some_pair k (gb k)) l)) = true <->
   forall k, In k l -> same_option veq (ga k) (gb k)).
Proof.
  assert (Hin : forall (g : K -> option V) l e, In e (cat_options (map (fun k => some_pair k (g k)) l)) ->
                In (fst e) l).
  { intros g l0 e H. apply in_cat_options, in_map_iff in H as (k & H & Hk).
    destruct (g k); simpl in H; [|discriminate]. injection H as <-. auto. }
  induction l as [|k l IH]; simpl; intros S.
  - split; auto. intros _ k [].
  - inversion S as [|? ? S' F]; subst. specialize (IH S').
    assert (Hlt : forall (g : K -> option V) e r, cat_options (map (fun k => some_pair k (g k)) l) = e :: r ->
                  ix k <> ix (fst e)).
    { intros g e r H. assert (In (fst e) l) as Hi by (apply (Hin g); rewrite H; simpl; auto).
      apply (in_map ix) in Hi. rewrite Forall_forall in F. apply F in Hi. lia. }
    assert (Hs : (forall x, k = x \/ In x l -> same_option veq (ga x) (gb x)) <->
                 same_option veq (ga k) (gb k) /\ forall x, In x l -> same_option veq (ga x) (gb x)).
    { split; [intros H; split; auto|]. intros [H1 H2] x [<-|H]; auto. }
    rewrite Hs, <- IH. clear Hs IH.
    destruct (ga k) as [v|], (gb k) as [w|]; simpl.
    + rewrite Nat.eqb_refl, andb_true_iff. reflexivity.
    + split; [|tauto]. destruct (cat_options (map (fun k => some_pair k (gb k)) l)) as [|e r] eqn:Eb;
        [discriminate|]. pose proof (Hlt gb e r Eb) as Hn. simpl.
      apply Nat.eqb_neq in Hn. rewrite Hn. discriminate.
    + split; [|tauto]. destruct (cat_options (map (fun k => some_pair k (ga k)) l)) as [|e r] eqn:Ea;
        [discriminate|]. pose proof (Hlt ga e r Ea) as Hn. simpl.
      assert (Hn' : ix (fst e) <> ix k) by auto. apply Nat.eqb_neq in Hn'. rewrite Hn'. discriminate.
    + tauto.
Qed.

Lemma unit_map_eq {R} (u : units R) {V} veq (a b : unit_map (V := V) u) :
  map_eq (unit_map_storage u V) veq a b = true <->
  forall k, same_option veq (arr_get u (um_data a) k) (arr_get u (um_data b) k).
Proof.
  unfold map_eq. simpl. destruct a as [a], b as [b]. simpl.
  induction u as [|R' u' IH]; simpl; [split; [intros _ []|auto]|].
  rewrite andb_true_iff, IH.
  assert (H : option_eq veq (fst a) (fst b) = true <-> same_option veq (fst a) (fst b)).
  { destruct (fst a), (fst b); simpl; intuition congruence. }
  rewrite H. split.
  - intros [H1 H2] [k|k]; auto.
  - intros H1. split; [apply (H1 (inl tt))|]. intros k. apply (H1 (inr k)).
Qed.

Section Unit.
  Context {R : Type} (u : units R).

  Lemma enumerate_elems {A} (a : arr A u) :
    enumerate (arr_elems u a) = map (fun k => (index_of u k, arr_get u a k)) (variants_of u).
  Proof.
    rewrite arr_elems_map. unfold enumerate. rewrite enumerate_from_map.
    pose proof (enumerate_variants u) as E. unfold enumerate in E. rewrite E, map_map. reflexivity.
  Qed.

  Lemma flatten_elems {V} (a : arr (option V) u) :
    filter_map ms_flatten (enumerate (arr_elems u a)) =
    map (fun e => (index_of u (fst e), snd e))
        (cat_options (map (fun k => some_pair k (arr_get u a k)) (variants_of u))).
  Proof.
    rewrite enumerate_elems. induction (variants_of u) as [|k l IH]; simpl; auto.
    destruct (arr_get u a k); simpl; rewrite IH; reflexivity.
  Qed.

  Lemma flags_elems (a : arr bool u) :
    filter ms_filter_bool (enumerate (arr_elems u a)) =
    map (fun k => (index_of u k, true)) (filter (arr_get u a) (variants_of u)).
  Proof.
    rewrite enumerate_elems. induction (variants_of u) as [|k l IH]; simpl; auto.
    change (ms_filter_bool (index_of u k, arr_get u a k)) with (arr_get u a k).
    destruct (arr_get u a k) eqn:E; rewrite IH; reflexivity.
  Qed.

  Lemma unit_iter_yields {V} (st : unit_map (V := V) u) l :
    yields (ms_Iter (unit_map_storage u V)) (map_iter (unit_map_storage u V) st) l ->
    l = cat_options (map (fun k => some_pair k (arr_get u (um_data st) k)) (variants_of u)).
  Proof.
    intros Y. rewrite <- flatten_of_rem. eapply yields_fun; [exact Y|].
    apply (yields_rem _ (flatten_laws (R * V))). exact I.
  Qed.

  Lemma unit_set_yields (st : unit_set u) l :
    yields (ss_Iter (unit_set_storage u)) (set_iter (unit_set_storage u) st) l ->
    l = filter (arr_get u (us_data u st)) (variants_of u).
  Proof.
    intros Y. transitivity (flatten_rem (us_iter u st)).
    - eapply yields_fun; [exact Y|]. apply (yields_rem _ (flatten_laws R)). exact I.
    - unfold us_iter. rewrite flatten_of_rem. apply filter_cat. auto.
  Qed.

  Lemma unit_map_hash {V} veq h : (forall x y : V, veq x y = true -> h x = h y) ->
    forall a b : unit_map (V := V) u, map_eq (unit_map_storage u V) veq a b = true ->
    flat_map (hash_option h) (arr_elems u (um_data a)) = flat_map (hash_option h) (arr_elems u (um_data b)) /\
    length (arr_elems u (um_data a)) = length (arr_elems u (um_data b)).
  Proof.
    intros Hh a b E. pose proof (proj1 (unit_map_eq u veq a b) E) as H. rewrite !arr_elems_map, !map_length.
    split; auto. induction (variants_of u) as [|k l IH]; simpl; auto. rewrite IH. f_equal.
    specialize (H k).
    destruct (arr_get u (um_data a) k), (arr_get u (um_data b) k); simpl in *; try contradiction; auto.
    f_equal. auto.
  Qed.
End Unit.

(** * Maps *)

Section MapOrd.
  Variables (bitset : bool) (vs : variants) (ki : KeyImpl (keys vs)) (V : Type).
  Hypothesis Hu : all_units vs = true.
  Hypothesis Hd : derive (KEnum bitset vs) = Some ki.
  Local Notation m := (ki_map ki V).

  Lemma map_is_unit : exists u, as_units vs = Some u /\ ki_map ki V = unit_map_storage u V.
  Proof.
    destruct (derive_units bitset vs ki Hu Hd) as (u & E & [[_ ->]|(_ & w & _ & ->)]);
      exists u; auto.
  Qed.

  Lemma map_pc_lex pc : exists f, map_partial_cmp m pc = Some f /\
    forall a b la lb, yields (ms_Iter m) (map_iter m a) la -> yields (ms_Iter m) (map_iter m b) lb ->
    f a b = lex (by_entry vs pc) la lb.
  Proof.
    destruct map_is_unit as (u & E & ->). eexists. split; [reflexivity|].
    intros a b la lb Ya Yb. apply unit_iter_yields in Ya, Yb. subst la lb. simpl.
    unfold storage_iterator_partial_cmp. rewrite lex_iter, !flatten_elems.
    apply lex_map. intros x y. unfold pair_partial_cmp, by_entry. simpl.
    rewrite <- !(as_units_index vs u E).
    destruct (Nat.compare (index_of u (fst x)) (index_of u (fst y))); auto.
  Qed.

  Lemma map_cmp_lex c : exists f, map_cmp m c = Some f /\
    forall a b la lb, yields (ms_Iter m) (map_iter m a) la -> yields (ms_Iter m) (map_iter m b) lb ->
    Some (f a b) = lex (by_entry vs (fun x y => Some (c x y))) la lb.
  Proof.
    destruct map_is_unit as (u & E & ->). eexists. split; [reflexivity|].
    intros a b la lb Ya Yb. apply unit_iter_yields in Ya, Yb. subst la lb. simpl.
    unfold storage_iterator_cmp. rewrite iter_total, !flatten_elems.
    apply lex_map. intros x y. unfold pair_cmp, by_entry. simpl.
    rewrite <- !(as_units_index vs u E).
    destruct (Nat.compare (index_of u (fst x)) (index_of u (fst y))); auto.
  Qed.

  Lemma map_eq_lists veq a b la lb :
    yields (ms_Iter m) (map_iter m a) la -> yields (ms_Iter m) (map_iter m b) lb ->
    (all_eq (fun x y => Nat.eqb (variant_index vs (fst x)) (variant_index vs (fst y)) &&
                        veq (snd x) (snd y)) la lb = true <-> map_eq m veq a b = true).
  Proof.
    destruct map_is_unit as (u & E & Em). revert a b. rewrite Em.
    intros a b Ya Yb. apply unit_iter_yields in Ya, Yb. subst la lb.
    rewrite unit_map_eq, (all_eq_pairs (variant_index vs) veq).
    - split; intros H k; [apply H, variants_all|auto].
    - replace (map (variant_index vs) (variants_of u)) with (map (index_of u) (variants_of u)).
      + rewrite variants_seq. apply seq_sorted.
      + apply map_ext. apply as_units_index. exact E.
  Qed.

  Lemma map_yields a : map_reachable m a -> exists l, yields (ms_Iter m) (map_iter m a) l.
  Proof.
    intros H. destruct (c06 (derive_map_laws (KEnum bitset vs) ki V Hd) a H) as (l & Y & _). eauto.
  Qed.

  Lemma map_po veq pc : partial_ord_laws (fun _ => True) veq pc ->
    exists f, map_partial_cmp m pc = Some f /\
      partial_ord_laws (map_reachable m) (map_eq m veq) f.
  Proof.
    intros L. destruct (map_pc_lex pc) as (f & Ef & Hf). exists f. split; auto.
    destruct (po_by_entry vs veq pc (index_inj vs Hu) L) as (E & D & T & C).
    constructor.
    - intros a b Ra Rb. destruct (map_yields a Ra) as [la Ya]. destruct (map_yields b Rb) as [lb Yb].
      rewrite (Hf a b la lb Ya Yb), <- (map_eq_lists veq a b la lb Ya Yb).
      apply lex_eq. intros x y. rewrite E, andb_true_iff, Nat.eqb_eq. split; intros [H1 H2]; split; auto.
      + congruence.
      + apply (index_inj vs Hu). auto.
    - intros a b Ra Rb. destruct (map_yields a Ra) as [la Ya]. destruct (map_yields b Rb) as [lb Yb].
      rewrite (Hf a b la lb Ya Yb), (Hf b a lb la Yb Ya). apply lex_dual. auto.
    - intros a b c Ra Rb Rc. destruct (map_yields a Ra) as [la Ya]. destruct (map_yields b Rb) as [lb Yb].
      destruct (map_yields c Rc) as [lc Yc].
      rewrite (Hf a b la lb Ya Yb), (Hf b c lb lc Yb Yc), (Hf a c la lc Ya Yc). apply lex_trans; auto.
    - intros a b c Ra Rb Rc. destruct (map_yields a Ra) as [la Ya]. destruct (map_yields b Rb) as [lb Yb].
      destruct (map_yields c Rc) as [lc Yc].
      rewrite (Hf a b la lb Ya Yb), (Hf b c lb lc Yb Yc), (Hf a c la lc Ya Yc). apply lex_congr; auto.
  Qed.

  Lemma map_ord veq c : ord_laws (fun _ => True) veq c ->
    exists f, map_cmp m c = Some f /\ ord_laws (map_reachable m) (map_eq m veq) f.
  Proof.
    intros L. destruct (map_po veq _ (po_of_ord _ _ _ L)) as (f & Ef & Lf).
    destruct (map_pc_lex (fun x y => Some (c x y))) as (f' & Ef' & Hf).
    destruct (map_cmp_lex c) as (g & Eg & Hg). rewrite Ef in Ef'. injection Ef' as <-.
    exists g. split; auto. apply ord_of_po. apply po_ext with f; auto.
    intros a b Ra Rb. destruct (map_yields a Ra) as [la Ya]. destruct (map_yields b Rb) as [lb Yb].
    rewrite (Hf a b la lb Ya Yb), (Hg a b la lb Ya Yb). reflexivity.
  Qed.

  Lemma map_cmp_agree pc c : (forall x y, pc x y = Some (c x y)) ->
    exists f g, map_partial_cmp m pc = Some f /\ map_cmp m c = Some g /\
      forall a b, map_reachable m a -> map_reachable m b -> f a b = Some (g a b).
  Proof.
    intros H. destruct (map_pc_lex pc) as (f & Ef & Hf). destruct (map_cmp_lex c) as (g & Eg & Hg).
    exists f, g. split; auto. split; auto. intros a b Ra Rb.
    destruct (map_yields a Ra) as [la Ya]. destruct (map_yields b Rb) as [lb Yb].
    rewrite (Hf a b la lb Ya Yb), (Hg a b la lb Ya Yb). apply lex_ext.
    intros x y. unfold by_entry. rewrite H. reflexivity.
  Qed.

  Lemma map_operators pc : exists f lt le gt ge, map_partial_cmp m pc = Some f /\
    map_lt m pc = Some lt /\ map_le m pc = Some le /\ map_gt m pc = Some gt /\ map_ge m pc = Some ge /\
    operators (map_reachable m) f lt le gt ge.
  Proof.
    destruct (map_pc_lex pc) as (f & Ef & _). unfold map_lt, map_le, map_gt, map_ge. rewrite Ef.
    exists f. do 4 eexists. repeat (split; [reflexivity|]). apply operators_pc.
  Qed.

  Lemma map_selectors veq pc c : ord_laws (fun _ => True) veq c -> (forall x y, pc x y = Some (c x y)) ->
    exists g mx mn cl, map_cmp m c = Some g /\ map_max m c = Some mx /\ map_min m c = Some mn /\
    map_clamp m pc = Some cl /\ selectors (map_reachable m) g mx mn cl.
  Proof.
    intros L H. destruct (map_cmp_agree pc c H) as (f & g & Ef & Eg & A).
    destruct (map_ord veq c L) as (g' & Eg' & Lg). rewrite Eg in Eg'. injection Eg' as <-.
    unfold map_max, map_min, map_clamp. rewrite Ef, Eg.
    exists g. do 3 eexists. repeat (split; [reflexivity|]). apply selectors_cmp; auto.
    eapply ord_between. exact Lg.
  Qed.
End MapOrd.

(** * Sets *)

Section SetOrd.
  Context {T : Type} (m : SetStorage T) (P : ss_St m -> Prop).

  Lemma set_order_all f g : set_partial_cmp m = Some f -> set_cmp m = Some g ->
    (forall a b, f a b = Some (g a b)) -> ord_laws P (set_eq m) g ->
    exists lt le gt ge mx mn cl,
      set_lt m = Some lt /\ set_le m = Some le /\ set_gt m = Some gt /\ set_ge m = Some ge /\
      set_max m = Some mx /\ set_min m = Some mn /\ set_clamp m = Some cl /\
      operators P f lt le gt ge /\ selectors P g mx mn cl.
  Proof.
    intros Ef Eg A L. unfold set_lt, set_le, set_gt, set_ge, set_max, set_min, set_clamp.
    rewrite Ef, Eg. do 7 eexists. repeat (split; [reflexivity|]). split.
    - apply operators_pc.
    - apply selectors_cmp; auto. eapply ord_between. exact L.
  Qed.
End SetOrd.

Lemma ord_lex {A B} (P : A -> Prop) (eq : A -> A -> bool) (g : A -> A -> comparison)
  (elems : A -> list B) (ix : B -> nat) : (forall x y, ix x = ix y -> x = y) ->
  (forall a b, P a -> P b -> (eq a b = true <-> elems a = elems b)) ->
  (forall a b, Some (g a b) = lex (fun x y => Some (Nat.compare (ix x) (ix y))) (elems a) (elems b)) ->
  ord_laws P eq g.
Proof.
  intros I E H. apply ord_of_po. constructor.
  - intros a b Ha Hb. rewrite H, E by auto. generalize (elems b). generalize (elems a). clear - I.
    induction l as [|x l IH]; intros [|y r]; simpl; try (split; congruence).
    destruct (Nat.compare_spec (ix x) (ix y)) as [Q|Q|Q].
    + apply I in Q. subst. rewrite IH. split; congruence.
    + split; [discriminate|]. intros [= -> _]. lia.
    + split; [discriminate|]. intros [= -> _]. lia.
  - intros a b _ _. rewrite !H. apply lex_dual. intros x y. simpl. rewrite Nat.compare_antisym. auto.
  - intros a b c _ _ _. rewrite !H. apply lex_trans.
    + intros x y z [= Q]. apply Nat.compare_eq in Q. rewrite Q. auto.
    + intros x y. simpl. rewrite Nat.compare_antisym. auto.
    + intros x y z [= Q1] [= Q2]. apply Nat.compare_lt_iff in Q1, Q2. f_equal. apply Nat.compare_lt_iff. lia.
  - intros a b c _ _ _. rewrite !H. apply lex_congr.
    intros x y z [= Q]. apply Nat.compare_eq in Q. rewrite Q. auto.
Qed.

Lemma arr_eq_flags {R} (u : units R) (a b : arr bool u) :
  arr_eq Bool.eqb u a b = true <-> forall k, arr_get u a k = arr_get u b k.
Proof.
  induction u as [|R u IH]; simpl.
  - split; [intros _ []|auto].
  - rewrite andb_true_iff, IH, eqb_true_iff. split.
    + intros [H1 H2] [k|k]; auto.
    + intros H. split; [apply (H (inl tt))|]. intros k. apply (H (inr k)).
Qed.

Section ArraySet.
  Variables (vs : variants) (u : units (keys vs)).
  Hypothesis Eu : as_units vs = Some u.
  Local Notation m := (unit_set_storage u).

  Lemma array_lex a b la lb :
    yields (ss_Iter m) (set_iter m a) la -> yields (ss_Iter m) (set_iter m b) lb ->
    storage_iterator_partial_cmp_bool (arr_elems u (us_data u a)) (arr_elems u (us_data u b)) =
      lex (by_variant vs) la lb /\
    Some (storage_iterator_cmp_bool (arr_elems u (us_data u a)) (arr_elems u (us_data u b))) =
      lex (by_variant vs) la lb.
  Proof.
    intros Ya Yb. apply unit_set_yields in Ya, Yb. subst la lb.
    unfold storage_iterator_partial_cmp_bool, storage_iterator_cmp_bool.
    rewrite lex_iter, iter_total, !flags_elems. split.
    - apply lex_map. intros x y. unfold pair_partial_cmp, by_variant. simpl.
      rewrite !(as_units_index vs u Eu). destruct (Nat.compare _ _); auto.
    - apply lex_map. intros x y. unfold pair_cmp, by_variant. simpl.
      rewrite !(as_units_index vs u Eu). destruct (Nat.compare _ _); auto.
  Qed.

  Lemma array_yields a : exists l, yields (ss_Iter m) (set_iter m a) l.
  Proof.
    eexists. apply (yields_rem _ (flatten_laws (keys vs))). exact I.
  Qed.

  Lemma array_eq a b :
    set_eq m a b = true <-> filter (arr_get u (us_data u a)) (variants_of u) =
                            filter (arr_get u (us_data u b)) (variants_of u).
  Proof.
    unfold set_eq. simpl.
    assert (H : arr_eq Bool.eqb u (us_data u a) (us_data u b) = true <->
                forall k, arr_get u (us_data u a) k = arr_get u (us_data u b) k).
    { apply arr_eq_flags. }
    rewrite H. split.
    - intros E. apply filter_ext. auto.
    - intros E k.
      assert (Hk : forall x : unit_set u, In k (filter (arr_get u (us_data u x)) (variants_of u)) <->
                             arr_get u (us_data u x) k = true).
      { intros x. rewrite filter_In. split; [tauto|]. intros ->. split; auto. apply variants_all. }
      apply bool_ext. rewrite <- !Hk, E. reflexivity.
  Qed.

  Lemma array_ord : ord_laws (fun _ => True) (set_eq m)
    (fun a b => storage_iterator_cmp_bool (arr_elems u (us_data u a)) (arr_elems u (us_data u b))).
  Proof.
    apply ord_lex with (ix := index_of u) (elems := fun a => filter (arr_get u (us_data u a)) (variants_of u)).
    - apply index_of_inj.
    - intros a b _ _. apply array_eq.
    - intros a b. unfold storage_iterator_cmp_bool. rewrite iter_total, !flags_elems.
      apply lex_map. intros x y. unfold pair_cmp. simpl. destruct (Nat.compare _ _); auto.
  Qed.
End ArraySet.

(** * Bitsets: comparing the integers *)

Lemma bit_top n d : below (S n) d ->
  exists r, below n r /\ d = ((if N.testbit d (N.of_nat n) then 2 ^ N.of_nat n else 0) + r)%N /\
    forall i, i < n -> N.testbit r (N.of_nat i) = N.testbit d (N.of_nat i).
Proof.
  intros H. apply below_pow in H. exists (d mod 2 ^ N.of_nat n)%N.
  assert (Hp : (2 ^ N.of_nat n <> 0)%N) by (apply N.pow_nonzero; lia).
  split; [|split].
  - apply below_pow. apply N.mod_lt. exact Hp.
  - rewrite (N.div_mod' d (2 ^ N.of_nat n)) at 1.
    rewrite N.testbit_eqb.
    replace (N.of_nat (S n)) with (N.succ (N.of_nat n)) in H by lia. rewrite N.pow_succ_r' in H.
    assert (Hq : (d / 2 ^ N.of_nat n < 2)%N) by (apply N.div_lt_upper_bound; lia).
    assert (Hc : (d / 2 ^ N.of_nat n = 0 \/ d / 2 ^ N.of_nat n = 1)%N)
      by (clear H; revert Hq; generalize (d / 2 ^ N.of_nat n)%N; intros q Hq; lia).
    destruct Hc as [-> | ->]; simpl.
    + rewrite N.mul_0_r. reflexivity.
    + rewrite N.mul_1_r. reflexivity.
  - intros i Hi. apply N.mod_pow2_bits_low. lia.
Qed.

Definition down (d : N) (n : nat) : list nat :=
  filter (fun i => N.testbit d (N.of_nat i)) (rev (seq 0 n)).

Lemma down_S d n : down d (S n) = if N.testbit d (N.of_nat n) then n :: down d n else down d n.
Proof. unfold down. rewrite seq_S, rev_app_distr. simpl. reflexivity. Qed.

Lemma down_ext a b n : (forall i, i < n -> N.testbit a (N.of_nat i) = N.testbit b (N.of_nat i)) ->
  down a n = down b n.
Proof.
  intros H. apply filter_ext_in. intros i Hi. apply in_rev, in_seq in Hi. apply H. lia.
Qed.

Lemma down_lt d n x : In x (down d n) -> x < n.
Proof. intros H. apply filter_In in H as [H _]. apply in_rev, in_seq in H. lia. Qed.

Lemma bits_lex n : forall a b, below n a -> below n b ->
  Some (N.compare a b) = lex (fun x y => Some (Nat.compare x y)) (down a n) (down b n).
Proof.
  induction n as [|n IH]; intros a b Ha Hb.
  - apply below_pow in Ha, Hb. simpl in Ha, Hb. assert (a = 0%N) by lia. assert (b = 0%N) by lia. subst. auto.
  - destruct (bit_top n a Ha) as (ra & Ba & Ea & Ta). destruct (bit_top n b Hb) as (rb & Bb & Eb & Tb).
    rewrite !down_S, <- (down_ext ra a n Ta), <- (down_ext rb b n Tb).
    specialize (IH ra rb Ba Bb). apply below_pow in Ba, Bb.
    destruct (N.testbit a (N.of_nat n)), (N.testbit b (N.of_nat n)); simpl.
    + rewrite Nat.compare_refl, <- IH. f_equal. rewrite Ea, Eb.
      destruct (N.compare_spec ra rb); rewrite ?N.compare_eq_iff, ?N.compare_lt_iff, ?N.compare_gt_iff; lia.
    + rewrite (proj2 (N.compare_gt_iff a b)) by lia.
      destruct (down rb n) as [|y r] eqn:E; auto.
      assert (y < n) by (apply (down_lt rb); rewrite E; simpl; auto).
      rewrite (proj2 (Nat.compare_gt_iff n y)) by lia. auto.
    + rewrite (proj2 (N.compare_lt_iff a b)) by lia.
      destruct (down ra n) as [|y r] eqn:E; auto. simpl.
      assert (y < n) by (apply (down_lt ra); rewrite E; simpl; auto).
      rewrite (proj2 (Nat.compare_lt_iff y n)) by lia. auto.
    + rewrite <- IH. f_equal. rewrite Ea, Eb. reflexivity.
Qed.

Lemma filter_rev {A} (p : A -> bool) l : filter p (rev l) = rev (filter p l).
Proof.
  induction l as [|x l IH]; simpl; auto. rewrite filter_app, IH. simpl.
  destruct (p x); simpl; rewrite ?app_nil_r; auto.
Qed.

Section BitSet.
  Variables (vs : variants) (u : units (keys vs)) (w : N).
  Hypothesis Eu : as_units vs = Some u.
  Hypothesis Hw : (N.of_nat (length (variants_of u)) <= w)%N.
  Local Notation m := (bit_set_storage u w).

  Lemma bit_yields (st : bit_set) l : yields (ss_Iter m) (set_iter m st) l -> l = bt_abs u st.
  Proof.
    intros Y. transitivity (flatten_rem (bt_iter u st)).
    - eapply yields_fun; [exact Y|]. apply (yields_rem _ (flatten_laws (keys vs))). exact I.
    - apply bt_iter_rem.
  Qed.

  Lemma bit_abs_down st : map (index_of u) (rev (bt_abs u st)) = down (bt_data st) (length (variants_of u)).
  Proof.
    unfold bt_abs, down. rewrite filter_rev, map_rev. f_equal.
    rewrite <- variants_seq. rewrite filter_map_comm. reflexivity.
  Qed.

  Lemma bit_lex a b la lb : set_reachable m a -> set_reachable m b ->
    yields (ss_Iter m) (set_iter m a) la -> yields (ss_Iter m) (set_iter m b) lb ->
    Some (N.compare (bt_data a) (bt_data b)) = lex (by_variant vs) (rev la) (rev lb).
  Proof.
    intros Ra Rb Ya Yb. apply (s_reach_inv (bit_slaws u w Hw)) in Ra, Rb. apply bit_yields in Ya, Yb. subst la lb.
    rewrite (bits_lex (length (variants_of u))) by auto. rewrite <- !bit_abs_down.
    apply lex_map. intros x y. rewrite !(as_units_index vs u Eu). reflexivity.
  Qed.

  Lemma bit_ord : ord_laws (fun _ => True) (set_eq m) (fun a b => N.compare (bt_data a) (bt_data b)).
  Proof.
    constructor.
    - intros a b _ _. unfold set_eq. simpl. rewrite N.compare_eq_iff, N.eqb_eq. tauto.
    - intros a b _ _. apply N.compare_antisym.
    - intros a b c o _ _ _. destruct o; rewrite ?N.compare_eq_iff, ?N.compare_lt_iff, ?N.compare_gt_iff; lia.
  Qed.
End BitSet.

(** * Which keys are ordered and hashable *)

Lemma derive_not_units bitset vs ki : all_units vs = false -> derive (KEnum bitset vs) = Some ki ->
  exists fs, ki = derive_any fs.
Proof.
  intros H. simpl. rewrite (as_units_none vs H). destruct (derive_fields vs) as [fs|]; simpl; [|discriminate].
  intros [= <-]. eauto.
Qed.

Lemma map_traits t ki V : derive t = Some ki -> unit_enum t = false ->
  ms_hash (ki_map ki V) = None /\ ms_partial_cmp (ki_map ki V) = None /\ ms_cmp (ki_map ki V) = None.
Proof.
  destruct t as [| |p|t|bs vs]; intros E H.
  - injection E as <-. auto.
  - injection E as <-. auto.
  - injection E as <-. auto.
  - simpl in E. destruct (derive t); [|discriminate]. injection E as <-. auto.
  - destruct (derive_not_units bs vs ki H E) as [fs ->]. auto.
Qed.

Lemma set_traits t ki : derive t = Some ki -> unit_enum t = false -> t <> KUnit ->
  ss_hash (ki_set ki) = None /\ ss_partial_cmp (ki_set ki) = None /\ ss_cmp (ki_set ki) = None.
Proof.
  destruct t as [| |p|t|bs vs]; intros E H N.
  - injection E as <-. auto.
  - congruence.
  - injection E as <-. auto.
  - simpl in E. destruct (derive t); [|discriminate]. injection E as <-. auto.
  - destruct (derive_not_units bs vs ki H E) as [fs ->]. auto.
Qed.

Lemma set_raw_none t ki : derive t = Some ki ->
  match t with KEnum true vs => all_units vs | _ => false end = false -> ss_raw (ki_set ki) = None.
Proof.
  destruct t as [| |p|t|bs vs]; intros E H.
  - injection E as <-. auto.
  - injection E as <-. auto.
  - injection E as <-. auto.
  - simpl in E. destruct (derive t); [|discriminate]. injection E as <-. auto.
  - destruct (all_units vs) eqn:Q.
    + destruct (derive_units bs vs ki Q E) as (u & _ & [[_ ->]|(-> & _)]); auto. discriminate.
    + destruct (derive_not_units bs vs ki Q E) as [fs ->]. auto.
Qed.

(** * Sets of every ordered key type *)

Lemma ord_weaken {A} (P Q : A -> Prop) eq cmp : (forall a, Q a -> P a) -> ord_laws P eq cmp -> ord_laws Q eq cmp.
Proof. intros H [E D T]. constructor; eauto. Qed.

Lemma set_order t ki g : derive t = Some ki -> set_cmp (ki_set ki) = Some g ->
  exists f, set_partial_cmp (ki_set ki) = Some f /\ (forall a b, f a b = Some (g a b)) /\
    ord_laws (set_reachable (ki_set ki)) (set_eq (ki_set ki)) g.
Proof.
  intros E Eg. destruct (unit_enum t) eqn:Ht.
  - destruct t as [| |p|t|bs vs]; try discriminate Ht.
    destruct (derive_units bs vs ki Ht E) as (u & Eu & [[_ ->]|(_ & w & Hw & ->)]).
    + injection Eg as <-. eexists. split; [reflexivity|]. split.
      * intros a b. destruct (array_yields vs u a) as [la Ya]. destruct (array_yields vs u b) as [lb Yb].
        destruct (array_lex vs u Eu a b la lb Ya Yb) as [H1 H2]. rewrite H1, H2. reflexivity.
      * eapply ord_weaken; [|apply array_ord]. intros; exact I.
    + injection Eg as <-. eexists. split; [reflexivity|]. split; [reflexivity|].
      eapply ord_weaken; [|apply bit_ord; apply determine_bits_le; exact Hw]. intros; exact I.
  - destruct t as [| |p|t|bs vs];
      try (destruct (set_traits _ ki E Ht ltac:(discriminate)) as (_ & _ & N); unfold set_cmp in Eg; congruence).
    injection E as <-. injection Eg as <-. eexists. split; [reflexivity|]. split; [reflexivity|].
    constructor.
    + intros [a] [b] _ _. destruct a, b; simpl; split; auto; discriminate.
    + intros [a] [b] _ _. destruct a, b; auto.
    + intros [a] [b] [c] o _ _ _. destruct a, b, c; simpl; congruence.
Qed.

(** * Hashes *)

Lemma map_hash_eq t ki V h veq f : derive t = Some ki -> map_hash (ki_map ki V) h = Some f ->
  (forall x y, veq x y = true -> h x = h y) ->
  forall a b, map_eq (ki_map ki V) veq a b = true -> f a = f b.
Proof.
  intros E Ef Hh. destruct (unit_enum t) eqn:Ht.
  - destruct t as [| |p|t|bs vs]; try discriminate Ht.
    assert (exists u, ki_map ki V = unit_map_storage u V) as (u & Em).
    { destruct (map_is_unit bs vs ki V Ht E) as (u & _ & H). eauto. }
    revert f Ef. rewrite Em. intros f [= <-] a b H.
    destruct (unit_map_hash u veq h Hh a b H) as [H1 H2].
    change (hash_array (hash_option h) (arr_elems u (um_data a)) =
            hash_array (hash_option h) (arr_elems u (um_data b))).
    unfold hash_array. rewrite H1, H2. reflexivity.
  - destruct (map_traits t ki V E Ht) as (N & _). unfold map_hash in Ef. rewrite N in Ef. discriminate.
Qed.

Lemma set_hash_eq t ki f : derive t = Some ki -> set_hash (ki_set ki) = Some f ->
  forall a b, set_eq (ki_set ki) a b = true -> f a = f b.
Proof.
  intros E Ef. destruct (unit_enum t) eqn:Ht.
  - destruct t as [| |p|t|bs vs]; try discriminate Ht.
    destruct (derive_units bs vs ki Ht E) as (u & Eu & [[_ ->]|(_ & w & Hw & ->)]).
    + injection Ef as <-. intros a b H. apply array_eq in H.
      replace (arr_elems u (us_data u a)) with (arr_elems u (us_data u b)); auto.
      rewrite !arr_elems_map. apply map_ext. intros k.
      assert (Hk : forall x : unit_set u, In k (filter (arr_get u (us_data u x)) (variants_of u)) <->
                             arr_get u (us_data u x) k = true).
      { intros x. rewrite filter_In. split; [tauto|]. intros ->. split; auto. apply variants_all. }
      apply bool_ext. rewrite <- !Hk, H. reflexivity.
    + injection Ef as <-. intros a b H. unfold set_eq in H. simpl in H. apply N.eqb_eq in H. rewrite H. reflexivity.
  - destruct t as [| |p|t|bs vs];
      try (destruct (set_traits _ ki E Ht ltac:(discriminate)) as (N & _); unfold set_hash in Ef; congruence).
    injection E as <-. injection Ef as <-. intros [[]] [[]]; simpl; auto; discriminate.
Qed.

(** * Statements for all key types *)

Lemma map_pc_lists bs vs ki V : all_units vs = true -> derive (KEnum bs vs) = Some ki -> forall pc,
  exists f, map_partial_cmp (ki_map ki V) pc = Some f /\
    forall a b, map_reachable (ki_map ki V) a -> map_reachable (ki_map ki V) b ->
    exists la lb, yields (ms_Iter (ki_map ki V)) (map_iter (ki_map ki V) a) la /\
      yields (ms_Iter (ki_map ki V)) (map_iter (ki_map ki V) b) lb /\
      f a b = lex (by_entry vs pc) la lb.
Proof.
  intros H E pc. destruct (map_pc_lex bs vs ki V H E pc) as (f & Ef & Hf). exists f. split; auto.
  intros a b Ra Rb. destruct (map_yields bs vs ki V E a Ra) as [la Ya].
  destruct (map_yields bs vs ki V E b Rb) as [lb Yb]. exists la, lb. auto.
Qed.

Lemma map_cmp_lists bs vs ki V : all_units vs = true -> derive (KEnum bs vs) = Some ki -> forall c,
  exists g, map_cmp (ki_map ki V) c = Some g /\
    forall a b, map_reachable (ki_map ki V) a -> map_reachable (ki_map ki V) b ->
    exists la lb, yields (ms_Iter (ki_map ki V)) (map_iter (ki_map ki V) a) la /\
      yields (ms_Iter (ki_map ki V)) (map_iter (ki_map ki V) b) lb /\
      Some (g a b) = lex (by_entry vs (fun x y => Some (c x y))) la lb.
Proof.
  intros H E c. destruct (map_cmp_lex bs vs ki V H E c) as (f & Ef & Hf). exists f. split; auto.
  intros a b Ra Rb. destruct (map_yields bs vs ki V E a Ra) as [la Ya].
  destruct (map_yields bs vs ki V E b Rb) as [lb Yb]. exists la, lb. auto.
Qed.

Lemma unit_traits t ki V : derive t = Some ki -> unit_enum t = true ->
  (forall h, map_hash (ki_map ki V) h <> None) /\ (forall pc, map_partial_cmp (ki_map ki V) pc <> None) /\
  (forall c, map_cmp (ki_map ki V) c <> None) /\
  set_hash (ki_set ki) <> None /\ set_partial_cmp (ki_set ki) <> None /\ set_cmp (ki_set ki) <> None.
Proof.
  intros E H. destruct t as [| |p|t|bs vs]; try discriminate H.
  destruct (derive_units bs vs ki H E) as (u & Eu & [[_ ->]|(_ & w & Hw & ->)]); repeat split; discriminate.
Qed.

Lemma map_ordered_keys t ki V : derive t = Some ki ->
  (unit_enum t = true <-> forall c, map_cmp (ki_map ki V) c <> None) /\
  (unit_enum t = true <-> forall pc, map_partial_cmp (ki_map ki V) pc <> None).
Proof.
  intros E. destruct (unit_enum t) eqn:Ht.
  - pose proof (unit_traits t ki V E Ht). tauto.
  - destruct (map_traits t ki V E Ht) as (_ & H1 & H2). unfold map_cmp, map_partial_cmp. rewrite H1, H2.
    split; (split; [discriminate|]); intros H; exfalso; [apply (H (fun _ _ => Eq))|apply (H (fun _ _ => None))]; auto.
Qed.

Lemma hash_keys t ki V : derive t = Some ki ->
  (unit_enum t = true <-> forall h, map_hash (ki_map ki V) h <> None) /\
  (unit_enum t = true \/ t = KUnit <-> set_hash (ki_set ki) <> None).
Proof.
  intros E. destruct (unit_enum t) eqn:Ht.
  - pose proof (unit_traits t ki V E Ht). tauto.
  - destruct (map_traits t ki V E Ht) as (H1 & _). unfold map_hash. rewrite H1. split.
    + split; [discriminate|]. intros H. exfalso. apply (H (fun _ => [])). auto.
    + destruct t as [| |p|t|bs vs];
        try (destruct (set_traits _ ki E Ht ltac:(discriminate)) as (N & _); unfold set_hash; rewrite N;
             split; [intros [H|H]; discriminate|congruence]).
      injection E as <-. split; auto. discriminate.
Qed.

Lemma set_ordered_keys t ki : derive t = Some ki ->
  (unit_enum t = true \/ t = KUnit <-> set_cmp (ki_set ki) <> None) /\
  (unit_enum t = true \/ t = KUnit <-> set_partial_cmp (ki_set ki) <> None).
Proof.
  intros E. destruct (unit_enum t) eqn:Ht.
  - pose proof (unit_traits t ki unit E Ht). tauto.
  - destruct t as [| |p|t|bs vs];
        try (destruct (set_traits _ ki E Ht ltac:(discriminate)) as (_ & N1 & N2);
             unfold set_cmp, set_partial_cmp; rewrite N1, N2;
             split; (split; [intros [H|H]; discriminate|congruence])).
    injection E as <-. split; (split; [discriminate|auto]).
Qed.

Lemma set_order_full t ki g : derive t = Some ki -> set_cmp (ki_set ki) = Some g ->
  exists f lt le gt ge mx mn cl,
    set_partial_cmp (ki_set ki) = Some f /\
    (forall a b, set_reachable (ki_set ki) a -> set_reachable (ki_set ki) b ->
       f a b = Some (g a b)) /\
    ord_laws (set_reachable (ki_set ki)) (set_eq (ki_set ki)) g /\
    set_lt (ki_set ki) = Some lt /\ set_le (ki_set ki) = Some le /\
    set_gt (ki_set ki) = Some gt /\ set_ge (ki_set ki) = Some ge /\
    set_max (ki_set ki) = Some mx /\ set_min (ki_set ki) = Some mn /\
    set_clamp (ki_set ki) = Some cl /\
    operators (set_reachable (ki_set ki)) f lt le gt ge /\
    selectors (set_reachable (ki_set ki)) g mx mn cl.
Proof.
  intros E Eg. destruct (set_order t ki g E Eg) as (f & Ef & A & L).
  destruct (set_order_all (ki_set ki) _ f g Ef Eg A L)
    as (lt & le & gt & ge & mx & mn & cl & H).
  exists f, lt, le, gt, ge, mx, mn, cl. destruct H as (? & ? & ? & ? & ? & ? & ? & ? & ?).
  repeat (split; [assumption || (intros; apply A)|]). assumption.
Qed.

Lemma array_cmp_lists vs ki : all_units vs = true -> derive (KEnum false vs) = Some ki ->
  exists f g, set_partial_cmp (ki_set ki) = Some f /\ set_cmp (ki_set ki) = Some g /\
    forall a b, set_reachable (ki_set ki) a -> set_reachable (ki_set ki) b ->
    exists la lb, yields (ss_Iter (ki_set ki)) (set_iter (ki_set ki) a) la /\
      yields (ss_Iter (ki_set ki)) (set_iter (ki_set ki) b) lb /\
      f a b = lex (by_variant vs) la lb /\ Some (g a b) = lex (by_variant vs) la lb.
Proof.
  intros H E. destruct (derive_units false vs ki H E) as (u & Eu & [[_ ->]|(N & _)]); [|discriminate].
  do 2 eexists. split; [reflexivity|]. split; [reflexivity|]. intros a b _ _.
  destruct (array_yields vs u a) as [la Ya]. destruct (array_yields vs u b) as [lb Yb].
  exists la, lb. split; auto. split; auto. apply (array_lex vs u Eu); auto.
Qed.

Lemma bit_cmp_lists vs ki : all_units vs = true -> derive (KEnum true vs) = Some ki ->
  exists f g, set_partial_cmp (ki_set ki) = Some f /\ set_cmp (ki_set ki) = Some g /\
    forall a b, set_reachable (ki_set ki) a -> set_reachable (ki_set ki) b ->
    exists la lb, yields (ss_Iter (ki_set ki)) (set_iter (ki_set ki) a) la /\
      yields (ss_Iter (ki_set ki)) (set_iter (ki_set ki) b) lb /\
      f a b = lex (by_variant vs) (rev la) (rev lb) /\
      Some (g a b) = lex (by_variant vs) (rev la) (rev lb).
Proof.
  intros H E. destruct (derive_units true vs ki H E) as (u & Eu & [[N _]|(_ & w & Hw & ->)]); [discriminate|].
  apply determine_bits_le in Hw.
  do 2 eexists. split; [reflexivity|]. split; [reflexivity|]. intros a b Ra Rb.
  pose proof (s_iter (bit_slaws u w Hw) a (s_reach_inv _ a Ra)) as Ya.
  pose proof (s_iter (bit_slaws u w Hw) b (s_reach_inv _ b Rb)) as Yb.
  do 2 eexists. split; [exact Ya|]. split; [exact Yb|].
  split; apply (bit_lex vs u w Eu Hw); auto.
Qed.

Lemma single_cmp_lists ki : derive KUnit = Some ki ->
  exists f g, set_partial_cmp (ki_set ki) = Some f /\ set_cmp (ki_set ki) = Some g /\
    forall a b, set_reachable (ki_set ki) a -> set_reachable (ki_set ki) b ->
    exists la lb, yields (ss_Iter (ki_set ki)) (set_iter (ki_set ki) a) la /\
      yields (ss_Iter (ki_set ki)) (set_iter (ki_set ki) b) lb /\
      f a b = lex (fun _ _ => Some Eq) la lb /\ Some (g a b) = lex (fun _ _ => Some Eq) la lb.
Proof.
  intros E. injection E as <-. do 2 eexists. split; [reflexivity|]. split; [reflexivity|].
  intros a b _ _.
  assert (Y : forall x : single_set, yields (ss_Iter single_set_storage) (set_iter single_set_storage x)
                (if st_is_set x then [tt] else [])).
  { intros [[|]]; exists 2; intros [|[|n]] Hn; try lia; reflexivity. }
  do 2 eexists. split; [apply Y|]. split; [apply Y|].
  destruct a as [[|]], b as [[|]]; split; reflexivity.
Qed.

(** The order of the naturals, for the examples. *)
Lemma nat_ord : ord_laws (fun _ => True) Nat.eqb Nat.compare.
Proof.
  constructor.
  - intros a b _ _. rewrite Nat.compare_eq_iff, Nat.eqb_eq. reflexivity.
  - intros a b _ _. apply Nat.compare_antisym.
  - intros a b c o _ _ _ <-. destruct (Nat.compare_spec a b) as [->|H|H]; auto; intros H'.
    + apply Nat.compare_lt_iff. apply Nat.compare_lt_iff in H'. eapply Nat.lt_trans; eauto.
    + apply Nat.compare_gt_iff. apply Nat.compare_gt_iff in H'. eapply Nat.lt_trans; eauto.
Qed.
