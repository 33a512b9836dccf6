(** Proofs about the front end of the derive. *)
Require Import List Arith NArith Bool Lia.
Import ListNotations.
From Verif Require Import Std Traits DeriveUnit DeriveAny Key Api Spec OrdProofs RawProofs
  Front FrontSpec Samples.

(** * Attributes *)

Definition item_sees (items : list item) : Prop :=
  exists n tail rest, items = repeat (IBitset false) n ++ IBitset tail :: rest.

Lemma nested_sees items b : fst (parse_nested_meta items b) = true <-> b = true \/ item_sees items.
Proof.
  revert b. induction items as [|[[]| |] r IH]; intros b; simpl.
  - split; auto. intros [H|(n & t & s & H)]; auto. destruct n; discriminate.
  - split; auto. intros _. right. exists 0, true, r. reflexivity.
  - rewrite IH. split; auto. intros _. right. exists 0, false, r. reflexivity.
  - split; auto. intros [H|(n & t & s & H)]; auto. destruct n; discriminate.
  - split; auto. intros [H|(n & t & s & H)]; auto. destruct n; discriminate.
Qed.

Lemma nested_known items b :
  snd (parse_nested_meta items b) = true <-> Forall (eq (IBitset false)) items.
Proof.
  revert b. induction items as [|[[]| |] r IH]; intros b; simpl.
  - split; auto.
  - split; [discriminate|]. intros H. inversion H; discriminate.
  - rewrite IH. split; [constructor; auto|]. intros H. inversion H; auto.
  - split; [discriminate|]. intros H. inversion H; discriminate.
  - split; [discriminate|]. intros H. inversion H; discriminate.
Qed.

Lemma attrs_sees l : forall b e, fst (attrs_parse l b e) = true <->
  b = true \/ exists items, In (AttrKey items) l /\ item_sees items.
Proof.
  induction l as [|[| |items] r IH]; intros b e; simpl.
  - split; auto. intros [H|(it & [] & _)]; auto.
  - rewrite IH. split; (intros [H|(it & H & S)]; [auto|right; exists it]).
    + auto.
    + destruct H; [discriminate|auto].
  - rewrite IH. split; (intros [H|(it & H & S)]; [auto|right; exists it]).
    + auto.
    + destruct H; [discriminate|auto].
  - pose proof (nested_sees items b) as N. destruct (parse_nested_meta items b) as [b' ok].
    simpl in N. rewrite IH, N. clear. split.
    + intros [[H|H]|(it & H & S)]; [auto|right; exists items; auto|right; exists it; auto].
    + intros [H|(it & [H|H] & S)]; [auto| |right; exists it; auto].
      injection H as <-. auto.
Qed.

Lemma sees_iff i : fst (attrs_parse (in_attrs i) false []) = true <-> sees_bitset i.
Proof.
  rewrite attrs_sees. unfold sees_bitset, item_sees. split.
  - intros [H|(items & H & n & t & r & ->)]; [discriminate|]. exists n, t, r. auto.
  - intros (n & t & r & H). right. eexists. split; [exact H|]. exists n, t, r. auto.
Qed.

Lemma known_items items : Forall (eq (IBitset false)) items -> items = repeat (IBitset false) (length items).
Proof. induction 1; simpl; congruence. Qed.

Lemma known_sees i : Forall known_attr (in_attrs i) -> (sees_bitset i <-> asks_bitset i).
Proof.
  intros H. split.
  - intros (n & t & r & I). do 2 eexists. split; [exact I|]. apply in_or_app. right. left. reflexivity.
  - intros (items & t & I & J). rewrite Forall_forall in H. pose proof (H _ I) as K. simpl in K.
    assert (t = false) by (rewrite Forall_forall in K; specialize (K _ J); congruence). subst.
    destruct items as [|x r]; [destruct J|]. inversion K; subst.
    exists 0, false, r. exact I.
Qed.

(** * The loop over the variants *)

Lemma loop_panic l : forall ix fs e, fst (any_loop l ix fs e) = None <-> In (FieldsUnnamed []) l.
Proof.
  induction l as [|[|[|x [|y s]]|] r IH]; intros ix fs e; simpl.
  - split; [discriminate|tauto].
  - rewrite IH. split; [auto|]. intros [H|H]; [discriminate|auto].
  - split; auto.
  - rewrite IH. split; [auto|]. intros [H|H]; [discriminate|auto].
  - rewrite IH. split; [auto|]. intros [H|H]; [discriminate|auto].
  - rewrite IH. split; [auto|]. intros [H|H]; [discriminate|auto].
Qed.

(** The fields pushed, in order. *)
Fixpoint loop_fields (l : list vfields) (ix : nat) : list (nat * kind) :=
  match l with
  | [] => []
  | FieldsUnit :: r => (ix, KindSimple) :: loop_fields r (S ix)
  | FieldsUnnamed [ty] :: r => (ix, KindComplex ty) :: loop_fields r (S ix)
  | _ :: r => loop_fields r (S ix)
  end.

Lemma loop_result l : forall ix fs e fs' e', any_loop l ix fs e = (Some fs', e') ->
  fs' = fs ++ loop_fields l ix.
Proof.
  induction l as [|[|[|x [|y s]]|] r IH]; intros ix fs e fs' e' H; simpl in *.
  - injection H as <- _. rewrite app_nil_r. reflexivity.
  - apply IH in H. rewrite <- app_assoc in H. exact H.
  - discriminate.
  - apply IH in H. rewrite <- app_assoc in H. exact H.
  - apply IH in H. exact H.
  - apply IH in H. exact H.
Qed.

Lemma loop_indices l ix : forall j k, In (j, k) (loop_fields l ix) -> ix <= j.
Proof.
  revert ix. induction l as [|[|[|x [|y s]]|] r IH]; intros ix j k H; simpl in H; try tauto;
    try (destruct H as [H|H]; [injection H as <- _; lia|]); apply IH in H; lia.
Qed.

Lemma check_late fs ix n j k : S ix <= j -> check_any ix (S n) ((j, k) :: fs) = None.
Proof. intros H. simpl. destruct (Nat.eqb_spec j ix); auto. lia. Qed.

Lemma check_skipped r ix n : check_any ix (S n) (loop_fields r (S ix)) = None.
Proof.
  destruct (loop_fields r (S ix)) as [|[j k] fs] eqn:E; [reflexivity|].
  apply check_late. apply (loop_indices r (S ix) j k). rewrite E. left. reflexivity.
Qed.

Lemma check_declares l : ~ In (FieldsUnnamed []) l -> forall ix vs,
  check_any ix (length l) (loop_fields l ix) = Some vs <-> declares l vs.
Proof.
  induction l as [|[|[|x [|y s]]|] r IH]; intros Hn ix vs.
  - simpl. split; [intros [= <-]; constructor|]. intros H. inversion H. reflexivity.
  - simpl in Hn. simpl. rewrite Nat.eqb_refl.
    assert (Hr : ~ In (FieldsUnnamed []) r) by tauto. specialize (IH Hr (S ix)).
    destruct (check_any (S ix) (length r) (loop_fields r (S ix))) as [w|] eqn:E.
    + split.
      * intros [= <-]. constructor. apply IH. reflexivity.
      * intros H. inversion H; subst. apply IH in H1. congruence.
    + split; [discriminate|]. intros H. inversion H; subst. apply IH in H1. discriminate.
  - exfalso. apply Hn. left. reflexivity.
  - simpl in Hn. simpl. rewrite Nat.eqb_refl.
    assert (Hr : ~ In (FieldsUnnamed []) r) by tauto. specialize (IH Hr (S ix)).
    destruct (check_any (S ix) (length r) (loop_fields r (S ix))) as [w|] eqn:E.
    + destruct x as [t|]; simpl.
      * destruct (derive t) as [ki|] eqn:D.
        -- split.
           ++ intros [= <-]. econstructor; eauto. apply IH. reflexivity.
           ++ intros H. inversion H; subst. apply IH in H4. congruence.
        -- split; [discriminate|]. intros H. inversion H; subst. congruence.
      * split; [discriminate|]. intros H. inversion H.
    + split; [discriminate|]. intros H. inversion H; subst. apply IH in H4. discriminate.
  - split; [|intros H; inversion H]. simpl length.
    change (loop_fields (FieldsUnnamed (x :: y :: s) :: r) ix) with (loop_fields r (S ix)).
    rewrite check_skipped. discriminate.
  - split; [|intros H; inversion H]. simpl length.
    change (loop_fields (FieldsNamed :: r) ix) with (loop_fields r (S ix)).
    rewrite check_skipped. discriminate.
Qed.

Lemma check_not_declares l ix : ~ In (FieldsUnnamed []) l ->
  (check_any ix (length l) (loop_fields l ix) = None <-> ~ exists vs, declares l vs).
Proof.
  intros H. destruct (check_any ix (length l) (loop_fields l ix)) as [vs|] eqn:E.
  - apply check_declares in E; auto. split; [discriminate|]. intros N. destruct N. eauto.
  - split; auto. intros _ [vs D]. apply (check_declares l H ix) in D. congruence.
Qed.

(** * Unit enums *)

Lemma units_declares l vs : declares l vs -> is_all_unit_variants l = all_units vs.
Proof. induction 1; simpl; auto. Qed.

Lemma units_shape l : is_all_unit_variants l = true -> declares l (unit_variants (length l)).
Proof.
  induction l as [|[|tys|] r IH]; simpl; intros H; try discriminate; constructor; auto.
Qed.

Lemma declares_fun l vs : declares l vs -> forall vs', declares l vs' -> vs = vs'.
Proof.
  induction 1; intros vs' H'; inversion H'; subst; auto; f_equal; auto.
Qed.

Lemma declares_count l vs : declares l vs -> length l = variant_count vs.
Proof. induction 1; simpl; auto. Qed.

Lemma declares_no_empty l vs : declares l vs -> ~ In (FieldsUnnamed []) l.
Proof. induction 1; simpl; intuition discriminate. Qed.

Lemma declares_derive l vs : declares l vs -> exists fs, derive_fields vs = Some fs.
Proof.
  induction 1.
  - eexists. reflexivity.
  - destruct IHdeclares as [fs E]. simpl. rewrite E. eexists. reflexivity.
  - destruct IHdeclares as [fs E]. simpl. rewrite H, E. eexists. reflexivity.
Qed.

(** The flag does not matter unless all variants are unit variants. *)
Lemma derive_flag vs b : all_units vs = false -> derive (KEnum b vs) = derive (KEnum false vs).
Proof. intros H. simpl. rewrite (as_units_none vs H). reflexivity. Qed.

(** * Outcomes *)

Lemma expand_accepted i t : expand i = Accepted t <->
  exists b vs, t = KEnum b vs /\ shape i vs /\
    (b = true <-> sees_bitset i /\ all_units vs = true) /\
    (b = true -> (N.of_nat (variant_count vs) <= 128)%N).
Proof.
  unfold expand, storage_derive, impl_storage, shape.
  pose proof (sees_iff i) as S. destruct (attrs_parse (in_attrs i) false []) as [b e]. simpl in S.
  destruct (in_data i) as [l| |].
  - destruct (is_all_unit_variants l) eqn:U.
    + pose proof (units_shape l U) as D. pose proof (units_declares _ _ D) as A. rewrite U in A. symmetry in A.
      pose proof (declares_count _ _ D) as C.
      unfold unit_implement. destruct b.
      * destruct (determine_bits (N.of_nat (length l))) as [w|] eqn:B.
        -- assert (H128 : (N.of_nat (length l) <= 128)%N).
           { destruct (N.le_gt_cases (N.of_nat (length l)) 128); auto.
             apply determine_bits_none in H. congruence. }
           split.
           ++ intros [= <-]. exists true, (unit_variants (length l)). split; auto. split; [eauto|].
              split; [intuition congruence|]. rewrite <- C. auto.
           ++ intros (b & vs & -> & (l' & [= <-] & D') & Hb & _).
              rewrite (declares_fun _ _ D' _ D) in *. f_equal. f_equal.
              destruct b; auto. symmetry. intuition congruence.
        -- apply determine_bits_none in B. split; [discriminate|].
           intros (b & vs & -> & (l' & [= <-] & D') & Hb & Hn).
           rewrite (declares_fun _ _ D' _ D) in *. rewrite <- C in Hn.
           assert (b = true) by intuition congruence. apply Hn in H. lia.
      * split.
        -- intros [= <-]. exists false, (unit_variants (length l)). split; auto. split; [eauto|].
           split; [|discriminate]. split; [discriminate|]. intros [H _]. intuition congruence.
        -- intros (b & vs & -> & (l' & [= <-] & D') & Hb & _).
           rewrite (declares_fun _ _ D' _ D) in *. f_equal. f_equal.
           destruct b; auto. symmetry. intuition congruence.
    + unfold any_implement. destruct (any_loop l 0 [] e) as [[fs|] e'] eqn:L.
      * pose proof (loop_panic l 0 [] e) as P. rewrite L in P. simpl in P.
        assert (Hn : ~ In (FieldsUnnamed []) l) by (intros H; apply P in H; discriminate).
        apply loop_result in L. simpl in L. subst fs.
        destruct (check_any 0 (length l) (loop_fields l 0)) as [vs|] eqn:K.
        -- apply check_declares in K; auto. pose proof (units_declares _ _ K) as A. rewrite U in A. symmetry in A.
           split.
           ++ intros [= <-]. exists false, vs. split; auto. split; [eauto|].
              split; [|discriminate]. split; [discriminate|]. intros [_ H]. congruence.
           ++ intros (b' & vs' & -> & (l' & [= <-] & D') & Hb & _).
              rewrite (declares_fun _ _ D' _ K) in *. f_equal. f_equal.
              destruct b'; auto. exfalso. assert (all_units vs = true) by intuition congruence. congruence.
        -- apply check_not_declares in K; auto. split; [discriminate|].
           intros (b' & vs' & -> & (l' & [= <-] & D') & _). exfalso. eauto.
      * pose proof (loop_panic l 0 [] e) as P. rewrite L in P. simpl in P. split; [discriminate|].
        intros (b' & vs' & -> & (l' & [= <-] & D') & _). exfalso.
        apply (declares_no_empty _ _ D'). intuition congruence.
  - split; [discriminate|]. intros (b' & vs' & -> & (l' & H & _) & _). discriminate.
  - split; [discriminate|]. intros (b' & vs' & -> & (l' & H & _) & _). discriminate.
Qed.

Lemma accepted_derives i t : expand i = Accepted t -> exists ki, derive t = Some ki.
Proof.
  intros H. apply expand_accepted in H as (b & vs & -> & (l & E & D) & Hb & Hn).
  destruct (all_units vs) eqn:A.
  - destruct b.
    + destruct (derive (KEnum true vs)) as [ki|] eqn:K; [eauto|].
      apply (derive_bitset vs A) in K. specialize (Hn eq_refl). lia.
    + destruct (as_units_all vs A) as [u Eu]. eexists. simpl. rewrite Eu. reflexivity.
  - destruct (declares_derive _ _ D) as [fs F]. simpl. rewrite (as_units_none vs A), F. eexists. reflexivity.
Qed.

Lemma expand_supported i b vs : supported i b vs ->
  expand i = Accepted (KEnum b vs) /\
  exists ki, derive (KEnum b vs) = Some ki /\
    (set_as_raw (ki_set ki) <> None <-> b = true) /\ (set_from_raw (ki_set ki) <> None <-> b = true).
Proof.
  intros (K & Hb & Sh & Hn).
  assert (A : expand i = Accepted (KEnum b vs)).
  { apply expand_accepted. exists b, vs. split; auto. split; auto. rewrite (known_sees i K). split.
    - split; [|intuition congruence]. intros B. split; [tauto|]. apply Hn, B.
    - intros B. apply Hn, B. }
  split; auto. destruct (accepted_derives i _ A) as [ki D]. exists ki. split; auto.
  destruct (raw_keys _ ki D) as [R1 R2]. rewrite R1, R2.
  assert (Q : (exists vs', KEnum b vs = KEnum true vs' /\ all_units vs' = true) <-> b = true).
  { split.
    - intros (vs' & [= -> _] & _). reflexivity.
    - intros ->. exists vs. split; auto. apply Hn. reflexivity. }
  split; exact Q.
Qed.

Lemma expand_shape i t : expand i = Accepted t ->
  exists b vs ki, t = KEnum b vs /\ shape i vs /\ derive t = Some ki /\
    (b = true -> (N.of_nat (variant_count vs) <= 128)%N).
Proof.
  intros H. destruct (accepted_derives i t H) as [ki D].
  apply expand_accepted in H as (b & vs & E & S & _ & Hn). exists b, vs, ki. auto.
Qed.

(** Which way inputs are rejected. *)
Lemma expand_rejected i :
  (forall e, expand i = MacroErrors e ->
     exists e0 x, e = e0 ++ [x] /\
       ((x = ErrNotEnum /\ forall l, in_data i <> DataEnum l) \/
        (exists vs, x = ErrTooMany (N.of_nat (variant_count vs)) /\ sees_bitset i /\ shape i vs /\
           all_units vs = true /\ (128 < N.of_nat (variant_count vs))%N))) /\
  (expand i = MacroPanic <-> exists l, in_data i = DataEnum l /\ In (FieldsUnnamed []) l) /\
  (expand i = CompilerError <->
     exists l, in_data i = DataEnum l /\ ~ In (FieldsUnnamed []) l /\ ~ exists vs, declares l vs).
Proof.
  unfold expand, storage_derive, impl_storage, shape.
  pose proof (sees_iff i) as S. destruct (attrs_parse (in_attrs i) false []) as [b e]. simpl in S.
  destruct (in_data i) as [l| |].
  - destruct (is_all_unit_variants l) eqn:U.
    + pose proof (units_shape l U) as D. pose proof (units_declares _ _ D) as A. rewrite U in A. symmetry in A.
      pose proof (declares_count _ _ D) as C. pose proof (declares_no_empty _ _ D) as Ne.
      assert (F1 : (exists l0, DataEnum l = DataEnum l0 /\ In (FieldsUnnamed []) l0) -> False).
      { intros (l0 & [= <-] & H). auto. }
      assert (F2 : (exists l0, DataEnum l = DataEnum l0 /\ ~ In (FieldsUnnamed []) l0 /\
                    ~ exists vs, declares l0 vs) -> False).
      { intros (l0 & [= <-] & _ & H). eauto. }
      unfold unit_implement. destruct b; [destruct (determine_bits (N.of_nat (length l))) as [w|] eqn:B|].
      * split; [discriminate|]. split; (split; [discriminate|tauto]).
      * split; [|split; (split; [discriminate|tauto])].
        intros e1 [= <-]. exists e, (ErrTooMany (N.of_nat (length l))). split; auto. right.
        exists (unit_variants (length l)). apply determine_bits_none in B. rewrite <- C.
        split; auto. split; [tauto|]. split; [eauto|]. auto.
      * split; [discriminate|]. split; (split; [discriminate|tauto]).
    + unfold any_implement. destruct (any_loop l 0 [] e) as [[fs|] e'] eqn:L.
      * pose proof (loop_panic l 0 [] e) as P. rewrite L in P. simpl in P.
        assert (Hn : ~ In (FieldsUnnamed []) l) by (intros H; apply P in H; discriminate).
        apply loop_result in L. simpl in L. subst fs.
        destruct (check_any 0 (length l) (loop_fields l 0)) as [vs|] eqn:K.
        -- apply check_declares in K; auto. split; [discriminate|]. split; (split; [discriminate|]).
           ++ intros (l0 & [= <-] & H). tauto.
           ++ intros (l0 & [= <-] & _ & H). exfalso. eauto.
        -- apply check_not_declares in K; auto. split; [discriminate|]. split.
           ++ split; [discriminate|]. intros (l0 & [= <-] & H). tauto.
           ++ split; auto. intros _. exists l. auto.
      * pose proof (loop_panic l 0 [] e) as P. rewrite L in P. simpl in P.
        split; [discriminate|]. split.
        -- split; auto. intros _. exists l. split; auto. tauto.
        -- split; [discriminate|]. intros (l0 & [= <-] & H & _). tauto.
  - split; [|split; (split; [discriminate|]); intros (l & H & _); discriminate].
    intros e1 [= <-]. exists e, ErrNotEnum. split; auto. left. split; auto. discriminate.
  - split; [|split; (split; [discriminate|]); intros (l & H & _); discriminate].
    intros e1 [= <-]. exists e, ErrNotEnum. split; auto. left. split; auto. discriminate.
Qed.
