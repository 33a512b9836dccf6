(** Which traits are available, and that copying is cloning. *)
Require Import List Arith NArith Bool Lia.
Import ListNotations.
From Verif Require Import Std Traits OptionBucket Hashbrown MapStorages SetStorages DeriveUnit
  DeriveAny Key Avail Api Spec AvailSpec KeyLaws KeyFacts StateProofs.

Lemma as_units_all vs : (exists u, as_units vs = Some u) <-> all_units vs = true.
Proof.
  induction vs as [|r IH|t r IH]; simpl.
  - split; eauto.
  - rewrite <- IH. split; intros [u H].
    + destruct (as_units r) as [u'|]; [eauto|discriminate].
    + rewrite H. simpl. eauto.
  - split; [intros [u [=]]|discriminate].
Qed.

Lemma as_units_some vs u : as_units vs = Some u -> all_units vs = true.
Proof. intros H. apply as_units_all. eauto. Qed.

Lemma as_units_none vs : as_units vs = None -> all_units vs = false.
Proof.
  intros H. destruct (all_units vs) eqn:E; auto. apply as_units_all in E as [u E]. congruence.
Qed.

Lemma map_impls_closed :
  (forall t v tr, map_storage_impls t v tr =
     v tr && map_allows t tr) /\
  (forall vs v, v TCopy && fields_impl vs v TCopy = v TCopy && hash_free_variants vs).
Proof.
  unfold map_allows, set_allows, unit_enum. apply kty_mut; simpl.
  - intros v tr. destruct tr; rewrite ?andb_true_r, ?andb_false_r; reflexivity.
  - intros v tr. destruct tr; rewrite ?andb_true_r, ?andb_false_r; reflexivity.
  - intros p v tr. destruct tr; rewrite ?andb_true_r, ?andb_false_r; reflexivity.
  - intros t IH v tr. rewrite IH.
    destruct tr; rewrite ?andb_true_r, ?andb_false_r; auto; destruct (v _); reflexivity.
  - intros b vs IH v tr. destruct (as_units vs) as [u|] eqn:E.
    + apply as_units_some in E. rewrite E, (hash_free_units vs E).
      destruct tr; rewrite ?andb_true_r; reflexivity.
    + apply as_units_none in E. rewrite E.
      destruct tr; rewrite ?andb_true_r, ?andb_false_r; auto.
  - reflexivity.
  - auto.
  - intros t IHt r IHr v. rewrite IHt. specialize (IHr v). destruct (v TCopy); simpl in *; [|reflexivity].
    rewrite IHr. reflexivity.
Qed.

Lemma set_impls_closed :
  (forall t tr, set_storage_impls t tr =
set_allows t tr) /\
  (forall vs, set_fields_impl vs TClone = true /\ set_fields_impl vs TCopy = hash_free_variants vs).
Proof.
  unfold map_allows, set_allows, unit_enum. apply kty_mut; simpl.
  - intros tr. destruct tr; reflexivity.
  - intros tr. destruct tr; reflexivity.
  - intros p tr. destruct tr; reflexivity.
  - intros t IH tr. rewrite IH. destruct tr; reflexivity.
  - intros b vs [I1 I2] tr. destruct (as_units vs) as [u|] eqn:E.
    + apply as_units_some in E. rewrite E, (hash_free_units vs E). destruct tr; reflexivity.
    + apply as_units_none in E. rewrite E. destruct tr; auto.
  - auto.
  - auto.
  - intros t IHt r [I1 I2]. rewrite !IHt, I1, I2. auto.
Qed.

Lemma into_iter_closed :
  (forall t v, map_into_iter_clones t v = v && hash_free t /\
               set_into_iter_clones t = hash_free t) /\
  (forall vs v, v && fields_into_iter_clone vs v = v && hash_free_variants vs /\
                set_fields_into_iter_clone vs = hash_free_variants vs).
Proof.
  unfold map_allows, set_allows, unit_enum. apply kty_mut; simpl.
  - intros v. rewrite andb_true_r. auto.
  - intros v. rewrite andb_true_r. auto.
  - intros p v. rewrite andb_false_r. auto.
  - intros t IH v. destruct (IH v) as [-> ->]. split; auto. destruct v, (hash_free t); reflexivity.
  - intros b vs IH v. destruct (as_units vs) as [u|] eqn:E.
    + apply as_units_some in E. rewrite (hash_free_units vs E), andb_true_r. auto.
    + apply IH.
  - auto.
  - auto.
  - intros t IHt r IHr v. destruct (IHt v) as [-> ->], (IHr v) as [H ->]. split; auto.
    destruct v; simpl in *; [|reflexivity]. rewrite H. reflexivity.
Qed.

Lemma ops_present t ki : derive t = Some ki ->
  (forall V, present (ms_hash (ki_map ki V)) = unit_enum t /\
             present (ms_partial_cmp (ki_map ki V)) = unit_enum t /\
             present (ms_cmp (ki_map ki V)) = unit_enum t) /\
  let b := set_allows t THash in
  present (ss_hash (ki_set ki)) = b /\ present (ss_partial_cmp (ki_set ki)) = b /\
  present (ss_cmp (ki_set ki)) = b.
Proof.
  unfold set_allows, unit_enum. destruct t as [| |p|t|bitset vs]; simpl; intros E.
  - injection E as <-. repeat split.
  - injection E as <-. repeat split.
  - injection E as <-. repeat split.
  - destruct (derive t); [|discriminate]. injection E as <-. repeat split.
  - destruct (as_units vs) as [u|] eqn:Eu.
    + rewrite (as_units_some vs u Eu). unfold derive_unit in E. destruct bitset.
      * destruct (determine_bits _); [|discriminate]. injection E as <-. repeat split.
      * injection E as <-. repeat split.
    + rewrite (as_units_none vs Eu). destruct (derive_fields vs); [|discriminate].
      injection E as <-. repeat split.
Qed.

Lemma option_map_id {A} (o : option A) : option_map (fun x => x) o = o.
Proof. destruct o; reflexivity. Qed.

Definition clone_id {K} (ki : KeyImpl K) : Prop :=
  (forall V (st : ms_St (ki_map ki V)), ms_clone (ki_map ki V) (fun v => v) st = st) /\
  (forall st, ss_clone (ki_set ki) st = st).

Lemma any_clone_id {R} (fs : fields R) V :
  fields_canon (fun K ki => clone_id ki) fs ->
  (forall st, any_clone V (fun v => v) fs st = st) /\ (forall st, anys_clone fs st = st).
Proof.
  induction fs as [|R fs IH|K R ki fs IH]; simpl; intros P.
  - auto.
  - destruct (IH P) as [I1 I2]. split.
    + intros [o st]. simpl. rewrite option_map_id, I1. reflexivity.
    + intros [o st]. simpl. rewrite I2. reflexivity.
  - destruct P as [[P1 P2] P]. destruct (IH P) as [I1 I2]. split.
    + intros [o st]. simpl. rewrite P1, I1. reflexivity.
    + intros [o st]. simpl. rewrite P2, I2. reflexivity.
Qed.

Lemma arr_map_id {A R} (u : units R) (f : A -> A) (a : arr A u) :
  (forall x, f x = x) -> arr_map f u a = a.
Proof.
  intros E. induction u as [|R u IH]; simpl in *.
  - destruct a. reflexivity.
  - destruct a as [x a]. simpl. rewrite E, IH. reflexivity.
Qed.

Lemma derive_clone_id :
  (forall t ki, derive t = Some ki -> clone_id ki) /\
  (forall vs fs, derive_fields vs = Some fs -> fields_canon (fun K ki => clone_id ki) fs).
Proof.
  apply kty_mut.
  - intros ki [= <-]. split; [|reflexivity]. intros V [t f]. simpl.
    rewrite !option_map_id. reflexivity.
  - intros ki [= <-]. split; [|reflexivity]. intros V [o]. simpl.
    rewrite !option_map_id. reflexivity.
  - intros p ki [= <-]. split; [|reflexivity]. intros V [w l]. simpl. f_equal.
    rewrite <- (map_id l) at 2. apply map_ext. intros [k v]. reflexivity.
  - intros t IH ki E. simpl in E. destruct (derive t) as [ki'|]; [|discriminate].
    injection E as <-. destruct (IH ki' eq_refl) as [I1 I2]. split.
    + intros V [s o]. simpl. rewrite I1, option_map_id. reflexivity.
    + intros [s o]. simpl. rewrite I2. reflexivity.
  - intros bitset vs IH ki E. simpl in E. destruct (as_units vs) as [u|] eqn:Eu.
    + assert (U : forall V (st : ms_St (unit_map_storage u V)),
                  ms_clone (unit_map_storage u V) (fun v => v) st = st).
      { intros V [a]. simpl. rewrite arr_map_id; [reflexivity|]. apply option_map_id. }
      unfold derive_unit in E. destruct bitset.
      * destruct (determine_bits _) as [w|]; [|discriminate].
        assert (E' : MkKeyImpl (unit_map_storage u) (bit_set_storage u w) = ki)
          by (simpl in E; congruence).
        subst ki. split; [exact U|reflexivity].
      * assert (E' : MkKeyImpl (unit_map_storage u) (unit_set_storage u) = ki)
          by (simpl in E; congruence).
        subst ki. split; [exact U|reflexivity].
    + destruct (derive_fields vs) as [fs|] eqn:Ef; [|discriminate]. injection E as <-.
      specialize (IH fs eq_refl). split; [intros V|]; apply any_clone_id; auto. exact unit.
  - intros fs [= <-]. exact I.
  - intros r IH fs E. simpl in E. destruct (derive_fields r) as [fs'|]; [|discriminate].
    injection E as <-. exact (IH fs' eq_refl).
  - intros t IHt r IHr fs E. simpl in E.
    destruct (derive t) as [ki|]; [|discriminate].
    destruct (derive_fields r) as [fs'|]; [|discriminate]. injection E as <-. simpl. auto.
Qed.

Lemma map_supertraits t v : lawful_impls v -> lawful_impls (map_impls t v).
Proof.
  unfold lawful_impls, map_impls. rewrite !(proj1 map_impls_closed). unfold map_allows.
  intros (H1 & H2 & H3 & H4 & H5). rewrite !andb_true_iff.
  repeat split; intros; intuition.
Qed.

Lemma set_supertraits t : lawful_impls (set_impls t).
Proof.
  unfold lawful_impls, set_impls. rewrite !(proj1 set_impls_closed). unfold set_allows. auto.
Qed.

Lemma fields_bounded v tr : tr <> TCopy -> map_allows KBool tr = true ->
  v tr = true -> forall vs, fields_impl vs v tr = true.
Proof.
  intros N A H. induction vs as [|r IH|t r IH]; simpl; auto.
  rewrite IH, (proj1 map_impls_closed), H. destruct tr; auto; discriminate.
Qed.
