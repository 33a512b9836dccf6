(** [retain] of the storages of every key type depends on its closure only through the
    calls, and every enum with a tuple variant is covered by [R_of] and [fs_of]. *)
Require Import List Arith NArith Bool String Lia.
Import ListNotations.
From Verif Require Import Std Traits OptionBucket Hashbrown MapStorages SetStorages
  DeriveUnit DeriveAny Key KeyLaws AnyCode AnyCodeSpec.

Lemma retain_cell_ext {S K V} (f g : retain_fn S K V) s k o :
  (forall s k v, f s k v = g s k v) -> retain_cell f s k o = retain_cell g s k o.
Proof. intros H. destruct o as [v|]; cbn; [now rewrite H|reflexivity]. Qed.

Lemma retain_flag_ext {S K} (f g : set_retain_fn S K) s k b :
  (forall s k, f s k = g s k) -> retain_flag f s k b = retain_flag g s k b.
Proof. intros H. destruct b; cbn; [now rewrite H|reflexivity]. Qed.

Lemma h_retain_ext {S K V} (f g : retain_fn S K V) s t :
  (forall s k v, f s k v = g s k v) -> h_retain f s t = h_retain g s t.
Proof.
  intros H. unfold h_retain.
  assert (G : forall l s, h_retain_entries f s l = h_retain_entries g s l).
  { induction l as [|[k v] r IH]; intros s0; [reflexivity|]. cbn. rewrite H.
    destruct (g s0 k v) as [[s1 v1] []]; now rewrite ?IH. }
  now rewrite G.
Qed.

Lemma bool_retains : retains (MkKeyImpl bool_map_storage bool_set_storage).
Proof.
  split.
  - intros V S f g s st H. cbn. unfold bm_retain.
    rewrite (retain_cell_ext f g) by exact H. destruct (retain_cell g s true _) as [[s1 o1] []]; [|reflexivity].
    now rewrite (retain_cell_ext f g) by exact H.
  - intros S f g s st H. cbn. unfold bs_retain.
    assert (G : forall s v b, bs_retain_one f s v b = bs_retain_one g s v b).
    { intros. unfold bs_retain_one. now rewrite H. }
    rewrite G. destruct (bs_retain_one g s true _) as [[s1 o1] []]; [|reflexivity]. now rewrite G.
Qed.

Lemma single_retains : retains (MkKeyImpl single_map_storage single_set_storage).
Proof.
  split.
  - intros V S f g s st H. cbn. unfold sm_retain. now rewrite (retain_cell_ext f g) by exact H.
  - intros S f g s st H. cbn. unfold sst_retain. now rewrite H.
Qed.

Lemma hash_retains {K} (eqb : K -> K -> bool) :
  retains (MkKeyImpl (fun V => hash_map_storage eqb) (hash_set_storage eqb)).
Proof.
  split.
  - intros V S f g s st H. now apply h_retain_ext.
  - intros S f g s st H. apply h_retain_ext. intros. unfold hs_fn. now rewrite H.
Qed.

Lemma opt_retains {K} (ki : KeyImpl K) : retains ki ->
  retains (MkKeyImpl (fun V => opt_map_storage (ki_map ki V)) (opt_set_storage (ki_set ki))).
Proof.
  intros [Hm Hs]. split.
  - intros V S f g s st H. cbn. unfold om_retain.
    rewrite (Hm V S _ (fun s k v => g s (Some k) v)) by (intros; apply H).
    destruct (ms_retain (ki_map ki V) _ s _) as [[s1 o1] []]; [|reflexivity].
    now rewrite (retain_cell_ext f g) by exact H.
  - intros S f g s st H. cbn. unfold os_retain.
    rewrite (Hs S _ (fun s k => g s (Some k))) by (intros; apply H).
    destruct (ss_retain (ki_set ki) _ s _) as [[s1 o1] []]; [|reflexivity].
    now rewrite (retain_flag_ext f g) by exact H.
Qed.

Lemma arr_retain_ext {S R K V} (f g : retain_fn S K V) (u : units R) :
  (forall s k v, f s k v = g s k v) -> forall inj s a,
  arr_retain f u inj s a = arr_retain g u inj s a.
Proof.
  intros H. induction u as [|R u IH]; intros inj s a; [reflexivity|].
  cbn [arr_retain]. rewrite (retain_cell_ext f g) by exact H.
  destruct (retain_cell g s _ _) as [[s1 o1] []]; [|reflexivity]. now rewrite IH.
Qed.

Lemma arr_retain_flags_ext {S R K} (f g : set_retain_fn S K) (u : units R) :
  (forall s k, f s k = g s k) -> forall inj s a,
  arr_retain_flags f u inj s a = arr_retain_flags g u inj s a.
Proof.
  intros H. induction u as [|R u IH]; intros inj s a; [reflexivity|].
  cbn [arr_retain_flags]. rewrite (retain_flag_ext f g) by exact H.
  destruct (retain_flag g s _ _) as [[s1 o1] []]; [|reflexivity]. now rewrite IH.
Qed.

Lemma bit_retain_ext {S K} (f g : set_retain_fn S K) d l : 
  (forall s k, f s k = g s k) -> forall s u, bit_retain f d l s u = bit_retain g d l s u.
Proof.
  intros H. induction l as [|[n k] r IH]; intros s u; [reflexivity|]. cbn [bit_retain].
  destruct (negb _); [|apply IH]. rewrite H. destruct (g s k) as [s' []]; try apply IH. reflexivity.
Qed.

Lemma unit_retains {R} (u : units R) bitset ki : derive_unit bitset u = Some ki -> retains ki.
Proof.
  assert (Gm : forall V S f g s st, (forall s k v, f s k v = g s k v) ->
    um_retain u V S f s st = um_retain u V S g s st).
  { intros. unfold um_retain. now rewrite (arr_retain_ext f g) by assumption. }
  unfold derive_unit. destruct bitset.
  - destruct (determine_bits _) as [width|]; [|discriminate]. intros [= <-]. split; [exact Gm|].
    intros S f g s st H. cbn. unfold bt_retain. now rewrite (bit_retain_ext f g) by exact H.
  - intros [= <-]. split; [exact Gm|].
    intros S f g s st H. cbn. unfold us_retain. now rewrite (arr_retain_flags_ext f g) by exact H.
Qed.

Fixpoint all_retains {R} (fs : fields R) : Prop :=
  match fs with
  | FNil => True
  | FUnit fs => all_retains fs
  | FTuple ki fs => retains ki /\ all_retains fs
  end.

Lemma any_retain_ext {S R T V} (f g : retain_fn S T V) (fs : fields R) :
  (forall s k v, f s k v = g s k v) -> all_retains fs -> forall inj s st,
  any_retain V f fs inj s st = any_retain V g fs inj s st.
Proof.
  intros H. induction fs as [|R fs IH|K R ki fs IH]; intros Hr inj s st; [reflexivity| |].
  - cbn [any_retain]. rewrite (retain_cell_ext f g) by exact H.
    destruct (retain_cell g s _ _) as [[s1 o1] []]; [|reflexivity]. now rewrite IH by exact Hr.
  - destruct Hr as [[Hk _] Hr]. cbn [any_retain].
    rewrite (Hk V S _ (fun s k v => g s (inj (inl k)) v)) by (intros; apply H).
    destruct (ms_retain (ki_map ki V) _ s _) as [[s1 o1] []]; [|reflexivity].
    now rewrite IH by exact Hr.
Qed.

Lemma anys_retain_ext {S R T} (f g : set_retain_fn S T) (fs : fields R) :
  (forall s k, f s k = g s k) -> all_retains fs -> forall inj s st,
  anys_retain f fs inj s st = anys_retain g fs inj s st.
Proof.
  intros H. induction fs as [|R fs IH|K R ki fs IH]; intros Hr inj s st; [reflexivity| |].
  - cbn [anys_retain]. rewrite (retain_flag_ext f g) by exact H.
    destruct (retain_flag g s _ _) as [[s1 o1] []]; [|reflexivity]. now rewrite IH by exact Hr.
  - destruct Hr as [[_ Hk] Hr]. cbn [anys_retain].
    rewrite (Hk S _ (fun s k => g s (inj (inl k)))) by (intros; apply H).
    destruct (ss_retain (ki_set ki) _ s _) as [[s1 o1] []]; [|reflexivity].
    now rewrite IH by exact Hr.
Qed.

Lemma any_retains {R} (fs : fields R) : all_retains fs -> retains (derive_any fs).
Proof.
  intros Hr. split.
  - intros V S f g s st H. cbn. now apply any_retain_ext.
  - intros S f g s st H. cbn. now apply anys_retain_ext.
Qed.

Lemma derive_retains :
  (forall t ki, derive t = Some ki -> retains ki) /\
  (forall vs fs, derive_fields vs = Some fs -> all_retains fs).
Proof.
  apply kty_mut.
  - intros ki [= <-]. apply bool_retains.
  - intros ki [= <-]. apply single_retains.
  - intros p ki [= <-]. apply hash_retains.
  - intros t IH ki E. apply option_map_inv in E as (ki' & E & ->). apply opt_retains. auto.
  - intros bitset vs IH ki E. cbn in E. destruct (as_units vs) as [u|].
    + now apply unit_retains in E.
    + apply option_map_inv in E as (fs & E & ->). apply any_retains. auto.
  - intros fs [= <-]. exact I.
  - intros r IH fs E. apply option_map_inv in E as (fs' & E & ->). cbn. auto.
  - intros t IHt r IHr fs E. cbn in E.
    destruct (derive t) as [ki|]; [|discriminate].
    destruct (derive_fields r) as [fs'|]; [|discriminate].
    injection E as <-. cbn. auto.
Qed.

(** * Every list of fields *)

Section Some_of.
  Context {T : Type} {K : T -> Type} (impl : forall t, KeyImpl (K t)) {K0 : Type} (ki : KeyImpl K0).
  Definition more (t : option T) : Type := match t with None => K0 | Some t => K t end.
  Definition more_impl (t : option T) : KeyImpl (more t) :=
    match t return KeyImpl (more t) with None => ki | Some t => impl t end.
  Definition lift (flds : vfields T) : vfields (option T) :=
    List.map (fun f => (fst f, option_map Some (snd f))) flds.

  Lemma lift_names flds : List.map fst (lift flds) = List.map fst flds.
  Proof. unfold lift. rewrite map_map. reflexivity. Qed.

  Lemma lift_fs flds :
    existT fields (R_of (K := more) (lift flds)) (fs_of more_impl (lift flds)) =
    existT fields (R_of (K := K) flds) (fs_of impl flds).
  Proof.
    induction flds as [|[x [t|]] r IH]; [reflexivity| |].
    - exact (f_equal (fun p : {R : Type & fields R} =>
               existT fields (K t + projT1 p)%type (FTuple (impl t) (projT2 p))) IH).
    - exact (f_equal (fun p : {R : Type & fields R} =>
               existT fields (unit + projT1 p)%type (FUnit (projT2 p))) IH).
  Qed.
End Some_of.

Lemma fields_written {R} (fs : fields R) : forall names,
  all_retains fs -> List.length names = fields_len fs ->
  exists (T : Type) (T_dec : forall a b : T, {a = b} + {a <> b})
         (K : T -> Type) (impl : forall t, KeyImpl (K t)) (flds : vfields T),
    List.map fst flds = names /\ (forall t, retains (impl t)) /\
    existT fields (R_of (K := K) flds) (fs_of impl flds) = existT fields R fs.
Proof.
  induction fs as [|R fs IH|K0 R ki fs IH]; intros names Hr L.
  - destruct names; [|discriminate].
    assert (dec : forall a b : Empty_set, {a = b} + {a <> b}) by (intros []).
    exists Empty_set, dec, (fun _ : Empty_set => Empty_set).
    assert (impl : Empty_set -> KeyImpl Empty_set) by (intros []).
    exists impl, []. split; [reflexivity|]. split; [intros []|]. reflexivity.
  - destruct names as [|x names]; [discriminate|]. injection L as L.
    destruct (IH names Hr L) as (T & T_dec & K & impl & flds & H1 & H2 & H3).
    exists T, T_dec, K, impl, ((x, None) :: flds). cbn [List.map fst]. rewrite H1.
    split; [reflexivity|]. split; [exact H2|].
    exact (f_equal (fun p : {R : Type & fields R} =>
             existT fields (unit + projT1 p)%type (FUnit (projT2 p))) H3).
  - destruct names as [|x names]; [discriminate|]. injection L as L. destruct Hr as [Hk Hr].
    destruct (IH names Hr L) as (T & T_dec & K & impl & flds & H1 & H2 & H3).
    assert (dec : forall a b : option T, {a = b} + {a <> b}) by (intros; decide equality).
    exists (option T), dec, (more (K := K) (K0 := K0)), (more_impl impl ki), ((x, Some None) :: lift flds).
    cbn [List.map fst]. rewrite lift_names, H1.
    split; [reflexivity|]. split; [intros [t|]; [exact (H2 t)|exact Hk]|].
    pose proof (eq_trans (lift_fs impl ki flds) H3) as H4.
    exact (f_equal (fun p : {R : Type & fields R} =>
             existT fields (K0 + projT1 p)%type (FTuple ki (projT2 p))) H4).
Qed.
