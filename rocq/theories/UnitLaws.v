(** Laws of the map storage generated for unit enums. *)
Require Import List Arith NArith ZArith Bool Lia Permutation Sorted.
Import ListNotations.
From Verif Require Import Std Traits OptionBucket MapStorages SetStorages DeriveUnit
  DeriveAny Spec IterLaws DropLaws MapCore MapLaws.

Definition nil_spec : KeySpec Empty_set :=
  MkKeySpec empty_eqb no_order (fun _ => LVariant) (fun _ => None).
Definition cell_spec : KeySpec unit :=
  MkKeySpec unit_eqb no_order (fun _ => LVariant) (fun _ => None).
Definition sum_spec {A B} (a : KeySpec A) (b : KeySpec B) : KeySpec (A + B) :=
  MkKeySpec (sum_eqb (ks_eqb a) (ks_eqb b)) (sum_before (ks_before a) (ks_before b))
    (fun k => match k with inl x => ks_leaf a x | inr x => ks_leaf b x end)
    (fun k => match k with
              | inl x => option_map inl (ks_sib a x)
              | inr x => option_map inr (ks_sib b x)
              end).

Fixpoint units_spec {R} (u : units R) : KeySpec R :=
  match u in units R return KeySpec R with
  | UNil => nil_spec
  | UCons u' => sum_spec cell_spec (units_spec u')
  end.

Lemma units_leaf {R} (u : units R) k : ks_leaf (units_spec u) k = LVariant.
Proof. induction u; simpl in *; [destruct k|]. destruct k; auto. Qed.

Lemma units_sib {R} (u : units R) k : ks_sib (units_spec u) k = None.
Proof. induction u; simpl in *; [destruct k|]. destruct k; auto. rewrite IHu. auto. Qed.

Lemma cat_options_map {A B} (g : A -> B) l :
  cat_options (map (option_map g) l) = map g (cat_options l).
Proof. induction l as [|[x|] l IH]; simpl; congruence. Qed.

Lemma in_cat_options {A} (l : list (option A)) x : In x (cat_options l) <-> In (Some x) l.
Proof.
  induction l as [|[y|] l IH]; simpl.
  - tauto.
  - rewrite IH. split; intros [H|H]; auto; [left; congruence|injection H; auto].
  - rewrite IH. split; [auto|intros [H|H]; [discriminate|auto]].
Qed.

(** * Arrays *)

Section Arrays.
  Context {A : Type}.

  Lemma arr_elems_map {R} (u : units R) (a : arr A u) :
    arr_elems u a = map (arr_get u a) (variants_of u).
  Proof.
    induction u; simpl; auto. f_equal. rewrite IHu, map_map. reflexivity.
  Qed.

  Lemma arr_nth_index {R} (u : units R) (a : arr A u) k :
    arr_nth u a (index_of u k) = Some (arr_get u a k).
  Proof. induction u; simpl; [destruct k|]. destruct k as [|k]; simpl; auto. Qed.

  Lemma arr_put_index {R} (u : units R) (a : arr A u) k x :
    arr_put u a (index_of u k) x = Some (arr_set u a k x).
  Proof.
    induction u; simpl; [destruct k|]. destruct k as [|k]; simpl; auto.
    rewrite IHu. reflexivity.
  Qed.

  Lemma arr_get_set {R} (u : units R) (a : arr A u) k x :
    arr_get u (arr_set u a k x) k = x.
  Proof. induction u; simpl; [destruct k|]. destruct k as [|k]; simpl; auto. Qed.

  Lemma variants_all {R} (u : units R) k : In k (variants_of u).
  Proof.
    induction u; simpl; [destruct k|]. destruct k as [[]|k]; auto. right. apply in_map. auto.
  Qed.

  Lemma variants_nodup {R} (u : units R) : NoDup (variants_of u).
  Proof.
    induction u; simpl; constructor.
    - rewrite in_map_iff. intros (x & E & _). discriminate.
    - apply NoDup_map_inj; auto. congruence.
  Qed.

  Lemma index_of_nth {R} (u : units R) k : nth_error (variants_of u) (index_of u k) = Some k.
  Proof.
    induction u; simpl; [destruct k|]. destruct k as [[]|k]; simpl; auto.
    rewrite nth_error_map, IHu. reflexivity.
  Qed.

  Lemma index_of_lt {R} (u : units R) k : index_of u k < length (variants_of u).
  Proof. apply nth_error_Some. rewrite index_of_nth. discriminate. Qed.

  Lemma index_of_inj {R} (u : units R) k k' : index_of u k = index_of u k' -> k = k'.
  Proof.
    intros H. pose proof (index_of_nth u k) as E. rewrite H, index_of_nth in E. congruence.
  Qed.

  Lemma variants_sorted {R} (u : units R) :
    StronglySorted (fun a b => ~ ks_before (units_spec u) b a) (variants_of u).
  Proof.
    induction u; simpl; constructor.
    - eapply StronglySorted_map; [|exact IHu]. auto.
    - apply Forall_map. apply Forall_forall. auto.
  Qed.

  Lemma variants_in_order {R} (u : units R) :
    StronglySorted (ks_before (units_spec u)) (variants_of u).
  Proof.
    induction u; simpl; constructor.
    - eapply StronglySorted_map; [|exact IHu]. auto.
    - apply Forall_map. apply Forall_forall. intros; exact I.
  Qed.
End Arrays.

Lemma fold_len {V} (l : list (option V)) n :
  fold_left (fun n o => n + usize_from (is_some o)) l n =
  n + fold_left (fun n o => n + usize_from (is_some o)) l 0.
Proof.
  revert n; induction l as [|o l IH]; intros n; simpl; [lia|].
  rewrite IH, (IH (usize_from (is_some o))). lia.
Qed.

Lemma fold_empty {V} (l : list (option V)) b :
  fold_left (fun b o => b && is_none o) l b =
  b && fold_left (fun b o => b && is_none o) l true.
Proof.
  revert b; induction l as [|o l IH]; intros b; simpl; [rewrite andb_true_r; auto|].
  rewrite IH, (IH (is_none o)). rewrite andb_assoc. reflexivity.
Qed.

Lemma arr_retain_inj {S R K V} (f : retain_fn S K V) (u : units R) : forall inj s a,
  arr_retain f u inj s a = arr_retain (fun s k v => f s (inj k) v) u (fun k => k) s a.
Proof.
  revert f. revert K. induction u as [|R u IH]; intros K f inj s a; simpl; auto.
  unfold retain_cell. destruct (fst a) as [v|]; simpl.
  - destruct (f s (inj (inl tt)) v) as [[s1 v1] []]; auto;
      rewrite (IH _ f), (IH _ (fun s k v => f s (inj k) v)); reflexivity.
  - rewrite (IH _ f), (IH _ (fun s k v => f s (inj k) v)); reflexivity.
Qed.

Section Core.
  Context {V : Type}.

  Definition um_split {R} {u : units R} (st : unit_map (V := V) (UCons u))
    : option V * unit_map (V := V) u :=
    (fst (um_data st), MkUnitMap (snd (um_data st))).

  Lemma unit_nil_sim :
    sim (a := nil_ops V (unit_map (V := V) UNil)) (ea := empty_eqb) (ba := no_order)
        (ops_of (unit_map_storage UNil V)) empty_eqb no_order
        (fun st => st) (fun k => k) (fun k => k).
  Proof.
    constructor; try (intros; simpl; auto; fail); try (intros st []; fail);
      try (intros []; fail).
    - intros X f x [[]]. reflexivity.
    - intros [[]]. reflexivity.
    - intros [[]] [|i [|j r]]; reflexivity.
    - intros [[]] [|i [|j r]] v; reflexivity.
    - intros cl [[]]. reflexivity.
  Qed.

  Lemma unit_cons_sim {R} (u : units R) :
    sim (a := sum_ops (cell_ops V) (ops_of (unit_map_storage u V)))
        (ea := sum_eqb unit_eqb (ks_eqb (units_spec u)))
        (ba := sum_before no_order (ks_before (units_spec u)))
        (ops_of (unit_map_storage (UCons u) V))
        (ks_eqb (units_spec (UCons u))) (ks_before (units_spec (UCons u)))
        um_split (fun k => k) (fun k => k).
  Proof.
    constructor; try (intros; simpl; auto; fail).
    - intros [[a r]] [[b s]]. unfold um_split. simpl. congruence.
    - intros [[a r]]. simpl. unfold um_len. simpl. rewrite fold_len. reflexivity.
    - intros [[a r]]. simpl. unfold um_is_empty. simpl. rewrite fold_empty. reflexivity.
    - intros [[a r]] [[]|k] v; reflexivity.
    - intros [[a r]] [[]|k]; reflexivity.
    - intros [[a r]] [[]|k]; simpl; unfold opt_as_mut, um_path; simpl.
      + destruct a; reflexivity.
      + destruct (arr_get u r k); reflexivity.
    - intros [[a r]] [[]|k]; reflexivity.
    - intros X f x [[a r]]. simpl. unfold um_retain. simpl.
      unfold retain_cell. destruct a as [v|]; simpl.
      + destruct (f x (inl tt) v) as [[x1 v1] []]; auto.
        * rewrite arr_retain_inj.
          destruct (arr_retain _ u _ x1 r) as [[? ?] ?]; reflexivity.
        * rewrite arr_retain_inj.
          destruct (arr_retain _ u _ x1 r) as [[? ?] ?]; reflexivity.
      + rewrite arr_retain_inj.
        destruct (arr_retain _ u _ x r) as [[? ?] ?]; reflexivity.
    - intros [[a r]] [|[|i] [|j p]]; try reflexivity; simpl.
      destruct a; reflexivity.
    - intros [[[v0|] r]] [|[|i] [|j p]] v; try reflexivity; simpl;
        unfold cell_store; simpl; destruct (arr_nth u r i) as [[x|]|]; simpl; auto;
        destruct (arr_put u r i (Some v)); reflexivity.
  Qed.

  Fixpoint unit_core {R} (u : units R)
    : { c : Core (ks_eqb (units_spec u)) (ks_before (units_spec u))
                 (ops_of (unit_map_storage u V)) | no_root c } :=
    match u in units R
      return { c : Core (ks_eqb (units_spec u)) (ks_before (units_spec u))
                 (ops_of (unit_map_storage u V)) | no_root c } with
    | UNil => exist _ (sim_core (nil_core V _) _ _ _ _ _ _ unit_nil_sim)
                      (sim_no_root _ _ _ _ _ _ _ _ (nil_no_root V _))
    | UCons u' =>
        let H := proj2_sig (unit_core u') in
        exist _ (sim_core (sum_core (cell_core V) (proj1_sig (unit_core u')) H) _ _ _ _ _ _
                   (unit_cons_sim u'))
                (sim_no_root _ _ _ _ _ _ _ _ (sum_no_root _ _ H))
    end.

  Definition u_ents {R} (u : units R) (st : unit_map (V := V) u) : list (ent R V) :=
    cat_options (map (fun k => option_map (fun v => (k, v, um_path u k))
                                          (arr_get u (um_data st) k)) (variants_of u)).

  Lemma unit_ents {R} (u : units R) st : c_ents (proj1_sig (unit_core u)) st = u_ents u st.
  Proof.
    induction u as [|R u IH].
    - reflexivity.
    - destruct st as [[a r]]. simpl. rewrite IH. unfold u_ents. simpl.
      unfold sum_ents. rewrite map_app, !map_map.
      transitivity (map (fun x => (inl (ekey x) : unit + R, evalue x, 0 :: eref x)) (cell_ents a) ++
        cat_options (map (fun k => option_map (fun v => (inr k : unit + R, v, [S (index_of u k)]))
                                     (arr_get u r k)) (variants_of u))).
      + f_equal. rewrite <- cat_options_map, map_map. f_equal. apply map_ext. intros k.
        destruct (arr_get u r k); reflexivity.
      + destruct a; reflexivity.
  Qed.

  Lemma unit_inv {R} (u : units R) st : c_inv (proj1_sig (unit_core u)) st.
  Proof.
    induction u as [|R u IH]; simpl; auto.
  Qed.

  Lemma unit_lookup {R} (u : units R) st k :
    lookup (ks_eqb (units_spec u)) k (c_ents (proj1_sig (unit_core u)) st) =
    option_map (fun v => (v, um_path u k)) (arr_get u (um_data st) k).
  Proof.
    pose proof (c_get _ _ _ (proj1_sig (unit_core u)) st k (unit_inv u st)) as H1.
    pose proof (c_get_mut _ _ _ (proj1_sig (unit_core u)) st k (unit_inv u st)) as H2.
    simpl in H1, H2. rewrite H1 in *. unfold opt_as_mut in H2.
    destruct (lookup _ k _) as [[v r]|]; simpl in *; congruence.
  Qed.
End Core.

Section Laws.
  Context {R V : Type} (u : units R).
  Local Notation m := (unit_map_storage u V).

  Lemma um_cell_get (st : unit_map (V := V) u) k :
    cell_get (um_cells u) st (um_path u k) = Some (arr_get u (um_data st) k).
  Proof. simpl. apply arr_nth_index. Qed.

  Lemma um_cell_set (st : unit_map (V := V) u) k o :
    cell_set (um_cells u) st (um_path u k) o = Some (MkUnitMap (arr_set u (um_data st) k o)).
  Proof. simpl. rewrite arr_put_index. reflexivity. Qed.

  Lemma filter_cat {A} (f : A -> bool) (g : A -> option A) l :
    (forall k, g k = if f k then Some k else None) ->
    cat_options (map g l) = filter f l.
  Proof.
    intros H. induction l as [|k l IH]; simpl; auto.
    rewrite H. destruct (f k); rewrite IH; auto.
  Qed.

  Lemma filter_idem {A} (f : A -> bool) l : filter f (filter f l) = filter f l.
  Proof.
    induction l as [|x l IH]; simpl; auto. destruct (f x) eqn:E; simpl; auto.
    rewrite E, IH. reflexivity.
  Qed.

  Lemma filter_sorted {A} (P : A -> A -> Prop) (f : A -> bool) l :
    StronglySorted P l -> StronglySorted P (filter f l).
  Proof.
    induction 1 as [|x l Hs IH Hf]; simpl; [constructor|].
    destruct (f x); auto. constructor; auto.
    rewrite Forall_forall in *. intros y Hy. apply filter_In in Hy as [Hy _]. auto.
  Qed.

  Lemma u_keys (st : unit_map (V := V) u) :
    map ekey (u_ents u st) = filter (fun k => is_some (arr_get u (um_data st) k)) (variants_of u).
  Proof.
    unfold u_ents. rewrite <- cat_options_map, map_map. apply filter_cat.
    intros k. destruct (arr_get u (um_data st) k); reflexivity.
  Qed.

  Lemma arr_drop_slice {R'} (u' : units R') {D T} (dr : drop_fn D V) (dr' : drop_fn D (T * V)) :
    (forall d e, dr' d e = dr d (snd e)) -> forall (inj : R' -> T) d (a : arr (option V) u'),
    (let '(d1, o) := arr_drop dr u' d a in
     (d1, match o with Unwound => true | Done => false end)) =
    slice_drop (opt_drop dr') d (map (fun k => some_pair (inj k) (arr_get u' a k)) (variants_of u')).
  Proof.
    intros Hd. induction u' as [|R' u' IH]; intros inj d a; [reflexivity|].
    cbn [arr_drop variants_of map slice_drop arr_get]. rewrite map_map.
    pose proof (IH (fun k => inj (inr k))) as E. destruct (fst a) as [v|]; cbn.
    - rewrite Hd. cbn. destruct (dr d v) as [d1 []]; cbn; rewrite <- (E d1 (snd a));
        destruct (arr_drop dr u' d1 (snd a)) as [d2 []]; reflexivity.
    - rewrite <- (E d (snd a)). destruct (arr_drop dr u' d (snd a)) as [d2 []]; reflexivity.
  Qed.

  Lemma unit_drop_iter D (dr : drop_fn D V) (dr' : drop_fn D (R * V)) d (st : unit_map u) :
    (forall d e, dr' d e = dr d (snd e)) ->
    (let '(d1, o) := arr_drop dr u d (um_data st) in
     (d1, match o with Unwound => true | Done => false end)) =
    it_drop (ms_IntoIter m) dr' d (ms_into_iter m st).
  Proof.
    intros Hd.
    change (it_drop (ms_IntoIter m) dr' d (ms_into_iter m st)) with
      (flatten_drop dr' d (flatten_of (map (fun k => some_pair k (arr_get u (um_data st) k)) (variants_of u)))).
    unfold flatten_drop, flatten_of. cbn [fl_items fl_front fl_back].
    rewrite <- (arr_drop_slice u dr dr' Hd (fun k => k) d (um_data st)).
    destruct (arr_drop dr u d (um_data st)) as [d1 o]. cbn. now rewrite !orb_false_r.
  Qed.

  Lemma unit_into_sorted (st : unit_map u) :
    StronglySorted (fun a b => ks_before (units_spec u) (fst a) (fst b))
      (flatten_rem (ms_into_iter m st)).
  Proof.
    change (ms_into_iter m st) with
      (flatten_of (map (fun k => some_pair k (arr_get u (um_data st) k)) (variants_of u))).
    rewrite flatten_of_rem. generalize (variants_in_order u).
    induction 1 as [|k l Hs IH Hf]; cbn; [constructor|].
    destruct (arr_get u (um_data st) k) as [v|]; cbn; [|exact IH]. constructor; [exact IH|].
    rewrite Forall_forall in *. intros [k' v'] Hi. cbn. apply Hf.
    clear -Hi. induction l as [|k0 l IHl]; cbn in *; [contradiction|].
    destruct (arr_get u (um_data st) k0); cbn in Hi; [|auto].
    destruct Hi as [[= <- <-]|Hi]; auto.
  Qed.

  Definition unit_laws : MapLaws (units_spec u) m.
  Proof.
    refine {| ml_core := proj1_sig (unit_core u)
                : Core (ks_eqb (units_spec u)) (ks_before (units_spec u)) (ops_of m);
              ml_Iter := flatten_laws _ : it_laws (ms_Iter m);
              ml_Keys := flatten_laws _ : it_laws (ms_Keys m);
              ml_Values := flatten_laws _ : it_laws (ms_Values m);
              ml_IterMut := flatten_laws _ : it_laws (ms_IterMut m);
              ml_ValuesMut := flatten_laws _ : it_laws (ms_ValuesMut m);
              ml_IntoIter := flatten_laws _ : it_laws (ms_IntoIter m);
              ml_drops := flatten_drops _ _;
              ml_occ_ok := (fun st o k r =>
                is_some (arr_get u (um_data st) k) = true /\
                o = MkKeyed k (MkSomeBucket (um_path u k)) /\ r = um_path u k)
                : ms_St m -> ms_Occ m -> R -> ref -> Prop;
              ml_vac_ok := (fun st x k =>
                is_some (arr_get u (um_data st) k) = false /\
                x = MkKeyed k (MkNoneBucket (um_path u k)))
                : ms_St m -> ms_Vac m -> R -> Prop |}.
    - intros w. split; [apply unit_inv|]. rewrite unit_ents. unfold u_ents. simpl.
      assert (E : forall k, arr_get u (arr_init u (@None V)) k = None).
      { clear. induction u; simpl; [intros []|]. intros [|k]; auto. }
      induction (variants_of u) as [|k l IH]; simpl; auto. rewrite E. auto.
    - intros st _. split; [exact I|]. rewrite unit_ents. simpl. rewrite flatten_of_rem.
      unfold u_ents. rewrite <- cat_options_map, map_map. f_equal. apply map_ext.
      intros k. destruct (arr_get u (um_data st) k); reflexivity.
    - intros st _. split; [exact I|]. rewrite unit_ents, u_keys. simpl. rewrite flatten_of_rem.
      rewrite (filter_cat (fun k => is_some (arr_get u (um_data st) k))) by reflexivity.
      split; [apply NoDup_filter, variants_nodup|].
      split; [apply filter_sorted, variants_sorted|].
      split; [|apply filter_idem].
      intros k. rewrite units_leaf. split; [auto|]. intros [H|H]; [auto|discriminate].
    - intros st _. split; [exact I|]. rewrite unit_ents. simpl. rewrite flatten_of_rem.
      unfold u_ents. rewrite <- cat_options_map, map_map, arr_elems_map. f_equal. apply map_ext.
      intros k. destruct (arr_get u (um_data st) k); reflexivity.
    - intros st _. split; [exact I|]. rewrite unit_ents. simpl. rewrite flatten_of_rem.
      unfold u_ents, um_refs. rewrite <- cat_options_map, map_map. f_equal. apply map_ext.
      intros k. destruct (arr_get u (um_data st) k); reflexivity.
    - intros st _. split; [exact I|]. rewrite unit_ents. simpl. rewrite flatten_of_rem.
      unfold u_ents, um_refs. rewrite <- cat_options_map, !map_map. f_equal. apply map_ext.
      intros k. destruct (arr_get u (um_data st) k); reflexivity.
    - intros st _. split; [exact I|]. rewrite unit_ents. simpl. rewrite flatten_of_rem.
      unfold u_ents. rewrite <- cat_options_map, map_map. f_equal. apply map_ext.
      intros k. destruct (arr_get u (um_data st) k); reflexivity.
    - intros st _. split; [split; [split; reflexivity|apply unit_into_sorted]|].
      intros D dr dr' d Hd. simpl. apply unit_drop_iter, Hd.
    - intros st k _. rewrite unit_lookup. simpl. unfold um_entry.
      rewrite (bucket_new _ _ _ _ (um_cell_get st k)).
      destruct (arr_get u (um_data st) k) eqn:E; simpl; eexists;
        (split; [reflexivity|]); auto.
    - intros st o k r _ (H & -> & ->). rewrite unit_lookup.
      pose proof (um_cell_get st k) as Eg.
      destruct (arr_get u (um_data st) k) as [v|] eqn:E; [|discriminate]. exists v. simpl.
      rewrite (bucket_as_ref _ _ _ _ Eg), (bucket_as_mut _ _ _ _ Eg),
              (bucket_into_mut _ _ _ _ Eg), (bucket_take _ _ _ _ _ Eg (um_cell_set st k None)).
      do 5 (split; [reflexivity|]). split; [|reflexivity].
      intros v'. rewrite (bucket_replace _ _ _ _ _ _ Eg (um_cell_set st k (Some v'))).
      unfold cell_store. rewrite Eg, um_cell_set. eexists; split; reflexivity.
    - intros st o k r v st' _ (H & -> & ->). simpl. unfold cell_store.
      rewrite um_cell_get. destruct (arr_get u (um_data st) k); [|discriminate].
      rewrite um_cell_set. intros [= <-]. simpl. rewrite arr_get_set. auto.
    - intros st x k _ (H & ->). rewrite unit_lookup.
      pose proof (um_cell_get st k) as Eg.
      destruct (arr_get u (um_data st) k) as [v|] eqn:E; [discriminate|]. simpl.
      split; [reflexivity|]. split; [reflexivity|]. intros v. exists (um_path u k).
      rewrite (bucket_insert (um_cells u) _ _ v _ Eg (um_cell_set st k (Some v))).
      + rewrite arr_get_set. split; reflexivity.
      + rewrite um_cell_get. simpl. rewrite arr_get_set. reflexivity.
  Defined.
End Laws.
