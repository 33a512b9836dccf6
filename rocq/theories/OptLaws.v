(** Laws of OptionMapStorage. *)
Require Import List Arith NArith Bool Lia Permutation Sorted.
Import ListNotations.
From Verif Require Import Std Traits OptionBucket Hashbrown MapStorages DeriveUnit
  DeriveAny Spec IterLaws DropLaws MapCore MapLaws.

Section Option.
  Context {K V : Type} (sp : KeySpec K) (m : MapStorage K V) (L : MapLaws sp m).

  Definition opt_eqb (a b : option K) : bool :=
    match a, b with
    | Some x, Some y => ks_eqb sp x y
    | None, None => true
    | _, _ => false
    end.
  Definition opt_before (a b : option K) : Prop :=
    match a, b with
    | Some x, Some y => ks_before sp x y
    | Some _, None => True
    | None, _ => False
    end.
  Definition opt_spec : KeySpec (option K) :=
    MkKeySpec opt_eqb opt_before
      (fun k => match k with Some x => ks_leaf sp x | None => LNone end)
      (fun k => match k with Some x => option_map Some (ks_sib sp x) | None => None end).

  Definition opt_to (k : option K) : K + (unit + Empty_set) :=
    match k with Some x => inl x | None => inr (inl tt) end.
  Definition opt_of (k : K + (unit + Empty_set)) : option K :=
    match k with inl x => Some x | inr _ => None end.

  Lemma opt_sim :
    sim (a := sum_ops (ops_of m) (sum_ops (cell_ops V) (nil_ops V unit)))
        (ea := sum_eqb (ks_eqb sp) (sum_eqb unit_eqb empty_eqb))
        (ba := sum_before (ks_before sp) (sum_before no_order no_order))
        (ops_of (opt_map_storage m)) opt_eqb opt_before
        (fun st => (om_some m st, (om_none m st, tt))) opt_to opt_of.
  Proof.
    constructor.
    - intros [? ?] [? ?]; simpl; congruence.
    - intros []; reflexivity.
    - intros [k|[[]|[]]]; reflexivity.
    - intros [] []; reflexivity.
    - intros [] []; simpl; auto.
    - intros [s n]; simpl. rewrite Nat.add_0_r. reflexivity.
    - intros [s n]; simpl. rewrite andb_true_r. reflexivity.
    - intros [s n] [k|] v; simpl; [|reflexivity].
      destruct (ms_insert m s k v); reflexivity.
    - intros [s n] []; reflexivity.
    - intros [s n] []; reflexivity.
    - intros [s [n|]] []; reflexivity.
    - intros [s n] [k|]; simpl; [|reflexivity].
      destruct (ms_remove m s k); reflexivity.
    - intros X g x [s n]. simpl. unfold om_retain. simpl.
      destruct (ms_retain m (fun s k v => g s (Some k) v) x s) as [[x1 s1] []]; simpl; auto.
      destruct n as [n|]; simpl; auto. destruct (g x1 None n) as [[? ?] []]; reflexivity.
    - reflexivity.
    - intros [s [n|]] [|[|[|i]] [|j r]]; reflexivity.
    - intros [s [n|]] [|[|[|i]] [|j r]] v; try reflexivity; simpl.
      + destruct (ms_store m s [] v); reflexivity.
      + destruct (ms_store m s (j :: r) v); reflexivity.
      + destruct (ms_store m s [] v); reflexivity.
      + destruct (ms_store m s (j :: r) v); reflexivity.
    - reflexivity.
    - intros veq [t f] [t' f']. simpl. rewrite andb_true_r, andb_comm. reflexivity.
  Qed.

  Definition opt_core : Core (ks_eqb opt_spec) (ks_before opt_spec) (ops_of (opt_map_storage m)) :=
    sim_core (sum_core (ml_core L)
                (sum_core (cell_core V) (nil_core V unit) (nil_no_root V unit))
                (sum_no_root _ _ _)) _ _ _ _ _ _ opt_sim.

  Definition none_ents (o : option V) : list (ent (option K) V) :=
    match o with Some v => [(None, v, [1])] | None => [] end.

  Lemma opt_ents st : c_ents opt_core st =
    map (ent_map Some (cons 0)) (c_ents (ml_core L) (om_some m st)) ++ none_ents (om_none m st).
  Proof.
    simpl. unfold sum_ents. rewrite map_app, !map_map. f_equal.
    destruct (om_none m st); reflexivity.
  Qed.

  Lemma opt_lookup_some st k :
    lookup opt_eqb (Some k) (c_ents opt_core st) =
    option_map (fun x => (fst x, 0 :: snd x))
               (lookup (ks_eqb sp) k (c_ents (ml_core L) (om_some m st))).
  Proof.
    rewrite opt_ents, lookup_app.
    rewrite (lookup_ent_map Some (cons 0) (ks_eqb sp)) by reflexivity.
    destruct (lookup _ k _) as [[? ?]|]; simpl; auto.
    destruct (om_none m st); reflexivity.
  Qed.

  Lemma opt_lookup_none st :
    lookup opt_eqb None (c_ents opt_core st) = option_map (fun v => (v, [1])) (om_none m st).
  Proof.
    rewrite opt_ents, lookup_app, lookup_ent_map_other by reflexivity.
    destruct (om_none m st); reflexivity.
  Qed.

  Lemma opt_inv st : c_inv opt_core st -> c_inv (ml_core L) (om_some m st).
  Proof. intros [H _]. exact H. Qed.

  Definition opt_occ_ok (st : opt_map m) (o : ms_Occ m + some_bucket) (k : option K) (r : ref)
    : Prop :=
    match o, k with
    | inl o, Some k => exists r', r = 0 :: r' /\ ml_occ_ok L (om_some m st) o k r'
    | inr b, None => is_some (om_none m st) = true /\ b = MkSomeBucket [1] /\ r = [1]
    | _, _ => False
    end.

  Definition opt_vac_ok (st : opt_map m) (x : ms_Vac m + none_bucket) (k : option K) : Prop :=
    match x, k with
    | inl x, Some k => ml_vac_ok L (om_some m st) x k
    | inr b, None => is_some (om_none m st) = false /\ b = MkNoneBucket [1]
    | _, _ => False
    end.

  Lemma opt_apart sa sb (x y : option K * V) :
    In x (il_rem (map_laws (fun e => (Some (fst e), snd e)) _ (ml_IntoIter L)) sa) ->
    In y (il_rem (map_laws (fun v => (None, v)) _ (opt_laws V)) sb) -> opt_before (fst x) (fst y).
  Proof.
    intros Hx Hy. apply in_map_iff in Hx as (? & <- & _). apply in_map_iff in Hy as (? & <- & _).
    exact I.
  Qed.

  Definition opt_laws_ : MapLaws opt_spec (opt_map_storage m).
  Proof.
    refine {| ml_core := opt_core;
              ml_Iter := chain_laws _ _ (map_laws _ _ (ml_Iter L)) (map_laws _ _ (opt_laws _))
                : it_laws (ms_Iter (opt_map_storage m));
              ml_Keys := chain_laws _ _ (map_laws _ _ (ml_Keys L)) (opt_laws _)
                : it_laws (ms_Keys (opt_map_storage m));
              ml_Values := chain_laws _ _ (ml_Values L) (opt_laws _)
                : it_laws (ms_Values (opt_map_storage m));
              ml_IterMut := chain_laws _ _ (map_laws _ _ (ml_IterMut L)) (map_laws _ _ (opt_laws _))
                : it_laws (ms_IterMut (opt_map_storage m));
              ml_ValuesMut := chain_laws _ _ (map_laws _ _ (ml_ValuesMut L)) (opt_laws _)
                : it_laws (ms_ValuesMut (opt_map_storage m));
              ml_IntoIter := chain_laws _ _ (map_laws _ _ (ml_IntoIter L)) (map_laws _ _ (opt_laws _))
                : it_laws (ms_IntoIter (opt_map_storage m));
              ml_drops := chain_drops _ _ _ _ _ opt_apart
                (map_drops (fun e => (Some (fst e), snd e)) _ (fun a b => opt_before (fst a) (fst b))
                   (fun x y => conj (fun h => h) (fun h => h)) _ _ (ml_drops L))
                (map_drops (fun v => (None, v)) (fun _ _ => False) (fun a b => opt_before (fst a) (fst b))
                   (fun x y => conj (fun h => h) (fun h => h)) _ _ (opt_drops _ _));
              ml_occ_ok := opt_occ_ok : ms_St (opt_map_storage m) -> ms_Occ (opt_map_storage m) -> _;
              ml_vac_ok := opt_vac_ok : ms_St (opt_map_storage m) -> ms_Vac (opt_map_storage m) -> _ |}.
    - intros w. destruct (ml_empty _ _ L (sub_world 0 w)) as [H1 H2]. split.
      + repeat split; auto.
      + rewrite opt_ents. simpl. rewrite H2. reflexivity.
    - intros st Hi. rewrite opt_ents.
      destruct (ml_iter _ _ L _ (opt_inv _ Hi)) as [H1 H2].
      split; [split; [exact H1|exact I]|]. simpl. rewrite H2, map_app, !map_map. f_equal.
      destruct (om_none m st); reflexivity.
    - intros st Hi. rewrite opt_ents.
      destruct (ml_keys _ _ L _ (opt_inv _ Hi)) as (H1 & H2 & H3 & H4 & H5).
      split; [split; [exact H1|exact I]|]. simpl.
      set (l := il_rem (ml_Keys L) (ms_keys m (om_some m st))) in *.
      assert (E : olist (if is_some (om_none m st) then Some None else None) =
                  map ekey (none_ents (om_none m st))).
      { destruct (om_none m st); reflexivity. }
      rewrite E.
      split; [|split; [|split]].
      + apply NoDup_app_disj.
        * apply NoDup_map_inj; [congruence|auto].
        * destruct (om_none m st); simpl; repeat constructor; auto.
        * intros x Ha Hb. apply in_map_iff in Ha as (y & <- & _).
          destruct (om_none m st); simpl in Hb; intuition discriminate.
      + apply StronglySorted_app.
        * eapply StronglySorted_map; [|exact H3]. auto.
        * destruct (om_none m st); simpl; repeat constructor.
        * intros x y Ha Hb. apply in_map_iff in Ha as (z & <- & _).
          destruct (om_none m st); simpl in Hb; [|tauto]. destruct Hb as [<-|[]].
          simpl. auto.
      + intros k. rewrite map_app, !in_app_iff, map_ekey_ent_map, !in_map_iff.
        destruct k as [k|].
        * split.
          -- intros [(x & [= ->] & Hx)|(e & Ee & He)].
             ++ apply H4 in Hx as [Hx|Hx]; [left|right; auto]. left. eauto.
             ++ destruct (om_none m st); simpl in He; [|tauto].
                destruct He as [<-|[]]. discriminate.
          -- intros [[(x & [= ->] & Hx)|(e & Ee & He)]|Hx].
             ++ left. exists k. split; auto. apply H4. auto.
             ++ destruct (om_none m st); simpl in He; [|tauto].
                destruct He as [<-|[]]. discriminate.
             ++ left. exists k. split; auto. apply H4. auto.
        * split.
          -- intros [(x & [=] & Hx)|(e & Ee & He)]. eauto.
          -- intros [[(x & [=] & Hx)|(e & Ee & He)]|Hx]; [|discriminate]. eauto.
      + rewrite filter_app, map_app, map_ekey_ent_map, <- H5. f_equal.
        * clear. induction l as [|k l IH]; simpl; auto.
          destruct (ms_contains_key m (om_some m st) k); simpl; congruence.
        * destruct (om_none m st) eqn:En; simpl; auto. rewrite En. reflexivity.
    - intros st Hi. rewrite opt_ents.
      destruct (ml_values _ _ L _ (opt_inv _ Hi)) as [H1 H2].
      split; [split; [exact H1|exact I]|]. simpl. rewrite H2, map_app, !map_map. f_equal.
      destruct (om_none m st); reflexivity.
    - intros st Hi. rewrite opt_ents.
      destruct (ml_iter_mut _ _ L _ (opt_inv _ Hi)) as [H1 H2].
      split; [split; [exact H1|exact I]|]. simpl. rewrite H2, map_app, !map_map. f_equal.
      destruct (om_none m st); reflexivity.
    - intros st Hi. rewrite opt_ents.
      destruct (ml_values_mut _ _ L _ (opt_inv _ Hi)) as [H1 H2].
      split; [split; [exact H1|exact I]|]. simpl. rewrite H2, map_app, !map_map. f_equal.
      destruct (om_none m st); reflexivity.
    - intros st Hi. rewrite opt_ents.
      destruct (ml_into_iter _ _ L _ (opt_inv _ Hi)) as [H1 H2].
      split; [split; [exact H1|exact I]|]. simpl. rewrite H2, map_app, !map_map. f_equal.
      destruct (om_none m st); reflexivity.
    - intros st Hi. destruct (ml_drop _ _ L _ (opt_inv _ Hi)) as [H1 H2].
      split; [split; [exact H1|exact I]|]. intros D dr dr' d Hd. simpl.
      rewrite (H2 D dr (fun d x => dr' d (Some (fst x), snd x)) d)
        by (intros d0 [k v]; apply Hd).
      destruct (it_drop _ _ _ _) as [d1 p]. simpl.
      destruct (om_none m st) as [v|]; simpl; auto. now rewrite Hd.
    - intros st [k|] Hi; simpl ks_eqb.
      + rewrite opt_lookup_some.
        pose proof (ml_entry _ _ L _ k (opt_inv _ Hi)) as H. simpl.
        destruct (lookup (ks_eqb sp) k _) as [[v r]|]; simpl.
        * destruct H as (o & E & Ho). rewrite E. exists (inl o). simpl.
          split; [reflexivity|]. exists r. auto.
        * destruct H as (x & E & Hx). rewrite E. exists (inl x). simpl.
          split; [reflexivity|]. auto.
      + rewrite opt_lookup_none. simpl.
        rewrite (bucket_new (om_cells m) st om_path_none (om_none m st)) by reflexivity.
        destruct (om_none m st) eqn:En; simpl; eexists; (split; [reflexivity|]); simpl;
          rewrite En; auto.
    - intros st [o|b] [k|] r Hi Ho; try (destruct Ho; fail); simpl ks_eqb.
      + destruct Ho as (r' & -> & Ho). rewrite opt_lookup_some.
        destruct (ml_occ _ _ L _ _ _ _ (opt_inv _ Hi) Ho)
          as (v & Hl & Hk & Hg & Hgm & Him & Hins & Hrem).
        exists v. simpl. rewrite Hl, Hk, Hg, Hgm, Him, Hrem.
        do 5 (split; [reflexivity|]). split.
        * intros v'. destruct (Hins v') as (st' & E1 & E2). rewrite E1, E2.
          eexists; split; reflexivity.
        * simpl. unfold om_with_some. simpl. destruct (ms_remove m _ k); reflexivity.
      + destruct Ho as (Hs & -> & ->). rewrite opt_lookup_none. simpl.
        destruct st as [s [v|]]; [|discriminate]. exists v. simpl.
        do 5 (split; [reflexivity|]). split; [|reflexivity].
        intros v'. eexists; split; reflexivity.
    - intros st [o|b] [k|] r v st' Hi Ho; try (destruct Ho; fail).
      + destruct Ho as (r' & -> & Ho). simpl.
        destruct (ms_store m (om_some m st) r' v) as [s|] eqn:E; [|discriminate].
        intros [= <-]. exists r'. split; auto. simpl.
        eapply (ml_occ_stable _ _ L); eauto. apply (opt_inv _ Hi).
      + destruct Ho as (Hs & -> & ->). destruct st as [s [x|]]; [|discriminate].
        intros [= <-]. simpl. auto.
    - intros st [x|b] [k|] Hi Ho; try (destruct Ho; fail); simpl ks_eqb.
      + rewrite opt_lookup_some. simpl in Ho.
        destruct (ml_vac _ _ L _ _ _ (opt_inv _ Hi) Ho) as (Hl & Hk & Hins).
        rewrite Hl. simpl. rewrite Hk. split; [reflexivity|]. split; [reflexivity|].
        intros v. destruct (Hins v) as (r & E1 & E2). exists (0 :: r). rewrite E1.
        simpl. destruct (ms_insert m (om_some m st) k v) as [? s] eqn:E. simpl in *.
        rewrite E2. split; reflexivity.
      + destruct Ho as (Hs & ->). rewrite opt_lookup_none.
        destruct st as [s [x|]]; [discriminate|]. simpl.
        split; [reflexivity|]. split; [reflexivity|]. intros v. exists [1].
        split; reflexivity.
  Defined.
End Option.
