(** Laws of HashbrownMapStorage. *)
Require Import List Arith NArith Bool Lia Permutation Sorted.
Import ListNotations.
From Verif Require Import Std Traits OptionBucket Hashbrown MapStorages
  DeriveAny Spec IterLaws DropLaws MapCore MapLaws.

Lemma insert_at_perm {A} n (x : A) l : Permutation (insert_at n x l) (x :: l).
Proof.
  revert n; induction l as [|y l IH]; intros [|n]; simpl; auto.
  rewrite IH. apply perm_swap.
Qed.

Lemma permute_perm {A} ns (l : list A) : Permutation (permute ns l) l.
Proof.
  revert l; induction ns as [|n ns IH]; intros [|x l]; simpl; auto.
  rewrite insert_at_perm. auto.
Qed.

Section Entries.
  Context {K V : Type} (eqb : K -> K -> bool).
  Hypothesis Heq : forall a b, eqb a b = true <-> a = b.

  Fixpoint h_ents (i : nat) (l : list (K * V)) : list (ent K V) :=
    match l with
    | [] => []
    | (k, v) :: r => (k, v, [i]) :: h_ents (S i) r
    end.

  Lemma h_ents_fst i l : map fst (h_ents i l) = l.
  Proof. revert i; induction l as [|[k v] l IH]; intros i; simpl; auto. rewrite IH; auto. Qed.

  Lemma h_ents_key i l : map ekey (h_ents i l) = map fst l.
  Proof. unfold ekey. rewrite <- (map_map fst fst), h_ents_fst. reflexivity. Qed.

  Lemma h_ents_value i l : map evalue (h_ents i l) = map snd l.
  Proof. unfold evalue. rewrite <- (map_map fst snd), h_ents_fst. reflexivity. Qed.

  Lemma h_ents_ref i l : map eref (h_ents i l) = map (fun j => [j]) (seq i (length l)).
  Proof.
    revert i; induction l as [|[k v] l IH]; intros i; simpl; auto. rewrite IH. reflexivity.
  Qed.

  Lemma h_ents_len i l : length (h_ents i l) = length l.
  Proof. rewrite <- (h_ents_fst i l) at 2. symmetry. apply map_length. Qed.

  Lemma h_refs_ents i (l : list (K * V)) :
    h_refs i l = map (fun e => (ekey e, eref e)) (h_ents i l).
  Proof. revert i; induction l as [|[k v] l IH]; intros i; simpl; auto. rewrite IH; auto. Qed.

  Lemma h_get_lookup i k l : h_get eqb k l = option_map fst (lookup eqb k (h_ents i l)).
  Proof.
    revert i; induction l as [|[k' v] l IH]; intros i; simpl; auto.
    destruct (eqb k k'); auto.
  Qed.

  Lemma h_find_lookup i k l :
    option_map (fun j => [i + j]) (h_find eqb k l) =
    option_map snd (lookup eqb k (h_ents i l)).
  Proof.
    revert i; induction l as [|[k' v] l IH]; intros i; simpl; auto.
    destruct (eqb k k'); simpl; [rewrite Nat.add_0_r; auto|].
    rewrite <- IH. destruct (h_find eqb k l); simpl; auto.
    do 2 f_equal. lia.
  Qed.

  Lemma lookup_find i k l v r :
    lookup eqb k (h_ents i l) = Some (v, r) ->
    exists j, r = [i + j] /\ h_find eqb k l = Some j /\ nth_error l j = Some (k, v) /\
              h_get eqb k l = Some v /\
              (forall v', h_store l j v' = Some (h_replace eqb k v' l)) /\
              h_take l j = Some (k, v, h_delete eqb k l).
  Proof.
    revert i; induction l as [|[k' v1] l IH]; intros i; simpl; [discriminate|].
    destruct (eqb k k') eqn:E.
    - apply Heq in E. subst. intros [= -> <-]. exists 0. rewrite Nat.add_0_r.
      repeat split; auto.
    - intros H. apply IH in H as (j & -> & H1 & H2 & H3 & H4 & H5).
      exists (S j). rewrite H1. simpl. rewrite H5.
      split; [do 2 f_equal; lia|]. repeat split; auto.
      intros v'. rewrite H4. reflexivity.
  Qed.

  Lemma lookup_find_none i k l :
    lookup eqb k (h_ents i l) = None ->
    h_find eqb k l = None /\ h_get eqb k l = None /\ ~ In k (map fst l).
  Proof.
    intros H. pose proof (h_find_lookup i k l) as H1. pose proof (h_get_lookup i k l) as H2.
    rewrite H in *. simpl in *. split; [|split; auto].
    - destruct (h_find eqb k l); [discriminate|auto].
    - rewrite <- (h_ents_key i). apply (lookup_none eqb Heq). exact H.
  Qed.

  Lemma h_store_spec l : forall i j v l', h_store l j v = Some l' ->
    In [i + j] (map eref (h_ents i l)) /\ map fst l' = map fst l /\
    h_ents i l' = upd_ref [i + j] v (h_ents i l).
  Proof.
    induction l as [|[k v1] l IH]; intros i j v l'; simpl; [discriminate|].
    destruct j as [|j]; simpl.
    - intros [= <-]. rewrite Nat.add_0_r. unfold eref at 1, upd_ref, ekey, evalue, eref. simpl.
      rewrite Nat.eqb_refl. split; [auto|split; auto]. f_equal.
      assert (G : forall n (l : list (K * V)), i < n ->
        h_ents n l = map (fun e : ent K V => (fst (fst e),
          if ref_eqb [i] (snd e) then v else snd (fst e), snd e)) (h_ents n l)).
      { intros n l0. revert n; induction l0 as [|[? ?] l0 IH0]; intros n Hn; simpl; auto.
        destruct (Nat.eqb_spec i n); [lia|]. simpl. f_equal. apply IH0. lia. }
      apply G. lia.
    - destruct (h_store l j v) as [l0|] eqn:E; [|discriminate]. intros [= <-].
      destruct (IH (S i) j v l0 E) as (H1 & H2 & H3).
      replace (i + S j) with (S i + j) by lia. split; [auto|].
      split; [simpl; rewrite H2; reflexivity|]. cbn [h_ents]. rewrite H3.
      destruct (Nat.eqb_spec (S i + j) i); [lia|]. reflexivity.
  Qed.

  Lemma h_store_ok l : forall i r v, In r (map eref (h_ents i l)) ->
    exists j l', r = [i + j] /\ h_store l j v = Some l'.
  Proof.
    induction l as [|[k v1] l IH]; intros i r v; simpl; [tauto|].
    intros [<-|H].
    - exists 0. rewrite Nat.add_0_r. eauto.
    - destruct (IH _ _ v H) as (j & l' & -> & E). exists (S j). rewrite E.
      simpl. eexists. split; [do 2 f_equal; lia|reflexivity].
  Qed.

  Lemma h_load_spec l : forall i j, h_load l j = load_ref [i + j] (h_ents i l).
  Proof.
    unfold h_load. induction l as [|[k v1] l IH]; intros i [|j]; simpl; auto.
    - rewrite Nat.add_0_r. rewrite Nat.eqb_refl. reflexivity.
    - destruct (Nat.eqb_spec (i + S j) i); [lia|]. simpl. rewrite (IH (S i) j).
      do 2 f_equal. lia.
  Qed.

  Lemma h_load_root l r : forall i, (forall j, r <> [j]) ->
    load_ref r (h_ents i l) = None.
  Proof.
    induction l as [|[k v1] l IH]; intros i H; simpl; auto.
    destruct r as [|x [|y r]]; simpl; try (apply IH; auto).
    - destruct (H x). reflexivity.
    - rewrite andb_false_r. apply IH; auto.
  Qed.

  Lemma h_delete_del k (l : list (K * V)) : NoDup (map fst l) -> h_delete eqb k l = del eqb k l.
  Proof.
    unfold del. induction l as [|[k' v] l IH]; simpl; intros Hn; auto.
    inversion Hn; subst.
    destruct (eqb k k') eqn:E; simpl; [|rewrite IH; auto].
    apply Heq in E. subst. clear IH Hn.
    induction l as [|[k v'] l IH]; simpl in *; auto.
    inversion H2; subst.
    destruct (eqb k' k) eqn:E; simpl.
    - apply Heq in E. subst. tauto.
    - f_equal. apply IH; tauto.
  Qed.

  Lemma del_keys k (l : list (K * V)) x :
    In x (map fst (del eqb k l)) -> In x (map fst l).
  Proof.
    unfold del. rewrite !in_map_iff. intros (e & <- & H). apply filter_In in H as [H _]. eauto.
  Qed.

  Lemma NoDup_del k (l : list (K * V)) : NoDup (map fst l) -> NoDup (map fst (del eqb k l)).
  Proof.
    unfold del. induction l as [|e l IH]; simpl; intros Hn; auto. inversion Hn; subst.
    destruct (eqb k (fst e)); simpl; auto. constructor; auto.
    intros H. apply H1. apply (del_keys k). exact H.
  Qed.

  Lemma h_retain_spec {S} (f : retain_fn S K V) (l : list (K * V)) : forall s,
    h_retain_entries f s l = retain_list f s l.
  Proof.
    induction l as [|[k v] l IH]; intros s; simpl; auto.
    destruct (f s k v) as [[s1 v1] []]; auto. rewrite IH. reflexivity.
  Qed.

  Lemma retain_list_keys {S} (f : retain_fn S K V) l : forall s s' l' o,
    retain_list f s l = (s', l', o) ->
    (forall x, In x (map fst l') -> In x (map fst l)) /\
    (NoDup (map fst l) -> NoDup (map fst l')).
  Proof.
    induction l as [|[k v] l IH]; intros s s' l' o; simpl.
    - intros [= <- <- <-]. auto.
    - destruct (f s k v) as [[s1 v1] []].
      + destruct (retain_list f s1 l) as [[s2 l2] o2] eqn:E. intros [= <- <- <-].
        destruct (IH _ _ _ _ E) as [H1 H2]. split; simpl.
        * intros x [<-|H]; auto.
        * intros Hn. inversion Hn; subst. constructor; auto.
      + intros E. destruct (IH _ _ _ _ E) as [H1 H2]. split; auto.
        intros Hn. inversion Hn; subst. auto.
      + intros [= <- <- <-]. auto.
      + intros [= <- <- <-]. split; auto. intros Hn. inversion Hn; subst. auto.
  Qed.

  Lemma h_get_in k (l : list (K * V)) v : h_get eqb k l = Some v -> In k (map fst l).
  Proof.
    induction l as [|[k' v'] l IH]; simpl; [discriminate|].
    destruct (eqb k k') eqn:E; auto. apply Heq in E. auto.
  Qed.

  Lemma h_get_none k (l : list (K * V)) : h_get eqb k l = None <-> ~ In k (map fst l).
  Proof.
    rewrite (h_get_lookup 0), <- (h_ents_key 0), <- (lookup_none eqb Heq).
    destruct (lookup eqb k (h_ents 0 l)); simpl; split; congruence.
  Qed.

  Lemma h_in_get k (l : list (K * V)) v : NoDup (map fst l) -> In (k, v) l -> h_get eqb k l = Some v.
  Proof.
    induction l as [|[k' v'] l IH]; simpl; [tauto|]. intros Hn. inversion Hn; subst.
    intros [[= -> ->]|H].
    - rewrite (proj2 (Heq k k) eq_refl). reflexivity.
    - destruct (eqb k k') eqn:E; auto. apply Heq in E. subst.
      destruct H1. apply in_map_iff. exists (k', v). auto.
  Qed.

  Lemma h_eq_spec (veq : V -> V -> bool) (a b : list (K * V)) : NoDup (map fst a) -> NoDup (map fst b) ->
    (h_eq eqb veq a b = true <->
     forall k, option_eq veq (h_get eqb k a) (h_get eqb k b) = true).
  Proof.
    intros Ha Hb. unfold h_eq. rewrite andb_true_iff, Nat.eqb_eq, forallb_forall.
    split.
    - intros [Hl H].
      assert (Hincl : incl (map fst a) (map fst b)).
      { intros k Hk. apply in_map_iff in Hk as ([k' v] & <- & Hk). specialize (H _ Hk).
        simpl in *. destruct (h_get eqb k' b) eqn:E; [|discriminate].
        eapply h_get_in; eauto. }
      assert (Hincl' : incl (map fst b) (map fst a)).
      { apply NoDup_length_incl; auto. rewrite !map_length. lia. }
      intros k. destruct (h_get eqb k a) as [v|] eqn:Ea.
      + assert (Hin : In (k, v) a).
        { clear -Ea Heq. induction a as [|[k' v'] a IH]; simpl in *; [discriminate|].
          destruct (eqb k k') eqn:E; auto. apply Heq in E. subst. injection Ea as ->. auto. }
        specialize (H _ Hin). simpl in H. destruct (h_get eqb k b); auto.
      + destruct (h_get eqb k b) eqn:Eb; auto.
        apply h_get_in in Eb. apply h_get_none in Ea. destruct Ea. auto.
    - intros H.
      assert (Hi1 : incl (map fst a) (map fst b)).
      { intros k Hk. specialize (H k). destruct (h_get eqb k b) eqn:Eb.
        - eapply h_get_in; eauto.
        - destruct (h_get eqb k a) eqn:Ea; [discriminate|].
          apply h_get_none in Ea. tauto. }
      assert (Hi2 : incl (map fst b) (map fst a)).
      { intros k Hk. specialize (H k). destruct (h_get eqb k a) eqn:Ea.
        - eapply h_get_in; eauto.
        - destruct (h_get eqb k b) eqn:Eb; [discriminate|].
          apply h_get_none in Eb. tauto. }
      split.
      + pose proof (NoDup_incl_length Ha Hi1). pose proof (NoDup_incl_length Hb Hi2).
        rewrite !map_length in *. lia.
      + intros [k v] Hin. simpl. specialize (H k). rewrite (h_in_get _ _ _ Ha Hin) in H.
        destruct (h_get eqb k b); auto.
  Qed.
End Entries.

Section Hash.
  Context {K V : Type} (eqb : K -> K -> bool).
  Hypothesis Heq : forall a b, eqb a b = true <-> a = b.

  Definition hash_spec : KeySpec K :=
    MkKeySpec eqb no_order (fun _ => LHash) (fun _ => None).

  Let m : MapStorage K V := hash_map_storage eqb.

  Lemma unsorted (l : list K) : StronglySorted (fun a b : K => ~ no_order b a) l.
  Proof.
    induction l; constructor; auto. apply Forall_forall. intros x _ [].
  Qed.

  Definition hash_core : Core (ks_eqb hash_spec) (ks_before hash_spec) (ops_of m).
  Proof.
    refine {| c_inv := (fun t : htable K V => NoDup (map fst (ht_entries t))) : ms_St m -> Prop;
              c_ents := (fun t : htable K V => h_ents 0 (ht_entries t)) : ms_St m -> _ |};
      simpl ks_eqb; simpl ks_before.
    - exact Heq.
    - intros t Hi. simpl. rewrite h_ents_key. auto.
    - intros t Hi. simpl. rewrite h_ents_ref. apply NoDup_map_inj; [congruence|].
      apply seq_NoDup.
    - intros t Hi. apply unsorted.
    - intros t Hi. simpl. rewrite h_ents_len. reflexivity.
    - intros t Hi. simpl. destruct (ht_entries t) as [|[? ?] ?]; reflexivity.
    - intros t k Hi. simpl. apply h_get_lookup.
    - intros t k Hi. simpl. unfold hm_get_mut. rewrite <- (h_find_lookup eqb 0). reflexivity.
    - intros t k Hi. simpl. rewrite (h_get_lookup eqb 0).
      destruct (lookup _ _ _); reflexivity.
    - intros t k v old r Hi Hl. destruct (lookup_find eqb Heq _ _ _ _ _ Hl)
        as (j & -> & H1 & H2 & H3 & H4 & H5).
      simpl. unfold h_insert. rewrite H3, H4. eexists; split; reflexivity.
    - intros t k v Hi Hl. destruct (lookup_find_none eqb Heq _ _ _ Hl) as (H1 & H2 & H3).
      simpl. unfold h_insert. rewrite H2. eexists; split; [reflexivity|].
      unfold h_add. simpl. rewrite !h_ents_fst.
      pose proof (permute_perm (ht_orders t 0) ((k, v) :: ht_entries t)) as Hp.
      split; auto.
      apply (Permutation_NoDup (l := map fst ((k, v) :: ht_entries t))).
      + apply Permutation_map. symmetry. auto.
      + simpl. constructor; auto.
    - intros t k Hi. simpl in *. unfold h_remove. rewrite (h_get_lookup eqb 0).
      eexists; split; [reflexivity|]. simpl. rewrite !h_ents_fst.
      rewrite (h_delete_del eqb Heq) by auto. split; auto. apply NoDup_del. auto.
    - intros X f x t Hi. simpl in *. unfold h_retain. rewrite h_retain_spec.
      destruct (retain_list f x (ht_entries t)) as [[x' l'] o] eqn:E.
      exists x', (MkTable (ht_orders t) l'), o. split; auto. simpl.
      rewrite !h_ents_fst. split; auto. eapply retain_list_keys; eauto.
    - intros t Hi. simpl. split; auto. constructor.
    - intros t r Hi. simpl. unfold hm_load.
      destruct r as [|i [|j r]].
      + symmetry. apply h_load_root. congruence.
      + apply (h_load_spec (ht_entries t) 0 i).
      + symmetry. apply h_load_root. congruence.
    - intros t r v Hi Hr. simpl in *. destruct (h_store_ok _ _ _ v Hr) as (j & l' & -> & E).
      simpl. rewrite E. eexists; reflexivity.
    - intros t r v st' Hi. simpl in *. unfold hm_store.
      destruct r as [|i [|j r]]; try discriminate.
      destruct (h_store (ht_entries t) i v) as [l|] eqn:E; [|discriminate].
      intros [= <-]. simpl. destruct (h_store_spec _ 0 _ _ _ E) as (H1 & H2 & H3).
      split; auto. split; [rewrite H2; auto|auto].
    - intros cl t Hi. simpl in *. split.
      + rewrite map_map. simpl. exact Hi.
      + clear. generalize 0. induction (ht_entries t) as [|[k v] l IH]; intros n; simpl; auto.
        rewrite IH. reflexivity.
    - intros veq a b Ha Hb. simpl. apply h_eq_spec; auto.
  Defined.

  Lemma filter_all {A} (f : A -> bool) l : (forall x, In x l -> f x = true) -> filter f l = l.
  Proof.
    induction l as [|x l IH]; simpl; intros H; auto. rewrite (H x) by auto. f_equal. auto.
  Qed.

  Definition hash_laws_ : MapLaws hash_spec m.
  Proof.
    refine {| ml_core := hash_core;
              ml_Iter := hash_laws _ : it_laws (ms_Iter m);
              ml_Keys := hash_laws _ : it_laws (ms_Keys m);
              ml_Values := hash_laws _ : it_laws (ms_Values m);
              ml_IterMut := hash_laws _ : it_laws (ms_IterMut m);
              ml_ValuesMut := hash_laws _ : it_laws (ms_ValuesMut m);
              ml_IntoIter := hash_laws _ : it_laws (ms_IntoIter m);
              ml_drops := hash_drops _ _ (fun x y H => H);
              ml_occ_ok := (fun t o k r => exists v,
                lookup eqb k (h_ents 0 (ht_entries t)) = Some (v, r) /\
                r = [ho_bucket o]) : ms_St m -> ms_Occ m -> K -> ref -> Prop;
              ml_vac_ok := (fun t x k =>
                lookup eqb k (h_ents 0 (ht_entries t)) = None /\
                hv_key x = k) : ms_St m -> ms_Vac m -> K -> Prop |}.
    - intros w. split; [constructor|reflexivity].
    - intros t Hi. split; [exact I|]. simpl. rewrite h_ents_fst. reflexivity.
    - intros t Hi. split; [exact I|]. simpl in *. rewrite h_ents_key.
      split; [auto|]. split; [apply unsorted|]. split.
      + intros k. split; [auto|]. intros [H|H]; [auto|discriminate].
      + apply filter_all. intros k Hk. destruct (h_get eqb k (ht_entries t)) eqn:E; auto.
        apply (h_get_none eqb Heq) in E. tauto.
    - intros t Hi. split; [exact I|]. simpl. rewrite h_ents_value. reflexivity.
    - intros t Hi. split; [exact I|]. simpl. apply h_refs_ents.
    - intros t Hi. split; [exact I|]. simpl. rewrite h_refs_ents, map_map. reflexivity.
    - intros t Hi. split; [exact I|]. simpl. rewrite h_ents_fst. reflexivity.
    - intros t Hi. split; [exact I|]. intros D dr dr' d Hd. simpl. unfold h_drop_table.
      revert d. induction (ht_entries t) as [|e l IH]; intros d; simpl; auto.
      rewrite Hd. destruct (dr d (snd e)) as [d1 []]; auto.
    - intros t k Hi. simpl. destruct (lookup eqb k _) as [[v r]|] eqn:E.
      + destruct (lookup_find eqb Heq _ _ _ _ _ E) as (j & -> & H1 & _).
        unfold hm_entry. rewrite H1. eexists; split; [reflexivity|]. simpl.
        eauto.
      + destruct (lookup_find_none eqb Heq _ _ _ E) as (H1 & H2 & H3).
        unfold hm_entry. rewrite H1. eexists; split; [reflexivity|]. auto.
    - intros t [o] k r Hi (v & E & ->). exists v. simpl in *.
      destruct (lookup_find eqb Heq _ _ _ _ _ E) as (j & [= ->] & H1 & H2 & H3 & H4 & H5).
      unfold hm_occ_key, hm_occ_get, hm_occ_get_mut, hm_occ_insert, hm_occ_remove.
      simpl. rewrite H2, H5. do 5 (split; [auto|]). split; [|reflexivity].
      intros v'. rewrite H4. simpl. eexists; split; reflexivity.
    - intros t [o] k r v st' Hi (v0 & E & ->). simpl in *.
      destruct (h_store (ht_entries t) o v) as [l|] eqn:Es; [|discriminate].
      intros [= <-]. simpl. destruct (h_store_spec _ 0 _ _ _ Es) as (H1 & H2 & H3).
      simpl in H3. rewrite H3. exists v. split; auto.
      assert (Hin : In (k, v, [o]) (upd_ref [o] v (h_ents 0 (ht_entries t)))).
      { apply (lookup_in eqb Heq) in E. unfold upd_ref. apply in_map_iff.
        exists (k, v0, [o]). split; auto. unfold ekey, evalue, eref. simpl.
        rewrite Nat.eqb_refl. reflexivity. }
      apply (in_lookup eqb Heq); auto.
      unfold upd_ref. rewrite map_map. unfold ekey at 1. simpl.
      fold (@ekey K V). change (fun x => ekey x) with (@ekey K V).
      rewrite h_ents_key. exact Hi.
    - intros t [x] k Hi (E & <-). simpl in *. split; auto. split; auto. intros v.
      destruct (lookup_find_none eqb Heq _ _ _ E) as (H1 & H2 & H3).
      unfold hm_vac_insert, h_insert, hm_get_mut. simpl. rewrite H2. simpl.
      pose proof (permute_perm (ht_orders t 0) ((x, v) :: ht_entries t)) as Hp.
      destruct (h_find eqb x (permute (ht_orders t 0) ((x, v) :: ht_entries t))) as [i|] eqn:Ef.
      + eexists; split; reflexivity.
      + exfalso.
        assert (Hin : In x (map fst (permute (ht_orders t 0) ((x, v) :: ht_entries t)))).
        { eapply Permutation_in; [apply Permutation_map; symmetry; exact Hp|]. simpl. auto. }
        clear -Ef Hin Heq. revert Ef Hin.
        induction (permute (ht_orders t 0) ((x, v) :: ht_entries t)) as [|[k' v'] l IH];
          simpl; [tauto|].
        destruct (eqb x k') eqn:E; [discriminate|].
        destruct (h_find eqb x l); [discriminate|]. intros _ [<-|H]; [|tauto].
        rewrite (proj2 (Heq k' k') eq_refl) in E. discriminate.
  Defined.
End Hash.
