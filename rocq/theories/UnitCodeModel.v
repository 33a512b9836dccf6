(** The storages of DeriveUnit.v serve requests as the reference does, and so as the
    generated code does. *)
Require Import List Arith NArith Bool String Lia.
Import ListNotations.
From Verif Require Import Std Traits OptionBucket MapStorages SetStorages DeriveUnit
  Spec IterLaws MapCore MapLaws UnitLaws SetCore SetLaws BitLaws
  Rust UnitCode CodeSpec RustFacts UnitCodeProofs.
Open Scope string_scope.

(** * Iterators *)

Lemma drain_rem {A} : forall n (s : flatten_st A), List.length (flatten_rem s) <= n ->
  drain (flatten_it A) n s = flatten_rem s.
Proof.
  induction n as [|n IH]; intros s H.
  - destruct (flatten_rem s); [reflexivity|cbn in H; lia].
  - pose proof (il_next _ (flatten_laws A) s I) as (s' & E & _ & R). cbn in E, R.
    cbn [drain flatten_it it_next]. rewrite E.
    destruct (flatten_rem s) as [|a r]; cbn [hd_error]; [reflexivity|].
    cbn in R, H. rewrite <- R. f_equal. apply IH. rewrite R. lia.
Qed.

Lemma cat_length {A} (l : list (option A)) : List.length (cat_options l) <= List.length l.
Proof. induction l as [|[x|] r IH]; cbn; lia. Qed.

Lemma drain_flatten {A} (l : list (option A)) n : List.length l <= n ->
  drain (flatten_it A) n (flatten_of l) = cat_options l.
Proof.
  intros H. pose proof (cat_length l). rewrite drain_rem; rewrite flatten_of_rem; [reflexivity|lia].
Qed.

Lemma arr_get_other {A R} (u : units R) : forall (a : arr A u) k k' x, k' <> k ->
  arr_get u (arr_set u a k x) k' = arr_get u a k'.
Proof.
  induction u as [|R u IH]; cbn; [intros ? []|].
  intros a [[]|k] [[]|k'] x H; cbn; auto; [congruence|].
  apply IH. congruence.
Qed.

Lemma arr_get_init {A R} (u : units R) (x : A) : forall k, arr_get u (arr_init u x) k = x.
Proof. induction u as [|R u IH]; cbn; [intros []|]. intros [|k]; auto. Qed.

(** * Keys and names *)
Section Named.
  Context {R : Type} (u : units R) (name : R -> string).
  Hypothesis distinct : NoDup (map name (variants_of u)).
  Notation ks := (variants_of u).

  Lemma name_inj a b : name a = name b -> a = b.
  Proof.
    intros E. pose proof (variants_all u a) as Ha. pose proof (variants_all u b) as Hb.
    revert distinct Ha Hb. generalize ks. induction l as [|k r IH]; cbn; [tauto|].
    intros Hd. inversion Hd as [|? ? Hk Hr]; subst. intros [->|Ha] [->|Hb]; auto.
    - exfalso. apply Hk. rewrite E. now apply in_map.
    - exfalso. apply Hk. rewrite <- E. now apply in_map.
  Qed.

  Lemma named_key k : key_named ks name (name k) = Some k.
  Proof.
    unfold key_named. pose proof (variants_all u k) as Hk. revert Hk.
    generalize ks. induction l as [|a r IH]; [contradiction|]. intros Hk. cbn.
    destruct (String.eqb_spec (name a) (name k)) as [E|E].
    - f_equal. now apply name_inj.
    - destruct Hk as [->|Hk]; [congruence|auto].
  Qed.

  Lemma upd_name {A} (m : string -> A) k k' a :
    upd m (name k) a (name k') = if ks_eqb (units_spec u) k' k then a else m (name k').
  Proof.
    unfold upd. destruct (String.eqb_spec (name k') (name k)) as [E|E].
    - apply name_inj in E. subst.
      now rewrite (proj2 (units_eqb_eq u k k) eq_refl).
    - destruct (ks_eqb (units_spec u) k' k) eqn:Q; [|reflexivity].
      apply units_eqb_eq in Q. congruence.
  Qed.
End Named.

(** * Maps *)
Section MapModel.
  Context {R S V : Type} (u : units R) (name : R -> string) (U : user S V).
  Hypothesis distinct : NoDup (map name (variants_of u)).
  Notation ks := (variants_of u).
  Notation vs := (map name (variants_of u)).
  Notation M := (unit_map_storage u V).
  Notation n := (List.length (variants_of u)).
  Notation step := (model_step U ks name M n).

  Definition rel (a : arr (option V) u) (m : string -> option V) : Prop :=
    forall k, m (name k) = arr_get u a k.

  Lemma rel_set a m k o : rel a m -> rel (arr_set u a k o) (upd m (name k) o).
  Proof.
    intros H k'. rewrite (upd_name u name distinct).
    destruct (ks_eqb (units_spec u) k' k) eqn:Q.
    - apply units_eqb_eq in Q. subst. now rewrite arr_get_set.
    - rewrite arr_get_other; [apply H|]. intros ->.
      now rewrite (proj2 (units_eqb_eq u k k) eq_refl) in Q.
  Qed.

  Lemma rel_cat {A} (st : unit_map (V := V) u) m (f : R -> V -> A) (g : string -> V -> A) :
    rel (um_data st) m -> (forall k v, f k v = g (name k) v) ->
    cat_options (map (fun k => option_map (f k) (arr_get u (um_data st) k)) ks) =
    map (fun e => g (fst e) (snd e)) (entries vs m).
  Proof.
    intros H F. unfold entries. generalize ks. induction l as [|k r IH]; [reflexivity|].
    cbn [map flat_map cat_options]. rewrite (H k), map_app, <- IH.
    destruct (arr_get u (um_data st) k); cbn; [now rewrite F|reflexivity].
  Qed.

  (** [retain], over part of the variants. *)
  Lemma retain_rel {R'} (u' : units R') : forall (inj : R' -> R) s a m,
    NoDup (map (fun k => name (inj k)) (variants_of u')) ->
    (forall k, m (name (inj k)) = arr_get u' a k) ->
    let '(s1, m1, r) := ref_retain U (map (fun k => name (inj k)) (variants_of u')) s m in
    exists a1 o, arr_retain (keep2_fn U name) u' inj s a = (s1, a1, o) /\ r = ended_as o /\
      (forall k, m1 (name (inj k)) = arr_get u' a1 k) /\
      (forall x, ~ In x (map (fun k => name (inj k)) (variants_of u')) -> m1 x = m x).
  Proof.
    induction u' as [|R' u' IH]; intros inj s a m Hd H.
    - cbn. exists a, Done. repeat split; auto; intros [].
    - cbn [variants_of map] in *. rewrite map_map in *. cbn [ref_retain].
      inversion Hd as [|? ? Hx Hr]; subst.
      destruct a as [o r]. pose proof (H (inl tt)) as H0. cbn in H0. rewrite H0.
      cbn [arr_retain fst snd]. unfold retain_cell.
      assert (Hs : forall m', (forall k, m' (name (inj (inr k))) = m (name (inj (inr k)))) ->
                     forall k, m' (name (inj (inr k))) = arr_get u' r k)
        by (intros m' E k; rewrite E; apply (H (inr k))).
      assert (Up : forall q k, upd m (name (inj (inl tt))) q (name (inj (inr k))) =
                               m (name (inj (inr k)))).
      { intros q k. unfold upd. destruct (String.eqb_spec (name (inj (inr k))) (name (inj (inl tt))))
          as [E|]; [|reflexivity].
        exfalso. apply Hx. apply in_map_iff. exists k. split; [exact E|apply variants_all]. }
      assert (Up0 : forall (q : option V), upd m (name (inj (inl tt))) q (name (inj (inl tt))) = q)
        by (intros q; unfold upd; now rewrite String.eqb_refl).
      assert (Uo : forall q x, ~ In x (name (inj (inl tt)) ::
                     map (fun k => name (inj (inr k))) (variants_of u')) ->
                   upd m (name (inj (inl tt))) q x = m x).
      { intros q x Hn. unfold upd. destruct (String.eqb_spec x (name (inj (inl tt)))) as [->|];
          [|reflexivity]. exfalso. apply Hn. now left. }
      assert (Go : forall s' q (m' : string -> option V),
        (forall k, m' (name (inj (inr k))) = m (name (inj (inr k)))) ->
        m' (name (inj (inl tt))) = q ->
        (forall x, ~ In x (name (inj (inl tt)) ::
            map (fun k => name (inj (inr k))) (variants_of u')) -> m' x = m x) ->
        let '(s1, m1, r0) := ref_retain U
          (map (fun x => name (inj (inr x))) (variants_of u')) s' m' in
        exists a1 oc,
          (let '(s2, a2, o0) := arr_retain (keep2_fn U name) u' (fun k => inj (inr k)) s' r in
           (s2, (q, a2), o0)) = (s1, a1, oc) /\ r0 = ended_as oc /\
          (forall k, m1 (name (inj k)) = arr_get (UCons u') a1 k) /\
          (forall x, ~ In x (name (inj (inl tt)) ::
             map (fun k => name (inj (inr k))) (variants_of u')) -> m1 x = m x)).
      { intros s' q m' E1 E2 E3.
        specialize (IH (fun k => inj (inr k)) s' r m' Hr (Hs m' E1)).
        destruct (ref_retain U _ s' m') as [[s1 m1] r1].
        destruct IH as (a1 & oc & -> & -> & K1 & K2).
        exists (q, a1), oc. repeat split.
        - intros [[]|k]; cbn [arr_get fst snd]; [|apply K1].
          rewrite K2; [exact E2|exact Hx].
        - intros x Hn. rewrite K2, E3; auto. intros Hin. apply Hn. now right. }
      destruct o as [v|].
      2:{ apply Go; auto. }
      unfold keep2_fn at 1. destruct (keep2 U s (name (inj (inl tt))) v) as [[s1 v1] [[|]|]].
      + apply Go; auto.
      + destruct (drop U s1 v1) as [s2 [|]].
        * exists (None, r), Unwound. repeat split; auto.
          intros [[]|k]; cbn [arr_get fst snd]; [apply Up0|].
          rewrite Up. apply (H (inr k)).
        * apply Go; auto.
      + exists (Some v1, r), Unwound. repeat split; auto.
        intros [[]|k]; cbn [arr_get fst snd]; [apply Up0|].
        rewrite Up. apply (H (inr k)).
  Qed.

  Lemma drop_rel {R'} (u' : units R') : forall (inj : R' -> R) s a m,
    (forall k, m (name (inj k)) = arr_get u' a k) ->
    arr_drop (drop U) u' s a =
    let '(s1, b) := ref_drop U (map (fun k => name (inj k)) (variants_of u')) s m in
    (s1, if b then Unwound else Done).
  Proof.
    induction u' as [|R' u' IH]; intros inj s a m H; [reflexivity|].
    cbn [variants_of map arr_drop]. rewrite map_map. cbn [ref_drop].
    destruct a as [o r]. pose proof (H (inl tt)) as H0. cbn in H0. rewrite H0. cbn [fst snd].
    unfold drop_cell. destruct o as [v|].
    - destruct (drop U s v) as [s1 b1].
      rewrite (IH (fun k => inj (inr k)) s1 r m) by (intros k; apply (H (inr k))).
      destruct (ref_drop U _ s1 m) as [s2 b2]. now destruct b1, b2.
    - rewrite (IH (fun k => inj (inr k)) s r m) by (intros k; apply (H (inr k))).
      now destruct (ref_drop U _ s m) as [s2 []].
  Qed.

  Lemma load_at (st : unit_map (V := V) u) k :
    ms_load M st (um_path u k) = arr_get u (um_data st) k.
  Proof.
    cbn [ms_load unit_map_storage]. unfold cell_load. rewrite um_cell_get.
    now destruct (arr_get u (um_data st) k).
  Qed.

  Lemma store_at (st : unit_map (V := V) u) k v w : arr_get u (um_data st) k = Some w ->
    ms_store M st (um_path u k) v = Some (MkUnitMap (arr_set u (um_data st) k (Some v))).
  Proof.
    intros E. cbn [ms_store unit_map_storage]. unfold cell_store.
    now rewrite um_cell_get, E, um_cell_set.
  Qed.

  (** Assigning through the references to the values of some keys. *)
  Lemma store_all_rel (g : string -> V -> V) (st0 : unit_map (V := V) u) l :
    NoDup l -> forall (st : unit_map (V := V) u) m, rel (um_data st) m ->
    (forall k, In k l -> arr_get u (um_data st) k = arr_get u (um_data st0) k) ->
    exists st', store_all M (fun k => g (name k))
        (cat_options (map (fun k => some_pair k
           (opt_as_mut (um_path u k) (arr_get u (um_data st0) k))) l)) st = Some st' /\
      (forall k, In k l -> arr_get u (um_data st') k =
                           option_map (g (name k)) (arr_get u (um_data st0) k)) /\
      (forall k, ~ In k l -> arr_get u (um_data st') k = arr_get u (um_data st) k).
  Proof.
    induction l as [|k r IH]; intros Hn st m H E.
    { exists st. split; [reflexivity|]. split; [intros k []|auto]. }
    inversion Hn as [|? ? Hk Hr]; subst. cbn [map].
    pose proof (E k (or_introl eq_refl)) as Ek.
    destruct (arr_get u (um_data st0) k) as [v|] eqn:Q; cbn [opt_as_mut some_pair cat_options].
    - cbn [store_all]. rewrite load_at, Ek, (store_at st k _ v Ek).
      destruct (IH Hr (MkUnitMap (arr_set u (um_data st) k (Some (g (name k) v))))
                  (upd m (name k) (Some (g (name k) v)))) as (st' & -> & A & B).
      + cbn. now apply rel_set.
      + intros k' Hk'. cbn [um_data]. rewrite arr_get_other by (intros ->; contradiction).
        apply E. now right.
      + exists st'. split; [reflexivity|]. split.
        * intros k' [<-|Hk']; [|now apply A]. rewrite B by auto. cbn [um_data].
          now rewrite arr_get_set, Q.
        * intros k' Hk'. rewrite B by (intros Hi; apply Hk'; now right). cbn [um_data].
          apply arr_get_other. intros ->. apply Hk'. now left.
    - destruct (IH Hr st m H) as (st' & -> & A & B); [intros k' Hk'; apply E; now right|].
      exists st'. split; [reflexivity|]. split.
      + intros k' [<-|Hk']; [|now apply A]. rewrite B by auto. now rewrite Q.
      + intros k' Hk'. apply B. intros Hi. apply Hk'. now right.
  Qed.

  Lemma store_values_all (g : V -> V) : forall l st,
    store_values M g (map snd l) st = store_all M (fun _ => g) l st.
  Proof.
    induction l as [|[k r] l IH]; intros st; [reflexivity|]. cbn [map snd store_values store_all].
    destruct (ms_load M st r); [|reflexivity]. destruct (ms_store M st r (g v)); auto.
  Qed.

  Lemma len_bound {A} (f : R -> A) : List.length (map f ks) <= n.
  Proof. now rewrite map_length. Qed.

  Lemma step_rel q s st m : well_named vs q -> rel (um_data st) m ->
    let '(s1, m1, a) := ref_map vs U q s m in
    exists st1, step q s st = (s1, st1, a) /\ rel (um_data st1) m1.
  Proof.
    intros Hq H.
    assert (Kn : forall x, In x vs -> exists k, x = name k /\ key_named ks name x = Some k).
    { intros x Hx. apply in_map_iff in Hx as (k & <- & _). exists k. split; [reflexivity|].
      now apply named_key. }
    assert (Iter : drain (flatten_it (R * V)) n (flatten_of
        (map (fun k => some_pair k (arr_get u (um_data st) k)) ks)) =
      cat_options (map (fun k => option_map (pair k) (arr_get u (um_data st) k)) ks)).
    { rewrite drain_flatten by apply len_bound. reflexivity. }
    assert (Ents : forall {A} (f : R * V -> A) (g : string -> V -> A),
      (forall k v, f (k, v) = g (name k) v) ->
      map f (cat_options (map (fun k => option_map (pair k) (arr_get u (um_data st) k)) ks)) =
      map (fun e => g (fst e) (snd e)) (entries vs m)).
    { intros A f g Hf. rewrite <- cat_options_map, map_map.
      rewrite <- (rel_cat st m (fun k v => f (k, v)) g H Hf). f_equal. apply map_ext. intros k.
      now destruct (arr_get u (um_data st) k). }
    destruct q; cbn [well_named] in Hq; cbn [ref_map].
    - (* len *)
      exists st. split; [|exact H]. cbn [model_step ms_len unit_map_storage]. do 2 f_equal.
      unfold um_len. rewrite arr_elems_map. unfold entries.
      assert (G : forall l p,
        fold_left (fun n o => n + usize_from (is_some o)) (map (arr_get u (um_data st)) l) p =
        p + List.length (flat_map (fun x => match m x with Some v => [(x, v)] | None => [] end)
                                  (map name l))).
      { induction l as [|k r IH]; intros p; cbn [map fold_left flat_map List.length]; [lia|].
        rewrite IH, app_length, (H k). destruct (arr_get u (um_data st) k); cbn; lia. }
      now rewrite G.
    - (* is_empty *)
      exists st. split; [|exact H]. cbn [model_step ms_is_empty unit_map_storage]. do 2 f_equal.
      unfold um_is_empty. rewrite arr_elems_map. unfold entries.
      assert (G : forall l p,
        fold_left (fun b o => b && is_none o) (map (arr_get u (um_data st)) l) p =
        p && Nat.eqb (List.length
          (flat_map (fun x => match m x with Some v => [(x, v)] | None => [] end)
                    (map name l))) 0).
      { induction l as [|k r IH]; intros p; cbn [map fold_left flat_map List.length];
          [now rewrite andb_true_r|].
        rewrite IH, (H k). destruct (arr_get u (um_data st) k); cbn.
        - now rewrite !andb_false_r.
        - now rewrite andb_true_r. }
      now rewrite G.
    - destruct (Kn x Hq) as (k & -> & E). exists st. split; [|exact H].
      cbn [model_step]. rewrite E. cbn. unfold has. now rewrite (H k).
    - destruct (Kn x Hq) as (k & -> & E). exists st. split; [|exact H].
      cbn [model_step]. rewrite E. cbn. now rewrite (H k).
    - destruct (Kn x Hq) as (k & -> & E).
      exists (MkUnitMap (arr_set u (um_data st) k (Some v))). split; [|now apply rel_set].
      cbn [model_step]. rewrite E. cbn. now rewrite (H k).
    - destruct (Kn x Hq) as (k & -> & E). cbn [model_step]. rewrite E, (H k).
      cbn [ms_get_mut unit_map_storage].
      destruct (arr_get u (um_data st) k) as [w|] eqn:Q; cbn [opt_as_mut].
      + rewrite (store_at st k v w Q). cbn [stored].
        exists (MkUnitMap (arr_set u (um_data st) k (Some v))).
        split; [reflexivity|now apply rel_set].
      + exists st. auto.
    - destruct (Kn x Hq) as (k & -> & E).
      exists (MkUnitMap (arr_set u (um_data st) k None)). split; [|now apply rel_set].
      cbn [model_step]. rewrite E. cbn. now rewrite (H k).
    - (* retain *)
      cbn [model_step ms_retain unit_map_storage]. unfold um_retain.
      pose proof (retain_rel u (fun k => k) s (um_data st) m distinct H) as K.
      destruct (ref_retain U vs s m) as [[s1 m1] a].
      destruct K as (a1 & o & -> & -> & K1 & _). exists (MkUnitMap a1). auto.
    - (* clear *)
      cbn [model_step ms_clear_drop unit_map_storage].
      rewrite (drop_rel u (fun k => k) s (um_data st) m H).
      destruct (ref_drop U vs s m) as [s1 b]. exists (MkUnitMap (arr_init u None)).
      split; [now destruct b|]. intros k. cbn. now rewrite arr_get_init.
    - exists st. split; [|exact H]. cbn [model_step ms_Iter ms_iter unit_map_storage].
      rewrite Iter. do 2 f_equal.
      now apply (Ents _ _ (fun x v => (Some x, Some v))).
    - exists st. split; [|exact H]. cbn [model_step ms_Keys ms_keys unit_map_storage].
      rewrite drain_flatten by apply len_bound. do 2 f_equal.
      rewrite <- (Ents _ (fun e => (Some (name (fst e)), None)) (fun x _ => (Some x, None)))
        by reflexivity.
      rewrite <- !cat_options_map, !map_map. f_equal. apply map_ext. intros k.
      now destruct (arr_get u (um_data st) k).
    - exists st. split; [|exact H]. cbn [model_step ms_Values ms_values unit_map_storage].
      rewrite arr_elems_map, drain_flatten by apply len_bound. do 2 f_equal.
      rewrite <- (Ents _ (fun e => (None, Some (snd e))) (fun _ v => (None, Some v)))
        by reflexivity.
      rewrite <- !cat_options_map, !map_map. f_equal. apply map_ext. intros k.
      now destruct (arr_get u (um_data st) k).
    - exists st. split; [|exact H]. cbn [model_step ms_IntoIter ms_into_iter unit_map_storage].
      rewrite Iter. do 2 f_equal.
      now apply (Ents _ _ (fun x v => (Some x, Some v))).
    - (* iter_mut *)
      cbn [model_step ms_IterMut ms_iter_mut unit_map_storage]. unfold um_refs.
      rewrite drain_flatten by apply len_bound.
      destruct (store_all_rel g st ks (variants_nodup u) st m H (fun k _ => eq_refl))
        as (st' & E & A & _).
      cbn [unit_map_storage] in E. rewrite E. cbn [stored]. exists st'. split; [reflexivity|].
      intros k. rewrite (A k (variants_all u k)). now rewrite (H k).
    - (* values_mut *)
      cbn [model_step ms_ValuesMut ms_values_mut unit_map_storage]. unfold um_refs.
      rewrite drain_flatten by (rewrite map_length; apply len_bound).
      rewrite cat_options_map.
      pose proof (store_values_all g (cat_options (map (fun k => some_pair k
           (opt_as_mut (um_path u k) (arr_get u (um_data st) k))) ks)) st) as E0.
      destruct (store_all_rel (fun _ => g) st ks (variants_nodup u) st m H (fun k _ => eq_refl))
        as (st' & E & A & _).
      rewrite E in E0. cbn [unit_map_storage] in E0. rewrite E0. cbn [stored].
      exists st'. split; [reflexivity|].
      intros k. rewrite (A k (variants_all u k)). now rewrite (H k).
    - (* entry *)
      destruct (Kn x Hq) as (k & -> & E). cbn [model_step]. rewrite E.
      unfold model_entry. cbn [ms_entry unit_map_storage]. unfold um_entry.
      pose proof (um_cell_get u st k) as Eg.
      rewrite (bucket_new _ _ _ _ Eg). unfold res_map. unfold ref_entry. rewrite (H k).
      destruct (arr_get u (um_data st) k) as [w|] eqn:Q; cbn [res_bind is_some keyed_entry].
      + destruct a.
        * exists st. auto.
        * cbn [ms_occ_get unit_map_storage kb_inner]. rewrite (bucket_as_ref _ _ _ _ Eg). exists st. auto.
        * cbn [ms_occ_get_mut unit_map_storage kb_inner]. rewrite (bucket_as_mut _ _ _ _ Eg). cbn [on_ok].
          pose proof (store_at st k v w Q) as Es. cbn [unit_map_storage] in Es. rewrite Es.
          eexists. split; [reflexivity|]. now apply rel_set.
        * cbn [ms_occ_into_mut unit_map_storage kb_inner]. rewrite (bucket_into_mut _ _ _ _ Eg). cbn [on_ok].
          pose proof (store_at st k v w Q) as Es. cbn [unit_map_storage] in Es. rewrite Es.
          eexists. split; [reflexivity|]. now apply rel_set.
        * cbn [ms_occ_insert unit_map_storage kb_inner].
          rewrite (bucket_replace _ _ _ _ _ _ Eg (um_cell_set u st k (Some v))).
          eexists. split; [reflexivity|]. now apply rel_set.
        * cbn [ms_occ_remove unit_map_storage kb_inner].
          rewrite (bucket_take _ _ _ _ _ Eg (um_cell_set u st k None)).
          eexists. split; [reflexivity|]. now apply rel_set.
      + destruct a.
        * exists st. auto.
        * exists st. auto.
        * exists st. auto.
        * exists st. auto.
        * cbn [ms_vac_insert unit_map_storage kb_inner].
          rewrite (bucket_insert _ _ _ _ _ Eg (um_cell_set u st k (Some v))).
          2:{ rewrite um_cell_get. cbn [um_data]. now rewrite arr_get_set. }
          cbn [on_ok].
          pose proof (load_at (MkUnitMap (arr_set u (um_data st) k (Some v))) k) as El.
          cbn [unit_map_storage um_data] in El. rewrite arr_get_set in El. rewrite El.
          eexists. split; [reflexivity|]. now apply rel_set.
        * exists st. split; [reflexivity|]. intros k'. rewrite (upd_name u name distinct).
          destruct (ks_eqb (units_spec u) k' k) eqn:Qk; [|apply H].
          apply units_eqb_eq in Qk. subst. now rewrite Q.
  Qed.

  Lemma model_answers l : forall s st m, Forall (well_named vs) l -> rel (um_data st) m ->
    answers step l s st = answers (ref_map vs U) l s m.
  Proof.
    induction l as [|q r IH]; intros s st m Hl H; [reflexivity|].
    inversion Hl as [|? ? Hq Hr]; subst. cbn [answers].
    pose proof (step_rel q s st m Hq H) as K.
    destruct (ref_map vs U q s m) as [[s1 m1] a].
    destruct K as (st1 & -> & H1). now rewrite (IH s1 st1 m1 Hr H1).
  Qed.

  Lemma model_serves l s w : Forall (well_named vs) l ->
    answers step l s (ms_empty M w) = answers (ref_map vs U) l s (fun _ => None).
  Proof.
    intros Hl. apply model_answers; auto. intros k. cbn. now rewrite arr_get_init.
  Qed.
End MapModel.

(** * Sets as arrays *)
Section SetModel.
  Context {R S V : Type} (u : units R) (name : R -> string) (U : user S V).
  Hypothesis distinct : NoDup (map name (variants_of u)).
  Notation ks := (variants_of u).
  Notation vs := (map name (variants_of u)).
  Notation M := (unit_set_storage u).
  Notation n := (List.length (variants_of u)).
  Notation step := (model_set_step (V := V) U ks name M n).

  Definition srel (a : arr bool u) (m : string -> bool) : Prop :=
    forall k, m (name k) = arr_get u a k.

  Lemma srel_set a m k o : srel a m -> srel (arr_set u a k o) (upd m (name k) o).
  Proof.
    intros H k'. rewrite (upd_name u name distinct).
    destruct (ks_eqb (units_spec u) k' k) eqn:Q.
    - apply units_eqb_eq in Q. subst. now rewrite arr_get_set.
    - rewrite arr_get_other; [apply H|]. intros ->.
      now rewrite (proj2 (units_eqb_eq u k k) eq_refl) in Q.
  Qed.

  Lemma filter_rel {R'} (u' : units R') : forall (inj : R' -> R) s a m,
    NoDup (map (fun k => name (inj k)) (variants_of u')) ->
    (forall k, m (name (inj k)) = arr_get u' a k) ->
    let '(s1, m1, r) := ref_filter U (map (fun k => name (inj k)) (variants_of u')) s m in
    exists a1 o, arr_retain_flags (keep_fn U name) u' inj s a = (s1, a1, o) /\
      r = ended_as o /\
      (forall k, m1 (name (inj k)) = arr_get u' a1 k) /\
      (forall x, ~ In x (map (fun k => name (inj k)) (variants_of u')) -> m1 x = m x).
  Proof.
    induction u' as [|R' u' IH]; intros inj s a m Hd H.
    - cbn. exists a, Done. repeat split; auto; intros [].
    - cbn [variants_of map] in *. rewrite map_map in *. cbn [ref_filter].
      inversion Hd as [|? ? Hx Hr]; subst.
      destruct a as [o r]. pose proof (H (inl tt)) as H0. cbn in H0. rewrite H0.
      cbn [arr_retain_flags fst snd]. unfold retain_flag.
      assert (Hs : forall m', (forall k, m' (name (inj (inr k))) = m (name (inj (inr k)))) ->
                     forall k, m' (name (inj (inr k))) = arr_get u' r k)
        by (intros m' E k; rewrite E; apply (H (inr k))).
      assert (Up : forall q k, upd m (name (inj (inl tt))) q (name (inj (inr k))) =
                               m (name (inj (inr k)))).
      { intros q k. unfold upd. destruct (String.eqb_spec (name (inj (inr k))) (name (inj (inl tt))))
          as [E|]; [|reflexivity].
        exfalso. apply Hx. apply in_map_iff. exists k. split; [exact E|apply variants_all]. }
      assert (Up0 : forall q, upd m (name (inj (inl tt))) q (name (inj (inl tt))) = q)
        by (intros q; unfold upd; now rewrite String.eqb_refl).
      assert (Uo : forall q x, ~ In x (name (inj (inl tt)) ::
                     map (fun k => name (inj (inr k))) (variants_of u')) ->
                   upd m (name (inj (inl tt))) q x = m x).
      { intros q x Hn. unfold upd. destruct (String.eqb_spec x (name (inj (inl tt)))) as [->|];
          [|reflexivity]. exfalso. apply Hn. now left. }
      assert (Go : forall s' q (m' : string -> bool),
        (forall k, m' (name (inj (inr k))) = m (name (inj (inr k)))) ->
        m' (name (inj (inl tt))) = q ->
        (forall x, ~ In x (name (inj (inl tt)) ::
            map (fun k => name (inj (inr k))) (variants_of u')) -> m' x = m x) ->
        let '(s1, m1, r0) := ref_filter U
          (map (fun x => name (inj (inr x))) (variants_of u')) s' m' in
        exists a1 oc,
          (let '(s2, a2, o0) := arr_retain_flags (keep_fn U name) u' (fun k => inj (inr k)) s' r in
           (s2, (q, a2), o0)) = (s1, a1, oc) /\ r0 = ended_as oc /\
          (forall k, m1 (name (inj k)) = arr_get (UCons u') a1 k) /\
          (forall x, ~ In x (name (inj (inl tt)) ::
             map (fun k => name (inj (inr k))) (variants_of u')) -> m1 x = m x)).
      { intros s' q m' E1 E2 E3.
        specialize (IH (fun k => inj (inr k)) s' r m' Hr (Hs m' E1)).
        destruct (ref_filter U _ s' m') as [[s1 m1] r1].
        destruct IH as (a1 & oc & -> & -> & K1 & K2).
        exists (q, a1), oc. repeat split.
        - intros [[]|k]; cbn [arr_get fst snd]; [|apply K1].
          rewrite K2; [exact E2|exact Hx].
        - intros x Hn. rewrite K2, E3; auto. intros Hin. apply Hn. now right. }
      destruct o.
      2:{ apply Go; auto. }
      unfold keep_fn at 1. destruct (keep U s (name (inj (inl tt)))) as [s1 [[|]|]].
      + apply Go; auto.
      + apply Go; auto.
      + exists (true, r), Unwound. repeat split; auto.
  Qed.

  Lemma sstep_rel q s st m : set_well_named vs q -> srel (us_data u st) m ->
    let '(s1, m1, a) := ref_set vs U false q s m in
    exists st1, step q s st = (s1, st1, a) /\ srel (us_data u st1) m1.
  Proof.
    intros Hq H.
    assert (Kn : forall x, In x vs -> exists k, x = name k /\ key_named ks name x = Some k).
    { intros x Hx. apply in_map_iff in Hx as (k & <- & _). exists k. split; [reflexivity|].
      now apply named_key. }
    assert (Iter : map (fun k => (Some (name k), None)) (drain (flatten_it R) n (us_iter u st)) =
                   map (fun x => (Some x, @None V)) (elements vs m)).
    { unfold us_iter. rewrite drain_flatten by now rewrite map_length.
      unfold elements. generalize ks. induction l as [|k r IH]; [reflexivity|].
      cbn [map cat_options filter]. rewrite (H k).
      destruct (arr_get u (us_data u st) k); cbn [map cat_options]; now rewrite IH. }
    destruct q; cbn [set_well_named] in Hq; cbn [ref_set].
    - exists st. split; [|exact H]. cbn [model_set_step ss_len unit_set_storage]. do 2 f_equal.
      rewrite arr_elems_map. unfold elements.
      assert (G : forall l p,
        fold_left (fun n b => n + usize_from b) (map (arr_get u (us_data u st)) l) p =
        p + List.length (filter m (map name l))).
      { induction l as [|k r IH]; intros p; cbn [map fold_left filter List.length]; [lia|].
        rewrite IH, (H k). destruct (arr_get u (us_data u st) k); cbn; lia. }
      now rewrite G.
    - exists st. split; [|exact H]. cbn [model_set_step ss_is_empty unit_set_storage]. do 2 f_equal.
      rewrite arr_elems_map. unfold elements.
      assert (G : forall l p,
        fold_left (fun b x => b && negb x) (map (arr_get u (us_data u st)) l) p =
        p && Nat.eqb (List.length (filter m (map name l))) 0).
      { induction l as [|k r IH]; intros p; cbn [map fold_left filter List.length];
          [now rewrite andb_true_r|].
        rewrite IH, (H k). destruct (arr_get u (us_data u st) k); cbn.
        - now rewrite !andb_false_r.
        - now rewrite andb_true_r. }
      now rewrite G.
    - destruct (Kn x Hq) as (k & -> & E). exists st. split; [|exact H].
      cbn [model_set_step]. rewrite E. cbn. now rewrite (H k).
    - destruct (Kn x Hq) as (k & -> & E).
      exists (MkUnitSet u (arr_set u (us_data u st) k true)). split; [|now apply srel_set].
      cbn [model_set_step]. rewrite E. cbn. now rewrite (H k).
    - destruct (Kn x Hq) as (k & -> & E).
      exists (MkUnitSet u (arr_set u (us_data u st) k false)). split; [|now apply srel_set].
      cbn [model_set_step]. rewrite E. cbn. now rewrite (H k).
    - cbn [model_set_step ss_retain unit_set_storage]. unfold us_retain.
      pose proof (filter_rel u (fun k => k) s (us_data u st) m distinct H) as K.
      destruct (ref_filter U vs s m) as [[s1 m1] a].
      destruct K as (a1 & o & -> & -> & K1 & _). exists (MkUnitSet u a1).
      split; [reflexivity|]. destruct o; exact K1.
    - exists (MkUnitSet u (arr_init u false)). split; [reflexivity|].
      intros k. cbn. now rewrite arr_get_init.
    - exists st. split; [|exact H]. cbn [model_set_step ss_Iter ss_iter unit_set_storage].
      now rewrite Iter.
    - exists st. split; [|exact H]. cbn [model_set_step ss_IntoIter ss_into_iter unit_set_storage].
      now rewrite Iter.
  Qed.

  Lemma set_model_answers l : forall s st m, Forall (set_well_named vs) l ->
    srel (us_data u st) m -> answers step l s st = answers (ref_set vs U false) l s m.
  Proof.
    induction l as [|q r IH]; intros s st m Hl H; [reflexivity|].
    inversion Hl as [|? ? Hq Hr]; subst. cbn [answers].
    pose proof (sstep_rel q s st m Hq H) as K.
    destruct (ref_set vs U false q s m) as [[s1 m1] a].
    destruct K as (st1 & -> & H1). now rewrite (IH s1 st1 m1 Hr H1).
  Qed.

  Lemma set_model_serves l s w : Forall (set_well_named vs) l ->
    answers step l s (ss_empty M w) = answers (ref_set vs U false) l s (fun _ => false).
  Proof.
    intros Hl. apply set_model_answers; auto. intros k. cbn. now rewrite arr_get_init.
  Qed.
End SetModel.

(** * Sets as integers *)
Section BitModel.
  Context {R S V : Type} (u : units R) (name : R -> string) (U : user S V) (w : N).
  Hypothesis distinct : NoDup (map name (variants_of u)).
  Hypothesis fits : (N.of_nat (List.length (variants_of u)) <= w)%N.
  Notation ks := (variants_of u).
  Notation vs := (map name (variants_of u)).
  Notation M := (bit_set_storage u w).
  Notation n := (List.length (variants_of u)).
  Notation step := (model_set_step (V := V) U ks name M n).

  Lemma vs_nth k : nth_error vs (index_of u k) = Some (name k).
  Proof. now apply map_nth_error, index_of_nth. Qed.

  Lemma has_bit m k :
    negb (N.eqb (N.land (pack vs m) (number (index_of u k))) 0) = m (name k).
  Proof. rewrite has_number, pack_bit. now rewrite vs_nth. Qed.

  Lemma enum_in e : In e (enumerate ks) <-> fst e = index_of u (snd e).
  Proof.
    rewrite enumerate_variants, in_map_iff. split.
    - intros (k & <- & _). reflexivity.
    - destruct e as [i k]. cbn. intros ->. exists k. split; [reflexivity|apply variants_all].
  Qed.

  Lemma bit_filter m0 l : (forall e, In e l -> fst e = index_of u (snd e)) ->
    NoDup (map (fun e => name (snd e)) l) -> forall s m,
    (forall e, In e l -> m (name (snd e)) = m0 (name (snd e))) ->
    let '(s1, m1, r) := ref_filter U (map (fun e => name (snd e)) l) s m in
    bit_retain (keep_fn U name) (pack vs m0) l s
      (pack vs (without (map (fun e => name (snd e)) l) m)) =
    match r with
    | AUnit => (s1, pack vs m1, Done)
    | _ => (s1, pack vs m0, Unwound)
    end.
  Proof.
    induction l as [|[i k] r IH]; intros Hl Hn s m Hm.
    { cbn. do 2 f_equal. apply pack_ext. intros y _. unfold without. cbn. apply andb_true_r. }
    cbn [map snd] in *. inversion Hn as [|? ? Hx Hn']; subst.
    pose proof (Hl (i, k) (or_introl eq_refl)) as Ei. cbn in Ei. subst i.
    cbn [bit_retain ref_filter]. rewrite has_bit.
    pose proof (Hm (index_of u k, k) (or_introl eq_refl)) as H0. cbn [snd] in H0. rewrite <- H0.
    assert (Hw : existsb (String.eqb (name k)) (map (fun e => name (snd e)) r) = false).
    { apply not_true_is_false. intros Ht. apply existsb_exists in Ht as (y & Hy & Ey).
      apply String.eqb_eq in Ey. subst. contradiction. }
    assert (Hl' : forall e, In e r -> fst e = index_of u (snd e)) by (intros e He; apply Hl; now right).
    destruct (m (name k)) eqn:E.
    - unfold keep_fn at 1. destruct (keep U s (name k)) as [s1 [b|]]; [|reflexivity].
      assert (Hm' : forall e, In e r -> upd m (name k) b (name (snd e)) = m0 (name (snd e))).
      { intros e He. unfold upd. destruct (String.eqb_spec (name (snd e)) (name k)) as [Q|].
        - exfalso. apply Hx. rewrite <- Q. now apply (in_map (fun e => name (snd e))).
        - apply Hm. now right. }
      specialize (IH Hl' Hn' s1 (upd m (name k) b) Hm').
      assert (Ep : (if b then N.lor (pack vs (without (name k :: map (fun e => name (snd e)) r) m))
                                    (number (index_of u k))
                    else pack vs (without (name k :: map (fun e => name (snd e)) r) m)) =
                   pack vs (without (map (fun e => name (snd e)) r) (upd m (name k) b))).
      { destruct b.
        - rewrite (pack_set _ _ _ (name k) distinct (vs_nth k)). apply pack_ext. intros y Hy.
          unfold upd, without. cbn [existsb].
          destruct (String.eqb_spec y (name k)) as [->|]; [now rewrite Hw|reflexivity].
        - apply pack_ext. intros y Hy. unfold upd, without. cbn [existsb].
          destruct (String.eqb_spec y (name k)) as [->|]; [apply andb_false_r|reflexivity]. }
      destruct b; rewrite Ep; exact IH.
    - assert (Hm' : forall e, In e r -> m (name (snd e)) = m0 (name (snd e)))
        by (intros e He; apply Hm; now right).
      rewrite (pack_ext (without (name k :: map (fun e => name (snd e)) r) m)
                        (without (map (fun e => name (snd e)) r) m)).
      + now apply IH.
      + intros y Hy. unfold without. cbn [existsb].
        destruct (String.eqb_spec y (name k)) as [->|]; [now rewrite E|reflexivity].
  Qed.

  Lemma bstep_rel q s st m : set_well_named vs q -> bt_data st = pack vs m ->
    let '(s1, m1, a) := ref_set vs U true q s m in
    exists st1, step q s st = (s1, st1, a) /\ bt_data st1 = pack vs m1.
  Proof.
    intros Hq H.
    assert (Kn : forall x, In x vs -> exists k, x = name k /\ key_named ks name x = Some k).
    { intros x Hx. apply in_map_iff in Hx as (k & <- & _). exists k. split; [reflexivity|].
      now apply named_key. }
    assert (Iter : map (fun k => (Some (name k), None)) (drain (flatten_it R) n (bt_iter u st)) =
                   map (fun x => (Some x, @None V)) (elements vs m)).
    { unfold bt_iter. rewrite enumerate_variants, map_map.
      rewrite drain_flatten by now rewrite map_length.
      unfold elements. rewrite H. cbn [fst snd].
      assert (G : forall l, map (fun k => (Some (name k), @None V)) (cat_options (map (fun k =>
        if negb (N.eqb (N.land (pack vs m) (number (index_of u k))) 0) then Some k else None) l)) =
        map (fun x => (Some x, None)) (filter m (map name l))); [|apply G].
      induction l as [|k r IH]; [reflexivity|].
      cbn [map cat_options filter]. rewrite has_bit.
      destruct (m (name k)); cbn [map cat_options]; now rewrite IH. }
    destruct q; cbn [set_well_named] in Hq; cbn [ref_set].
    - exists st. split; [|exact H]. cbn. now rewrite H, pack_count.
    - exists st. split; [|exact H]. cbn. now rewrite H, pack_zero.
    - destruct (Kn x Hq) as (k & -> & E). exists st. split; [|exact H].
      cbn [model_set_step]. rewrite E. cbn [ss_contains bit_set_storage].
      unfold bt_contains, bt_to_bits. now rewrite H, has_bit.
    - destruct (Kn x Hq) as (k & -> & E).
      exists (MkBitSet (pack vs (upd m (name k) true))). split; [|reflexivity].
      cbn [model_set_step]. rewrite E. cbn [ss_insert bit_set_storage].
      unfold bt_insert, bt_to_bits, mem_replace.
      now rewrite H, (pack_set _ _ _ _ distinct (vs_nth k)), land_number, pack_bit, vs_nth.
    - destruct (Kn x Hq) as (k & -> & E).
      exists (MkBitSet (pack vs (upd m (name k) false))). split; [|reflexivity].
      cbn [model_set_step]. rewrite E. cbn [ss_remove bit_set_storage].
      unfold bt_remove, bt_to_bits, mem_replace.
      rewrite H, (pack_unset w _ _ _ _ distinct (vs_nth k)) by now rewrite map_length.
      now rewrite has_bit.
    - cbn [model_set_step ss_retain bit_set_storage]. unfold bt_retain. rewrite H.
      pose proof (bit_filter m (enumerate ks)) as K.
      assert (En : map (fun e : nat * R => name (snd e)) (enumerate ks) = vs)
        by (rewrite enumerate_variants, map_map; reflexivity).
      rewrite En in K. specialize (K (fun e => proj1 (enum_in e)) distinct s m (fun _ _ => eq_refl)).
      assert (Ew : pack vs (without vs m) = 0%N).
      { apply pack_none. intros x Hx. unfold without.
        replace (existsb (String.eqb x) vs) with true; [apply andb_false_r|].
        symmetry. apply existsb_exists. exists x. split; auto. apply String.eqb_refl. }
      pose proof (ref_filter_ends U vs s m) as He.
      destruct (ref_filter U vs s m) as [[s1 m1] a]. rewrite Ew in K. rewrite K. cbn [snd] in He.
      destruct He as [->| ->]; eexists; split; reflexivity.
    - exists (MkBitSet 0). split; [reflexivity|]. cbn. symmetry. now apply pack_none.
    - exists st. split; [|exact H]. cbn [model_set_step ss_Iter ss_iter bit_set_storage].
      now rewrite Iter.
    - exists st. split; [|exact H]. cbn [model_set_step ss_IntoIter ss_into_iter bit_set_storage].
      now rewrite Iter.
  Qed.

  Lemma bit_model_answers l : forall s st m, Forall (set_well_named vs) l ->
    bt_data st = pack vs m -> answers step l s st = answers (ref_set vs U true) l s m.
  Proof.
    induction l as [|q r IH]; intros s st m Hl H; [reflexivity|].
    inversion Hl as [|? ? Hq Hr]; subst. cbn [answers].
    pose proof (bstep_rel q s st m Hq H) as K.
    destruct (ref_set vs U true q s m) as [[s1 m1] a].
    destruct K as (st1 & -> & H1). now rewrite (IH s1 st1 m1 Hr H1).
  Qed.

  Lemma bit_model_serves l s wo : Forall (set_well_named vs) l ->
    answers step l s (ss_empty M wo) = answers (ref_set vs U true) l s (fun _ => false).
  Proof.
    intros Hl. apply bit_model_answers; auto. cbn. symmetry. now apply pack_none.
  Qed.
End BitModel.

(** * The whole derive *)
Lemma unit_code_serves {S V} (U : user S V) bitset vs cm cs :
  unit_code bitset vs = Some (cm, cs) -> NoDup vs ->
  (forall l s, Forall (well_named vs) l ->
     serve U (map_step U) cm l s = Some (answers (ref_map vs U) l s (fun _ => None))) /\
  (forall l s, Forall (set_well_named vs) l ->
     serve U (set_step U) cs l s = Some (answers (ref_set vs U bitset) l s (fun _ => false))).
Proof.
  unfold unit_code. destruct bitset.
  - destruct (determine_bits _) as [w|] eqn:E; [|discriminate]. intros H Hd.
    apply determine_bits_le in E. injection H as <- <-. split; intros l s Hl.
    + now apply map_serves.
    + now apply bit_serves.
  - intros H Hd. injection H as <- <-. split; intros l s Hl.
    + now apply map_serves.
    + now apply set_serves.
Qed.

Lemma unit_code_raw {S V} (U : user S V) vs cm cs d m l s :
  unit_code true vs = Some (cm, cs) -> NoDup vs ->
  bits_are vs d m -> Forall (set_well_named vs) l ->
  exists d', serve_raw U cs d l s = Some (answers (ref_set vs U true) l s m, d') /\
    bits_are vs d' (snd (after (ref_set vs U true) l s m)).
Proof.
  unfold unit_code. destruct (determine_bits _) as [w|] eqn:E; [|discriminate].
  intros H Hd. apply determine_bits_le in E. injection H as <- <-. now apply bit_serves_raw.
Qed.

Lemma unit_code_model {R S V} (u : units R) (name : R -> string) (U : user S V) bitset :
  NoDup (map name (variants_of u)) ->
  match unit_code bitset (map name (variants_of u)), derive_unit bitset u with
  | Some (cm, cs), Some impl =>
      (forall l s w, Forall (well_named (map name (variants_of u))) l ->
         serve U (map_step U) cm l s =
         Some (answers (model_step U (variants_of u) name (ki_map impl V)
                          (List.length (variants_of u))) l s (ms_empty (ki_map impl V) w))) /\
      (forall l s w, Forall (set_well_named (map name (variants_of u))) l ->
         serve U (set_step U) cs l s =
         Some (answers (model_set_step U (variants_of u) name (ki_set impl)
                          (List.length (variants_of u))) l s (ss_empty (ki_set impl) w)))
  | None, None => True
  | _, _ => False
  end.
Proof.
  intros Hd. pose proof (unit_code_serves U bitset (map name (variants_of u))) as K.
  unfold unit_code, derive_unit in *. rewrite map_length in *. destruct bitset.
  - destruct (determine_bits _) as [w|] eqn:E; [|exact I]. apply determine_bits_le in E.
    cbn [option_map] in *. destruct (K _ _ eq_refl Hd) as [K1 K2].
    split; intros l s wo Hl; cbn [ki_map ki_set].
    + rewrite K1 by auto. f_equal. symmetry. now apply model_serves.
    + rewrite K2 by auto. f_equal. symmetry. now apply bit_model_serves.
  - destruct (K _ _ eq_refl Hd) as [K1 K2]. split; intros l s wo Hl; cbn [ki_map ki_set].
    + rewrite K1 by auto. f_equal. symmetry. now apply model_serves.
    + rewrite K2 by auto. f_equal. symmetry. now apply set_model_serves.
Qed.

Lemma unit_code_refused bitset vs :
  unit_code bitset vs = None <-> bitset = true /\ 128 < List.length vs.
Proof.
  unfold unit_code. destruct bitset; [|now split; [discriminate|intros [? _]]].
  unfold determine_bits.
  repeat match goal with |- context [N.leb ?a ?b] => destruct (N.leb_spec a b) end;
    cbn [option_map]; split; try discriminate; try (intros [_ ?]; lia); try reflexivity.
  intros _. split; [reflexivity|]. lia.
Qed.
