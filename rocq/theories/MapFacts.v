(** What the laws of a map storage say about the public API. *)
Require Import List Arith NArith ZArith Bool Lia Permutation Sorted.
Import ListNotations.
From Verif Require Import Std Traits Key Api Spec Reach IterLaws IterFacts MapCore MapLaws.

Lemma lists_perm {K V} (f g : fmap K V) l l' :
  (forall k, f k = g k) -> lists f l -> Permutation l l' -> lists g l'.
Proof.
  intros E [H1 H2] P. split.
  - eapply Permutation_NoDup; [apply Permutation_map; exact P|exact H1].
  - intros k v. rewrite <- E, <- H2. split; apply Permutation_in; [symmetry; exact P|exact P].
Qed.

Lemma lists_unique {K V} (f : fmap K V) l l' :
  lists f l -> lists f l' -> Permutation l l'.
Proof.
  intros [N1 H1] [N2 H2]. apply NoDup_Permutation.
  - eapply NoDup_map_inv; eauto.
  - eapply NoDup_map_inv; eauto.
  - intros [k v]. rewrite H1, H2. reflexivity.
Qed.

Lemma in_fst {K V} k (l : list (K * V)) : In k (map fst l) <-> exists v, In (k, v) l.
Proof.
  rewrite in_map_iff. split.
  - intros [[k' v] [<- H]]. eauto.
  - intros [v H]. exists (k, v); auto.
Qed.

Lemma NoDup_map_in_inj {A B} (g : A -> B) l : NoDup (map g l) ->
  forall a b, In a l -> In b l -> g a = g b -> a = b.
Proof.
  induction l as [|x l IH]; simpl; [tauto|]. intros N a b Ha Hb E.
  inversion N as [|? ? Hn N']; subst. destruct Ha as [->|Ha], Hb as [->|Hb]; auto.
  - destruct Hn. rewrite E. apply in_map. auto.
  - destruct Hn. rewrite <- E. apply in_map. auto.
Qed.

Section Facts.
  Context {K V : Type} {sp : KeySpec K} {m : MapStorage K V} (L : MapLaws sp m).
  Notation C := (ml_core L).
  Notation inv := (c_inv C).
  Notation ents st := (c_ents C st).
  Notation look k st := (lookup (ks_eqb sp) k (ents st)).

  (** * Reachable maps satisfy the invariant *)

  Lemma keqb_eq a b : ks_eqb sp a b = true <-> a = b.
  Proof. apply (c_keqb _ _ _ C). Qed.
  Lemma keqb_refl a : ks_eqb sp a a = true.
  Proof. apply keqb_eq. reflexivity. Qed.
  Lemma keqb_neq a b : a <> b -> ks_eqb sp a b = false.
  Proof. intros H. destruct (ks_eqb sp a b) eqn:E; auto. apply keqb_eq in E. contradiction. Qed.

  Lemma insert_inv st k v : inv st -> inv (snd (ms_insert m st k v)).
  Proof.
    intros H. destruct (look k st) as [[old r]|] eqn:E.
    - destruct (c_insert_some _ _ _ C st k v old r H E) as (st' & E1 & E2).
      simpl in E2. rewrite E2. apply (c_store _ _ _ C st r v st' H E1).
    - destruct (c_insert_none _ _ _ C st k v H E) as (st' & E1 & H' & _).
      simpl in E1. rewrite E1. exact H'.
  Qed.

  Lemma remove_inv st k : inv st -> inv (snd (ms_remove m st k)).
  Proof.
    intros H. destruct (c_remove _ _ _ C st k H) as (st' & E & H' & _).
    simpl in E. rewrite E. exact H'.
  Qed.

  Lemma reach_inv :
    (forall st, map_reachable m st -> inv st) /\
    (forall st k o, occ_live m st k o -> inv st /\ exists r, ml_occ_ok L st o k r).
  Proof.
    apply reachable_mut.
    - intros w. apply (ml_empty _ _ L w).
    - intros st k v _ H. apply insert_inv; auto.
    - intros st k _ H. apply remove_inv; auto.
    - intros st _ H. apply (c_clear _ _ _ C st H).
    - intros S f s st _ H.
      destruct (c_retain _ _ _ C S f s st H) as (x' & st' & oc & E & H' & _).
      unfold map_retain. simpl in E. rewrite E. exact H'.
    - intros st r v st' _ H E. unfold assign in E.
      destruct (ms_store m st r v) as [st1|] eqn:Es; [|discriminate].
      injection E as <-. apply (c_store _ _ _ C st r v st1 H Es).
    - intros cl st _ H. apply (c_clone _ _ _ C cl st H).
    - intros st k x v r st' _ H E Ev. pose proof (ml_entry _ _ L st k H) as He.
      unfold map_entry in E.
      destruct (look k st) as [[old r0]|].
      + destruct He as (o & He & _). rewrite E in He. discriminate.
      + destruct He as (x' & He & Hx). rewrite E in He. injection He as <-.
        destruct (ml_vac _ _ L st x k H Hx) as (_ & _ & Hv).
        destruct (Hv v) as (r' & Ev' & _). rewrite Ev in Ev'. injection Ev' as _ ->.
        apply insert_inv; auto.
    - intros st k o _ [H _]. exact H.
    - intros st k o v st' _ [H [r Ho]] E.
      destruct (ml_occ _ _ L st o k r H Ho) as (v0 & _ & _ & _ & _ & _ & _ & Er).
      rewrite E in Er. injection Er as _ ->. apply remove_inv; auto.
    - intros st k o _ H E. split; [exact H|]. pose proof (ml_entry _ _ L st k H) as He.
      unfold map_entry in E. destruct (look k st) as [[old r0]|].
      + destruct He as (o' & He & Ho). rewrite E in He. injection He as <-. eauto.
      + destruct He as (x & He & _). rewrite E in He. discriminate.
    - intros st k o r v st' _ [H [r0 Ho]] E1 E2.
      destruct (ml_occ _ _ L st o k r0 H Ho) as (v0 & _ & _ & _ & Eg & _).
      rewrite E1 in Eg. injection Eg as <-. unfold assign in E2.
      destruct (ms_store m st r v) as [st1|] eqn:Es; [|discriminate]. injection E2 as <-.
      split; [apply (c_store _ _ _ C st r v st1 H Es)|].
      exists r. apply (ml_occ_stable _ _ L st o k r v st1 H Ho Es).
    - intros st k o v old st' _ [H [r Ho]] E.
      destruct (ml_occ _ _ L st o k r H Ho) as (v0 & _ & _ & _ & _ & _ & Ei & _).
      destruct (Ei v) as (st1 & Es & Ei'). rewrite E in Ei'. injection Ei' as _ ->.
      split; [apply (c_store _ _ _ C st r v st1 H Es)|].
      exists r. apply (ml_occ_stable _ _ L st o k r v st1 H Ho Es).
  Qed.

  Lemma r_inv st : map_reachable m st -> inv st.
  Proof. apply reach_inv. Qed.

  (** * Looking up *)

  Lemma get_look st k : inv st -> map_get m st k = option_map fst (look k st).
  Proof. intros H. exact (c_get _ _ _ C st k H). Qed.

  Lemma get_in st k v : inv st ->
    (map_get m st k = Some v <-> In (k, v) (map fst (ents st))).
  Proof.
    intros H. rewrite get_look by auto. split.
    - destruct (look k st) as [[w r]|] eqn:E; simpl; [|discriminate]. intros [= <-].
      apply (lookup_in _ (c_keqb _ _ _ C)) in E. apply in_map_iff. exists (k, w, r). auto.
    - intros Hi. apply in_map_iff in Hi as ([[k' v'] r] & [= <- <-] & Hi).
      rewrite (in_lookup _ (c_keqb _ _ _ C) k' _ v' r); auto.
      apply (c_nodup_k _ _ _ C st H).
  Qed.

  Lemma ents_lists st : inv st -> lists (map_get m st) (map fst (ents st)).
  Proof.
    intros H. split.
    - rewrite map_map. apply (c_nodup_k _ _ _ C st H).
    - intros k v. rewrite get_in by auto. reflexivity.
  Qed.

  Lemma iter_yields st : inv st -> yields (ms_Iter m) (map_iter m st) (map fst (ents st)).
  Proof.
    intros H. destruct (ml_iter _ _ L st H) as [H1 <-]. apply yields_rem; auto.
  Qed.

  Lemma iter_inv st l : inv st -> yields (ms_Iter m) (map_iter m st) l -> l = map fst (ents st).
  Proof. intros H Y. eapply yields_fun; [exact Y|apply iter_yields; auto]. Qed.

  Lemma contains_get st k : inv st ->
    map_contains_key m st k = match map_get m st k with Some _ => true | None => false end.
  Proof.
    intros H. rewrite get_look by auto.
    etransitivity; [exact (c_contains _ _ _ C st k H)|].
    destruct (look k st); reflexivity.
  Qed.

  (** * insert and remove *)

  Lemma store_get st r v st' k : inv st -> ms_store m st r v = Some st' ->
    look k st' = match look k st with
                 | Some (old, r') => Some (if ref_eqb r r' then v else old, r')
                 | None => None
                 end.
  Proof.
    intros H E. destruct (c_store _ _ _ C st r v st' H E) as (_ & _ & ->).
    clear. induction (ents st) as [|[[k' w] r'] l IH]; simpl; auto.
    unfold ekey, evalue, eref; simpl. destruct (ks_eqb sp k k'); auto.
  Qed.

  Lemma look_ref_inj st k k' v v' r : inv st ->
    look k st = Some (v, r) -> look k' st = Some (v', r) -> k = k'.
  Proof.
    intros H E E'. apply (lookup_in _ (c_keqb _ _ _ C)) in E, E'.
    pose proof (NoDup_map_in_inj eref _ (c_nodup_r _ _ _ C st H) _ _ E E' eq_refl). congruence.
  Qed.

  Lemma store_get_self st k r v st' old : inv st -> look k st = Some (old, r) ->
    ms_store m st r v = Some st' ->
    map_get m st' k = Some v /\ forall k', k' <> k -> map_get m st' k' = map_get m st k'.
  Proof.
    intros H E Es. destruct (c_store _ _ _ C st r v st' H Es) as (_ & H' & _).
    split.
    - rewrite get_look, (store_get st r v st' k) by auto. rewrite E. simpl.
      replace (ref_eqb r r) with true; [reflexivity|]. symmetry. apply ref_eqb_eq. reflexivity.
    - intros k' Hk. rewrite !get_look, (store_get st r v st' k') by auto.
      destruct (look k' st) as [[w r']|] eqn:E'; simpl; auto.
      destruct (ref_eqb r r') eqn:Er; auto. apply ref_eqb_eq in Er. subst r'.
      destruct Hk. exact (look_ref_inj st k' k w old r H E' E).
  Qed.

  Lemma insert_facts st k v : inv st ->
    fst (map_insert m st k v) = map_get m st k /\
    map_get m (snd (map_insert m st k v)) k = Some v /\
    forall k', k' <> k -> map_get m (snd (map_insert m st k v)) k' = map_get m st k'.
  Proof.
    intros H. pose proof (insert_inv st k v H) as H'. rewrite (get_look st k) by auto.
    destruct (look k st) as [[old r]|] eqn:E.
    - destruct (c_insert_some _ _ _ C st k v old r H E) as (st' & E1 & E2).
      simpl in E2. unfold map_insert. rewrite E2. simpl. split; auto.
      eapply store_get_self; eauto.
    - destruct (c_insert_none _ _ _ C st k v H E) as (st' & E1 & _ & P).
      simpl in E1. unfold map_insert in *. rewrite E1 in *. simpl in *. split; auto.
      assert (Hin : forall k' w, map_get m st' k' = Some w <-> (k', w) = (k, v) \/ map_get m st k' = Some w).
      { intros k' w. rewrite !get_in by auto. split.
        - intros Hi. apply (Permutation_in _ P) in Hi. destruct Hi as [<-|Hi]; auto.
        - intros Hi. apply (Permutation_in _ (Permutation_sym P)).
          destruct Hi as [->|Hi]; [left; auto|right; auto]. }
      split; [apply Hin; auto|].
      intros k' Hk. destruct (map_get m st k') as [w|] eqn:Eg.
      + apply Hin. auto.
      + destruct (map_get m st' k') as [w|] eqn:Eg'; auto. apply Hin in Eg' as [[= -> ->]|Hw]; [contradiction|].
        congruence.
  Qed.

  Lemma remove_facts st k : inv st ->
    fst (map_remove m st k) = map_get m st k /\
    map_get m (snd (map_remove m st k)) k = None /\
    forall k', k' <> k -> map_get m (snd (map_remove m st k)) k' = map_get m st k'.
  Proof.
    intros H. pose proof (remove_inv st k H) as H'.
    destruct (c_remove _ _ _ C st k H) as (st' & E & _ & P).
    simpl in E. unfold map_remove. rewrite E in *. simpl in *.
    split; [rewrite get_look by auto; reflexivity|].
    assert (Hin : forall k' w, map_get m st' k' = Some w <-> k' <> k /\ map_get m st k' = Some w).
    { intros k' w. rewrite !get_in by auto.
      etransitivity; [rewrite P; reflexivity|]. unfold del. rewrite filter_In. simpl.
      rewrite negb_true_iff. split.
      - intros [Hi Hn]. split; auto. intros ->. rewrite keqb_refl in Hn. discriminate.
      - intros [Hn Hi]. split; auto. apply keqb_neq. congruence. }
    split.
    - destruct (map_get m st' k) as [w|] eqn:Eg; auto. apply Hin in Eg as [Hn _]. congruence.
    - intros k' Hk. destruct (map_get m st k') as [w|] eqn:Eg.
      + apply Hin. auto.
      + destruct (map_get m st' k') as [w|] eqn:Eg'; auto. apply Hin in Eg' as [_ Hw]. congruence.
  Qed.

  (** * Length *)

  Lemma len_facts st : inv st -> map_len m st = length (map fst (ents st)).
  Proof. intros H. rewrite map_length. exact (c_len _ _ _ C st H). Qed.

  Lemma is_empty_facts st : inv st -> (map_is_empty m st = true <-> map_len m st = 0).
  Proof.
    intros H. rewrite len_facts by auto. rewrite map_length.
    replace (map_is_empty m st) with (match ents st with [] => true | _ => false end)
      by (symmetry; exact (c_is_empty _ _ _ C st H)).
    destruct (ents st); simpl; split; intros; auto; discriminate.
  Qed.

  (** * References *)

  Lemma get_mut_look st k : inv st -> map_get_mut m st k = option_map snd (look k st).
  Proof. intros H. exact (c_get_mut _ _ _ C st k H). Qed.

  Lemma look_load st k v r : inv st -> look k st = Some (v, r) -> ms_load m st r = Some v.
  Proof.
    intros H E. etransitivity; [exact (c_load _ _ _ C st r H)|].
    apply (lookup_in _ (c_keqb _ _ _ C)) in E.
    pose proof (c_nodup_r _ _ _ C st H) as N. revert E N. clear.
    induction (ents st) as [|[[k' w] r'] l IH]; simpl; [intros []|].
    unfold eref, evalue; simpl. intros [E|E] N.
    - injection E as -> -> ->. replace (ref_eqb r r) with true; auto.
      symmetry. apply ref_eqb_eq. reflexivity.
    - inversion N as [|? ? Hn N']; subst. destruct (ref_eqb r r') eqn:Er; auto.
      apply ref_eqb_eq in Er. subst r'. destruct Hn. apply in_map_iff. exists (k, v, r). auto.
  Qed.

  Lemma look_store st k v r w : inv st -> look k st = Some (v, r) ->
    exists st', ms_store m st r w = Some st'.
  Proof.
    intros H E. apply (c_store_ok _ _ _ C st r w H).
    apply (lookup_in _ (c_keqb _ _ _ C)) in E. apply in_map_iff. exists (k, v, r). auto.
  Qed.

  Lemma get_mut_facts st k : inv st ->
    (map_get_mut m st k = None <-> map_get m st k = None) /\
    (forall r, map_get_mut m st k = Some r ->
       exists v, map_get m st k = Some v /\ deref m st r = Ok v /\
       forall w, exists st', assign m st r w = Ok st' /\
         map_get m st' k = Some w /\
         (forall k', k' <> k -> map_get m st' k' = map_get m st k') /\
         (forall k', map_get_mut m st' k' = map_get_mut m st k')).
  Proof.
    intros H. rewrite get_mut_look, get_look by auto.
    destruct (look k st) as [[v r]|] eqn:E; simpl.
    - split; [split; discriminate|]. intros r0 [= <-]. exists v. split; auto.
      unfold deref, assign. rewrite (look_load st k v r) by auto. split; auto.
      intros w. destruct (look_store st k v r w H E) as [st' Es]. exists st'.
      rewrite Es. split; auto. destruct (c_store _ _ _ C st r w st' H Es) as (_ & H' & _).
      destruct (store_get_self st k r w st' v H E Es) as [G1 G2].
      split; auto. split; auto.
      intros k'. rewrite !get_mut_look, (store_get st r w st' k') by auto.
      destruct (look k' st) as [[? ?]|]; reflexivity.
    - split; [tauto|]. discriminate.
  Qed.

  Lemma lists_get_ext st st' : inv st -> inv st' ->
    (forall k, map_get m st k = map_get m st' k) -> Permutation (map fst (ents st)) (map fst (ents st')).
  Proof.
    intros H H' E. eapply lists_unique; [apply ents_lists; auto|].
    apply (lists_perm (map_get m st') _ (map fst (ents st'))); auto.
    apply ents_lists; auto.
  Qed.

  (** * Mutable iteration *)

  Notation kr := (fun e : K * V * ref => (ekey e, eref e)).

  Lemma iter_mut_yields st : inv st ->
    yields (ms_IterMut m) (map_iter_mut m st) (map kr (ents st)) /\
    yields (ms_ValuesMut m) (map_values_mut m st) (map eref (ents st)).
  Proof.
    intros H. destruct (ml_iter_mut _ _ L st H) as [H1 <-].
    destruct (ml_values_mut _ _ L st H) as [H2 <-].
    split; apply yields_rem; auto.
  Qed.

  Lemma in_kr_look st k r : inv st -> In (k, r) (map kr (ents st)) ->
    exists v, look k st = Some (v, r).
  Proof.
    intros H Hi. apply in_map_iff in Hi as ([[k' v] r'] & [= <- <-] & Hi). exists v.
    apply (in_lookup _ (c_keqb _ _ _ C)); auto. apply (c_nodup_k _ _ _ C st H).
  Qed.

  Lemma store_kr st r v st' : inv st -> ms_store m st r v = Some st' ->
    map kr (ents st') = map kr (ents st).
  Proof.
    intros H E. destruct (c_store _ _ _ C st r v st' H E) as (_ & _ & ->).
    unfold upd_ref. rewrite map_map. reflexivity.
  Qed.

  Lemma assign_all_facts ws : forall st l, inv st -> l = map kr (ents st) ->
    (forall r v, In (r, v) ws -> In r (map snd l)) ->
    exists st', assign_all m st ws = Ok st' /\ inv st' /\
      (map_reachable m st -> map_reachable m st') /\
      (forall k r v, In (k, r) l -> last_value ws r v -> map_get m st' k = Some v) /\
      (forall k r, In (k, r) l -> ~ In r (map fst ws) -> map_get m st' k = map_get m st k) /\
      (forall k, map_get m st k = None -> map_get m st' k = None).
  Proof.
    induction ws as [|[r v] ws IH]; intros st l H El Hws; simpl.
    - exists st. split; [reflexivity|]. split; [auto|]. split; [auto|]. split; [|auto].
      intros k r v _ (a & b & E & _). destruct a; discriminate.
    - assert (Hr : In r (map snd l)) by (apply (Hws r v); left; auto).
      apply in_map_iff in Hr as ([k0 r0] & E0 & Hk0). simpl in E0. subst r0.
      subst l. destruct (in_kr_look st k0 r H Hk0) as [v0 E0].
      destruct (look_store st k0 v0 r v H E0) as [st1 Es].
      unfold assign at 1. rewrite Es. simpl.
      destruct (c_store _ _ _ C st r v st1 H Es) as (_ & H1 & _).
      destruct (IH st1 (map kr (ents st)) H1) as (st' & Ea & H' & Hreach & P1 & P2 & P3).
      { symmetry. eapply store_kr; eauto. }
      { intros r' v' Hi. apply (Hws r' v'). right; auto. }
      exists st'. split; auto. split; auto.
      destruct (store_get_self st k0 r v st1 v0 H E0 Es) as [G1 G2].
      assert (Hsame : forall k, In (k, r) (map kr (ents st)) -> k = k0).
      { intros k Hk. destruct (in_kr_look st k r H Hk) as [w Ew].
        exact (look_ref_inj st k k0 w v0 r H Ew E0). }
      split; [|split; [|split]].
      + intros Hre. apply Hreach. apply (mr_assign m st r v st1); auto. unfold assign. rewrite Es. auto.
      + intros k r' w Hk (a & b & E & Hb). destruct a as [|p a]; simpl in E.
        * injection E as <- <- <-. rewrite (P2 k r Hk Hb). apply Hsame in Hk. subst k. exact G1.
        * injection E as _ E. apply (P1 k r' w Hk). exists a, b. auto.
      + intros k r' Hk Hn. simpl in Hn.
        rewrite (P2 k r' Hk) by tauto. apply G2. intros ->.
        destruct (in_kr_look st k0 r' H Hk) as [w Ew]. rewrite E0 in Ew. injection Ew as _ ->. tauto.
      + intros k Hk. apply P3. rewrite G2; auto. intros ->.
        rewrite get_look, E0 in Hk by auto. discriminate.
  Qed.

  (** * retain *)

  Lemma retain_facts S (f : retain_fn S K V) s st : inv st ->
    exists s' st' oc, map_retain m f s st = (s', st', oc) /\ inv st' /\
      retain_list f s (map fst (ents st)) = (s', map fst (ents st'), oc).
  Proof. intros H. exact (c_retain _ _ _ C S f s st H). Qed.

  (** * Entries *)

  Lemma entry_facts st k : inv st ->
    match map_get m st k with
    | Some v => exists o r, map_entry m st k = Ok (Occupied o) /\ ml_occ_ok L st o k r /\
                            look k st = Some (v, r)
    | None => exists x, map_entry m st k = Ok (Vacant x) /\ ml_vac_ok L st x k
    end.
  Proof.
    intros H. rewrite get_look by auto. pose proof (ml_entry _ _ L st k H) as He.
    destruct (look k st) as [[v r]|]; simpl.
    - destruct He as (o & E & Ho). exists o, r. auto.
    - exact He.
  Qed.

  Lemma vac_facts st x k : inv st -> ml_vac_ok L st x k ->
    map_get m st k = None /\ ms_vac_key m st x = k /\
    forall v, exists r, ms_vac_insert m st x v = Ok (r, snd (map_insert m st k v)) /\
      map_get_mut m (snd (map_insert m st k v)) k = Some r.
  Proof.
    intros H Hx. destruct (ml_vac _ _ L st x k H Hx) as (E & Ek & Hv).
    rewrite get_look, E by auto. split; [reflexivity|]. split; [exact Ek|]. exact Hv.
  Qed.

  Lemma occ_facts st o k r : inv st -> ml_occ_ok L st o k r ->
    exists v, map_get m st k = Some v /\ map_get_mut m st k = Some r /\
      deref m st r = Ok v /\
      ms_occ_key m st o = Ok k /\ ms_occ_get m st o = Ok v /\
      ms_occ_get_mut m st o = Ok r /\ ms_occ_into_mut m st o = Ok r /\
      ms_occ_remove m st o = Ok (v, snd (map_remove m st k)) /\
      (forall w, exists st', ms_occ_insert m st o w = Ok (v, st') /\ assign m st r w = Ok st' /\
         inv st' /\ ml_occ_ok L st' o k r /\ map_get m st' k = Some w /\
         forall k', k' <> k -> map_get m st' k' = map_get m st k').
  Proof.
    intros H Ho. destruct (ml_occ _ _ L st o k r H Ho) as (v & E & H1 & H2 & H3 & H4 & H5 & H6).
    exists v. rewrite get_look, get_mut_look, E by auto. unfold deref.
    rewrite (look_load st k v r) by auto. repeat (split; [auto; fail|]).
    intros w. destruct (H5 w) as (st' & Es & Ei). exists st'. unfold assign. rewrite Es.
    split; auto. split; auto. split; [apply (c_store _ _ _ C st r w st' H Es)|].
    split; [apply (ml_occ_stable _ _ L st o k r w st' H Ho Es)|].
    exact (store_get_self st k r w st' v H E Es).
  Qed.

  Lemma live_facts st k o : occ_live m st k o -> inv st /\ exists r, ml_occ_ok L st o k r.
  Proof. apply reach_inv. Qed.

  (** * clone, eq, clear, empty *)

  Lemma clone_facts cl st : inv st ->
    map fst (ents (map_clone m cl st)) = map (fun e => (fst e, cl (snd e))) (map fst (ents st)) /\
    forall k, map_get m (map_clone m cl st) k = option_map cl (map_get m st k).
  Proof.
    intros H. destruct (c_clone _ _ _ C cl st H) as [H' E]. simpl in E.
    assert (E1 : map fst (ents (map_clone m cl st)) =
                 map (fun e => (fst e, cl (snd e))) (map fst (ents st))).
    { unfold map_clone. rewrite E, !map_map. apply map_ext. intros [[k v] r]. reflexivity. }
    split; auto. intros k.
    rewrite !get_look by auto. unfold map_clone. rewrite E.
    clear. induction (ents st) as [|[[k' v] r] l IH]; simpl; auto.
    unfold ent_clone, ekey, evalue, eref; simpl. destruct (ks_eqb sp k k'); auto.
  Qed.

  Lemma eq_facts veq a b : inv a -> inv b ->
    (map_eq m veq a b = true <->
     forall k, same_option veq (map_get m a k) (map_get m b k)).
  Proof.
    intros Ha Hb. etransitivity; [exact (c_eq _ _ _ C veq a b Ha Hb)|].
    split; intros E k; specialize (E k); unfold map_get, same_option in *; simpl in *;
      destruct (ms_get m a k), (ms_get m b k); simpl in *; auto; try discriminate; contradiction.
  Qed.

  Lemma nil_get st : inv st -> ents st = [] -> forall k, map_get m st k = None.
  Proof. intros H E k. rewrite get_look, E by auto. reflexivity. Qed.

  Lemma clear_facts st : inv st -> inv (map_clear m st) /\ ents (map_clear m st) = [].
  Proof. exact (c_clear _ _ _ C st). Qed.
  Lemma new_facts w : inv (map_new m w) /\ ents (map_new m w) = [].
  Proof. exact (ml_empty _ _ L w). Qed.
End Facts.
