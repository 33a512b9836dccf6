(** Proofs of the map properties. *)
Require Import List Arith NArith ZArith Bool Lia Permutation Sorted.
Import ListNotations.
From Verif Require Import Std Traits Key Api Spec Reach History IterLaws IterFacts MapCore
  MapLaws KeyLaws MapFacts HistProofs.

(** * Lists *)

Lemma retain_unwound {S K V} (f : retain_fn S K V) l : forall s s' l',
  retain_list f s l = (s', l', Unwound) ->
  exists pre k v post s1 pre' v' here, l = pre ++ (k, v) :: post /\
    retain_list f s pre = (s1, pre', Done) /\
    (f s1 k v = (s', v', Unwind) /\ here = [(k, v')] \/
     f s1 k v = (s', v', DiscardUnwind) /\ here = []) /\
    l' = pre' ++ here ++ post.
Proof.
  induction l as [|[k v] l IH]; intros s s' l'; simpl; [discriminate|].
  destruct (f s k v) as [[s1 v1] []] eqn:Ef.
  - destruct (retain_list f s1 l) as [[s2 r2] o] eqn:E. intros [= <- <- ->].
    destruct (IH _ _ _ E) as (pre & k' & v' & post & s3 & pre' & w & h & -> & E1 & E2 & ->).
    exists ((k, v) :: pre), k', v', post, s3, ((k, v1) :: pre'), w, h. simpl.
    rewrite Ef, E1. auto.
  - intros E. destruct (IH _ _ _ E) as (pre & k' & v' & post & s3 & pre' & w & h & -> & E1 & E2 & ->).
    exists ((k, v) :: pre), k', v', post, s3, pre', w, h. simpl. rewrite Ef, E1. auto.
  - intros [= <- <-]. exists [], k, v, l, s, [], v1, [(k, v1)]. auto 6.
  - intros [= <- <-]. exists [], k, v, l, s, [], v1, []. auto 6.
Qed.

Lemma retain_conserve {S K V} (f : retain_fn S K V) l : forall s s' l' o,
  retain_list f s l = (s', l', o) ->
  Permutation (map snd l' ++ rejected f s l) (left_behind f s l).
Proof.
  induction l as [|[k v] l IH]; intros s s' l' o; simpl.
  - intros [= _ <- _]. constructor.
  - destruct (f s k v) as [[s1 v1] []] eqn:Ef.
    + destruct (retain_list f s1 l) as [[s2 r2] o2] eqn:E. intros [= _ <- _]. simpl.
      constructor. eauto.
    + intros E. apply IH in E. symmetry. etransitivity; [apply perm_skip; symmetry; exact E|].
      apply Permutation_middle.
    + intros [= _ <- _]. simpl. rewrite app_nil_r. reflexivity.
    + intros [= _ <- _]. symmetry. apply Permutation_cons_append.
Qed.

Lemma left_behind_same {S K V} (f : retain_fn S K V) l : forall s,
  (forall s k v, snd (fst (f s k v)) = v) -> left_behind f s l = map snd l.
Proof.
  induction l as [|[k v] l IH]; intros s H; simpl; auto.
  pose proof (H s k v) as E. destruct (f s k v) as [[s1 v1] []]; simpl in *; subst; auto;
    rewrite IH; auto.
Qed.

(** Two sorted listings of the same items agree when the order is total. *)
Lemma sorted_unique {A} (before : A -> A -> Prop) l : forall l',
  (forall a b, In a l -> In b l -> a = b \/ before a b \/ before b a) ->
  sorted_by before l -> sorted_by before l' -> Permutation l l' -> l = l'.
Proof.
  induction l as [|x l IH]; intros l' T S S' P.
  - apply Permutation_nil in P. auto.
  - destruct l' as [|y l']; [symmetry in P; apply Permutation_nil in P; discriminate|].
    destruct S as [Sx S]. destruct S' as [Sy S'].
    assert (E : x = y).
    { assert (Hy : In y (x :: l)) by (apply (Permutation_in _ (Permutation_sym P)); left; auto).
      assert (Hx : In x (y :: l')) by (apply (Permutation_in _ P); left; auto).
      destruct Hy as [E|Hy]; auto. destruct Hx as [E|Hx]; auto.
      destruct (T x y) as [E|[B|B]]; simpl; auto.
      - exfalso. eapply Sy; eauto.
      - exfalso. eapply Sx; eauto. }
    subst y. f_equal. apply IH; auto.
    + intros a b Ha Hb. apply T; simpl; auto.
    + eapply Permutation_cons_inv; eauto.
Qed.

Lemma key_before_total :
  (forall t, hash_free t = true -> forall a b, a = b \/ key_before t a b \/ key_before t b a) /\
  (forall vs, hash_free_variants vs = true ->
     forall a b, a = b \/ keys_before vs a b \/ keys_before vs b a).
Proof.
  apply kty_mut.
  - intros _ [] []; simpl; auto.
  - intros _ [] []; auto.
  - discriminate.
  - intros t IH H [a|] [b|]; simpl; auto. destruct (IH H a b) as [->|[B|B]]; auto.
  - intros bs vs IH H. apply IH, H.
  - intros _ [].
  - intros r IH H [[]|a] [[]|b]; simpl; auto. destruct (IH H a b) as [->|[B|B]]; auto.
  - intros t IHt r IHr H. simpl in H. apply andb_true_iff in H as [H1 H2].
    intros [a|a] [b|b]; simpl; auto.
    + destruct (IHt H1 a b) as [->|[B|B]]; auto.
    + destruct (IHr H2 a b) as [->|[B|B]]; auto.
Qed.

Lemma sorted_by_fst {K V} (before : K -> K -> Prop) (l : list (K * V)) :
  sorted_by before (map fst l) <-> sorted_by (fun a b => before (fst a) (fst b)) l.
Proof.
  induction l as [|x l IH]; simpl; [tauto|]. rewrite IH. split; intros [H1 H2]; split; auto.
  - intros y Hy. apply H1, in_map, Hy.
  - intros y Hy. apply in_map_iff in Hy as (z & <- & Hz). auto.
Qed.

Lemma same_option_refl {V} (veq : V -> V -> bool) o :
  (forall v, veq v v = true) -> same_option veq o o.
Proof. destruct o; simpl; auto. Qed.

Section Proofs.
  Context {K V : Type} {sp : KeySpec K} {m : MapStorage K V} (L : MapLaws sp m).
  Notation C := (ml_core L).
  Notation inv := (c_inv C).
  Notation ents st := (c_ents C st).
  Notation kr := (fun e : K * V * ref => (ekey e, eref e)).
  Notation reach := (map_reachable m).

  Lemma c04 st : reach st ->
    (forall k, map_contains_key m st k = true <-> exists v, map_get m st k = Some v) /\
    exists l, yields (ms_Iter m) (map_iter m st) l /\
              forall k v, In (k, v) l <-> map_get m st k = Some v.
  Proof.
    intros R. pose proof (r_inv L st R) as H. split.
    - intros k. rewrite (contains_get L) by auto. destruct (map_get m st k) as [v|].
      + split; eauto.
      + split; [discriminate|]. intros [v [=]].
    - exists (map fst (ents st)). split; [apply iter_yields; auto|].
      apply (ents_lists L st H).
  Qed.

  Lemma c05 st : reach st ->
    exists l, yields (ms_Iter m) (map_iter m st) l /\ lists (map_get m st) l /\
      map_len m st = length l /\ (map_is_empty m st = true <-> map_len m st = 0).
  Proof.
    intros R. pose proof (r_inv L st R) as H. exists (map fst (ents st)).
    split; [apply iter_yields; auto|]. split; [apply ents_lists; auto|].
    split; [apply len_facts; auto|apply (is_empty_facts L); auto].
  Qed.

  Lemma c06 st : reach st ->
    exists l, yields (ms_Iter m) (map_iter m st) l /\ lists (map_get m st) l /\
              sorted_by (ks_before sp) (map fst l).
  Proof.
    intros R. pose proof (r_inv L st R) as H. exists (map fst (ents st)).
    split; [apply iter_yields; auto|]. split; [apply ents_lists; auto|].
    apply strongly_sorted_by. rewrite map_map. apply (c_sorted _ _ _ C st H).
  Qed.

  Lemma c06_unique a b : (forall x y, x = y \/ ks_before sp x y \/ ks_before sp y x) ->
    reach a -> reach b -> (forall k, map_get m a k = map_get m b k) ->
    forall la lb, yields (ms_Iter m) (map_iter m a) la -> yields (ms_Iter m) (map_iter m b) lb ->
    la = lb.
  Proof.
    intros T Ra Rb E la lb Ya Yb. pose proof (r_inv L a Ra) as Ha. pose proof (r_inv L b Rb) as Hb.
    destruct (c06 a Ra) as (la' & Ya' & La & Sa). destruct (c06 b Rb) as (lb' & Yb' & Lb & Sb).
    rewrite (yields_fun _ _ _ _ Ya Ya'), (yields_fun _ _ _ _ Yb Yb').
    apply (sorted_unique (fun x y => ks_before sp (fst x) (fst y))).
    - intros [k v] [k' v'] Hx Hy. simpl. destruct (T k k') as [<-|[B|B]]; auto.
      apply La in Hx, Hy. left. congruence.
    - apply sorted_by_fst; auto.
    - apply sorted_by_fst; auto.
    - eapply lists_unique; [exact La|]. apply (lists_perm (map_get m b) _ lb'); auto.
  Qed.

  Lemma c07 st : reach st ->
    exists ks l, yields (ms_Keys m) (map_keys m st) ks /\ yields (ms_Iter m) (map_iter m st) l /\
      NoDup ks /\ sorted_by (ks_before sp) ks /\
      (forall k, In k ks <-> map_contains_key m st k = true \/ ks_leaf sp k = LUnit) /\
      filter (map_contains_key m st) ks = map fst l.
  Proof.
    intros R. pose proof (r_inv L st R) as H.
    destruct (ml_keys _ _ L st H) as (H1 & H2 & H3 & H4 & H5).
    exists (il_rem (ml_Keys L) (ms_keys m st)), (map fst (ents st)).
    split; [apply yields_rem; auto|]. split; [apply iter_yields; auto|].
    split; auto. split; [apply strongly_sorted_by; auto|]. split.
    - intros k. rewrite H4. apply or_iff_compat_r. rewrite (contains_get L) by auto.
      destruct (ents_lists L st H) as [_ E]. rewrite in_map_iff. split.
      + intros ([[k' v] r] & <- & Hi).
        change (ekey (k', v, r)) with k'. rewrite (proj1 (E k' v)); auto. apply in_map_iff. exists (k', v, r). auto.
      + destruct (map_get m st k) as [v|] eqn:G; [|discriminate]. intros _. apply E in G.
        apply in_map_iff in G as ([[k' v'] r] & [= <- <-] & Hi). exists (k', v', r). auto.
    - rewrite map_map. exact H5.
  Qed.

  Lemma c07_free st : (forall k, ks_leaf sp k <> LUnit) -> reach st ->
    exists l, yields (ms_Iter m) (map_iter m st) l /\
              yields (ms_Keys m) (map_keys m st) (map fst l).
  Proof.
    intros F R. destruct (c07 st R) as (ks & l & Y1 & Y2 & _ & _ & Hin & Hf).
    exists l. split; auto. rewrite <- Hf.
    replace (filter (map_contains_key m st) ks) with ks; auto.
    assert (G : forall l, (forall k, In k l -> map_contains_key m st k = true) ->
                l = filter (map_contains_key m st) l).
    { induction l0 as [|x l0 IH]; intros Hx; simpl; auto. rewrite Hx by (left; auto).
      f_equal. apply IH. intros k Hk. apply Hx. right; auto. }
    apply G. intros k Hk. apply Hin in Hk as [Hk|Hk]; auto. destruct (F k Hk).
  Qed.

  Lemma c08 st : reach st ->
    exists l, yields (ms_Iter m) (map_iter m st) l /\
              yields (ms_Values m) (map_values m st) (map snd l) /\
              yields (ms_IntoIter m) (map_into_iter m st) l.
  Proof.
    intros R. pose proof (r_inv L st R) as H. exists (map fst (ents st)).
    split; [apply iter_yields; auto|].
    destruct (ml_values _ _ L st H) as [H1 E1]. destruct (ml_into_iter _ _ L st H) as [H2 E2].
    split.
    - rewrite map_map. pose proof (yields_rem _ _ _ H1) as Y. rewrite E1 in Y. exact Y.
    - rewrite <- E2. apply yields_rem; auto.
  Qed.

  Lemma c09 st : reach st ->
    (exists l, behaves_as_deque (ms_Iter m) (map_iter m st) l) /\
    (exists l, behaves_as_deque (ms_Keys m) (map_keys m st) l) /\
    (exists l, behaves_as_deque (ms_Values m) (map_values m st) l) /\
    (exists l, behaves_as_deque (ms_IterMut m) (map_iter_mut m st) l) /\
    (exists l, behaves_as_deque (ms_ValuesMut m) (map_values_mut m st) l) /\
    (exists l, behaves_as_deque (ms_IntoIter m) (map_into_iter m st) l).
  Proof.
    intros R. pose proof (r_inv L st R) as H.
    repeat split; eexists; apply behaves_rem.
    - apply (ml_iter _ _ L st H).
    - apply (ml_keys _ _ L st H).
    - apply (ml_values _ _ L st H).
    - apply (ml_iter_mut _ _ L st H).
    - apply (ml_values_mut _ _ L st H).
    - apply (ml_into_iter _ _ L st H).
  Qed.

  Lemma c47 st : reach st -> exists l lk,
    clones_continue (ms_Iter m) (map_iter m st) l /\
    clones_continue (ms_Keys m) (map_keys m st) lk /\
    clones_continue (ms_Values m) (map_values m st) (map snd l) /\
    clones_continue (ms_IntoIter m) (map_into_iter m st) l.
  Proof.
    intros R. pose proof (r_inv L st R) as H.
    exists (map fst (ents st)), (il_rem (ml_Keys L) (map_keys m st)).
    destruct (ml_iter _ _ L st H) as [H0 E0]. destruct (ml_values _ _ L st H) as [H1 E1].
    destruct (ml_into_iter _ _ L st H) as [H2 E2].
    split; [rewrite <- E0; apply clones_rem; auto|]. split; [apply clones_rem; apply (ml_keys _ _ L st H)|].
    split.
    - rewrite map_map. pose proof (clones_rem _ _ _ H1) as Y. rewrite E1 in Y. exact Y.
    - rewrite <- E2. apply clones_rem; auto.
  Qed.

  Lemma c37 st : reach st ->
    hints_bracket (ms_Iter m) (map_iter m st) /\
    hints_bracket (ms_Keys m) (map_keys m st) /\
    hints_bracket (ms_Values m) (map_values m st) /\
    hints_bracket (ms_IterMut m) (map_iter_mut m st) /\
    hints_bracket (ms_ValuesMut m) (map_values_mut m st) /\
    hints_bracket (ms_IntoIter m) (map_into_iter m st).
  Proof.
    intros R. pose proof (r_inv L st R) as H. repeat split.
    - apply (hints_rem _ (ml_Iter L)). apply (ml_iter _ _ L st H).
    - apply (hints_rem _ (ml_Keys L)). apply (ml_keys _ _ L st H).
    - apply (hints_rem _ (ml_Values L)). apply (ml_values _ _ L st H).
    - apply (hints_rem _ (ml_IterMut L)). apply (ml_iter_mut _ _ L st H).
    - apply (hints_rem _ (ml_ValuesMut L)). apply (ml_values_mut _ _ L st H).
    - apply (hints_rem _ (ml_IntoIter L)). apply (ml_into_iter _ _ L st H).
  Qed.

  Lemma c10 st : reach st ->
    exists l li, yields (ms_IterMut m) (map_iter_mut m st) l /\
      yields (ms_ValuesMut m) (map_values_mut m st) (map snd l) /\
      yields (ms_Iter m) (map_iter m st) li /\ map fst l = map fst li /\
      NoDup (map snd l) /\
      (forall k r, In (k, r) l -> exists v, map_get m st k = Some v /\ deref m st r = Ok v) /\
      (forall ws, (forall r v, In (r, v) ws -> In r (map snd l)) ->
         exists st', assign_all m st ws = Ok st' /\ reach st' /\
           (forall k r v, In (k, r) l -> last_value ws r v -> map_get m st' k = Some v) /\
           (forall k r, In (k, r) l -> ~ In r (map fst ws) -> map_get m st' k = map_get m st k) /\
           (forall k, map_get m st k = None -> map_get m st' k = None)).
  Proof.
    intros R. pose proof (r_inv L st R) as H. exists (map kr (ents st)), (map fst (ents st)).
    destruct (iter_mut_yields L st H) as [Y1 Y2]. rewrite !map_map. simpl.
    split; auto. split; auto. split; [apply iter_yields; auto|]. split; auto.
    split; [apply (c_nodup_r _ _ _ C st H)|]. split.
    - intros k r Hi. destruct (in_kr_look L st k r H Hi) as [v E]. exists v.
      rewrite (get_look L), E by auto. split; auto. unfold deref.
      rewrite (look_load L st k v r H E). reflexivity.
    - intros ws Hws. destruct (assign_all_facts L ws st (map kr (ents st)) H eq_refl) as
        (st' & E & _ & Hr & P1 & P2 & P3).
      { intros r v Hi. rewrite map_map. exact (Hws r v Hi). }
      exists st'. auto.
  Qed.

  Lemma c11 st k : reach st ->
    ((exists r, map_get_mut m st k = Some r) <-> map_contains_key m st k = true) /\
    forall r, map_get_mut m st k = Some r ->
      (exists v, map_get m st k = Some v /\ deref m st r = Ok v) /\
      forall w, exists st', assign m st r w = Ok st' /\ map_get m st' k = Some w /\
        (forall k', k' <> k -> map_get m st' k' = map_get m st k') /\
        (forall k', map_contains_key m st' k' = map_contains_key m st k').
  Proof.
    intros R. pose proof (r_inv L st R) as H. destruct (get_mut_facts L st k H) as [F0 F]. split.
    - rewrite (contains_get L) by auto. destruct (map_get_mut m st k) as [r|].
      + destruct (F r eq_refl) as (v & -> & _). split; eauto.
      + rewrite (proj1 F0 eq_refl). split; [intros [r [=]]|discriminate].
    - intros r Er. destruct (F r Er) as (v & G & D & W). split; [eauto|].
      intros w. destruct (W w) as (st' & A & G1 & G2 & _). exists st'.
      split; auto. split; auto. split; auto. intros k'.
      pose proof (assign_inv L st r w st' H A) as H'. rewrite !(contains_get L) by auto.
      destruct (map_get m st k') as [v'|] eqn:G'.
      + destruct (ks_eqb sp k' k) eqn:Ek.
        * apply (keqb_eq L) in Ek. subst. rewrite G1. reflexivity.
        * rewrite G2, G'; auto. intros ->. rewrite (keqb_refl L) in Ek. discriminate.
      + rewrite G2, G'; auto. intros ->. congruence.
  Qed.

  Lemma c12 S (f : retain_fn S K V) s st : reach st ->
    exists l s' l' o st', yields (ms_Iter m) (map_iter m st) l /\
      retain_list f s l = (s', l', o) /\ map_retain m f s st = (s', st', o) /\
      yields (ms_Iter m) (map_iter m st') l' /\ lists (map_get m st') l'.
  Proof.
    intros R. pose proof (r_inv L st R) as H.
    destruct (retain_facts L S f s st H) as (s' & st' & o & E & H' & El).
    exists (map fst (ents st)), s', (map fst (ents st')), o, st'.
    split; [apply iter_yields; auto|]. split; auto. split; auto.
    split; [apply iter_yields; auto|apply ents_lists; auto].
  Qed.

  Lemma c13 S (f : retain_fn S K V) s st s' st' : reach st ->
    map_retain m f s st = (s', st', Unwound) ->
    exists pre k v post s1 pre' v' here,
      yields (ms_Iter m) (map_iter m st) (pre ++ (k, v) :: post) /\
      retain_list f s pre = (s1, pre', Done) /\
      (f s1 k v = (s', v', Unwind) /\ here = [(k, v')] \/
       f s1 k v = (s', v', DiscardUnwind) /\ here = []) /\
      yields (ms_Iter m) (map_iter m st') (pre' ++ here ++ post) /\
      lists (map_get m st') (pre' ++ here ++ post) /\ reach st'.
  Proof.
    intros R E. destruct (c12 S f s st R) as (l & s2 & l' & o & st2 & Y & El & E2 & Y' & Hl).
    rewrite E in E2. injection E2 as <- <- <-.
    destruct (retain_unwound f l s s' l' El)
      as (pre & k & v & post & s1 & pre' & v' & h & -> & E1 & Ef & ->).
    exists pre, k, v, post, s1, pre', v', h. repeat (split; [auto; fail|]).
    pose proof (mr_retain m S f s st R) as R'. rewrite E in R'. exact R'.
  Qed.

  Lemma empty_facts st : inv st -> ents st = [] ->
    (forall k, map_get m st k = None) /\ (forall k, map_contains_key m st k = false) /\
    map_len m st = 0 /\ map_is_empty m st = true /\ yields (ms_Iter m) (map_iter m st) [].
  Proof.
    intros H E. assert (G : forall k, map_get m st k = None) by (apply (nil_get L); auto).
    split; auto. split. { intros k. rewrite (contains_get L), G by auto. reflexivity. }
    assert (Hl : map_len m st = 0) by (rewrite (len_facts L), E by auto; reflexivity).
    split; auto. split. { apply (is_empty_facts L); auto. }
    pose proof (iter_yields L st H) as Y. rewrite E in Y. exact Y.
  Qed.

  Lemma c14 st : (exists w, st = map_new m w) \/ (exists w, st = map_default m w) \/
      (exists st0, reach st0 /\ st = map_clear m st0) ->
    (forall k, map_get m st k = None) /\ (forall k, map_contains_key m st k = false) /\
    map_len m st = 0 /\ map_is_empty m st = true /\ yields (ms_Iter m) (map_iter m st) [].
  Proof.
    intros [[w ->]|[[w ->]|(st0 & R & ->)]]; apply empty_facts.
    - apply (new_facts L). - apply (new_facts L).
    - apply (new_facts L). - apply (new_facts L).
    - apply (clear_facts L), (r_inv L), R.
    - apply (clear_facts L), (r_inv L), R.
  Qed.

  Lemma c15 st k : reach st ->
    (map_contains_key m st k = true ->
       exists o, map_entry m st k = Ok (Occupied o) /\ ms_occ_key m st o = Ok k /\
                 entry_key m st (Occupied o) = Ok k) /\
    (map_contains_key m st k = false ->
       exists x, map_entry m st k = Ok (Vacant x) /\ ms_vac_key m st x = k /\
                 entry_key m st (Vacant x) = Ok k).
  Proof.
    intros R. pose proof (r_inv L st R) as H. pose proof (entry_facts L st k H) as F.
    rewrite (contains_get L) by auto. destruct (map_get m st k) as [v|].
    - split; [|discriminate]. intros _. destruct F as (o & r & E & Ho & _).
      destruct (occ_facts L st o k r H Ho) as (v' & _ & _ & _ & Ek & _). exists o. auto.
    - split; [discriminate|]. intros _. destruct F as (x & E & Hx).
      destruct (vac_facts L st x k H Hx) as (_ & Ek & _). exists x. simpl. rewrite Ek. auto.
  Qed.

  Notation or_inserts := (or_inserts m).

  Lemma or_insert_ok st k : inv st -> reach st ->
    exists e, map_entry m st k = Ok e /\
      match e with
      | Occupied o => map_get m st k <> None /\
          exists r, ms_occ_into_mut m st o = Ok r /\ forall d, or_inserts st k d r st
      | Vacant x => map_get m st k = None /\ ms_vac_key m st x = k /\ forall d, exists r st',
          ms_vac_insert m st x d = Ok (r, st') /\ or_inserts st k d r st' /\ reach st'
      end.
  Proof.
    intros H R. pose proof (entry_facts L st k H) as F. unfold or_inserts.
    destruct (map_get m st k) as [v|] eqn:G.
    - destruct F as (o & r & E & Ho & _). exists (Occupied o). split; auto.
      split; [discriminate|].
      destruct (occ_facts L st o k r H Ho) as (v' & G' & Gm & D & _ & _ & _ & Em & _).
      rewrite G in G'. injection G' as <-. exists r. split; auto.
    - destruct F as (x & E & Hx). exists (Vacant x). split; auto. split; auto.
      destruct (vac_facts L st x k H Hx) as (_ & Ek & Hv). split; auto. intros d.
      destruct (Hv d) as (r & Ei & Er). exists r, (snd (map_insert m st k d)). split; auto.
      destruct (insert_facts L st k d H) as (_ & I2 & I3).
      destruct (get_mut_facts L _ k (insert_inv L st k d H)) as [_ F].
      destruct (F r Er) as (v & G' & D & _). unfold map_insert in *.
      rewrite I2 in G'. injection G' as <-.
      split; [|exact (mr_insert m st k d R)]. auto.
  Qed.

  Lemma c16_or_insert st k d : reach st ->
    exists e r st', map_entry m st k = Ok e /\ entry_or_insert m st e d = Ok (r, st') /\
      or_inserts st k d r st' /\ reach st'.
  Proof.
    intros R. destruct (or_insert_ok st k (r_inv L st R) R) as (e & E & F).
    destruct e as [o|x]; simpl.
    - destruct F as (_ & r & Em & F). exists (Occupied o), r, st. simpl. unfold occ_into_mut.
      rewrite Em. auto.
    - destruct F as (_ & _ & F). destruct (F d) as (r & st' & Ei & O & R').
      exists (Vacant x), r, st'. auto.
  Qed.

  Lemma c16_or_insert_with S st k (f : S -> S * option V) s : reach st ->
    exists e r st', map_entry m st k = Ok e /\
      entry_or_insert_with m st e f s =
        Ok (match map_get m st k with Some _ => s | None => fst (f s) end, r, st') /\ reach st' /\
      match map_get m st k, snd (f s) with
      | None, None => r = None /\ st' = st
      | None, Some d => exists r', r = Some r' /\ or_inserts st k d r' st'
      | Some v, _ => exists r', r = Some r' /\ or_inserts st k v r' st' /\ st' = st
      end.
  Proof.
    intros R. destruct (or_insert_ok st k (r_inv L st R) R) as (e & E & F).
    destruct e as [o|x].
    - destruct F as (G & r & Em & F). exists (Occupied o), (Some r), st. simpl. unfold occ_into_mut.
      rewrite Em. simpl. destruct (map_get m st k) eqn:G'; [|congruence]. eauto 10.
    - destruct F as (G & _ & F). rewrite G. simpl. destruct (f s) as [s' [d|]] eqn:Ef; simpl.
      + destruct (F d) as (r & st' & Ei & O & R').
        exists (Vacant x), (Some r), st'. simpl. rewrite Ef, Ei. eauto 10.
      + exists (Vacant x), None, st. simpl. rewrite Ef. auto.
  Qed.

  Lemma c16_or_insert_with_key S st k (f : S -> K -> S * option V) s : reach st ->
    exists e r st', map_entry m st k = Ok e /\
      entry_or_insert_with_key m st e f s =
        Ok (match map_get m st k with Some _ => s | None => fst (f s k) end, r, st') /\ reach st' /\
      match map_get m st k, snd (f s k) with
      | None, None => r = None /\ st' = st
      | None, Some d => exists r', r = Some r' /\ or_inserts st k d r' st'
      | Some v, _ => exists r', r = Some r' /\ or_inserts st k v r' st' /\ st' = st
      end.
  Proof.
    intros R. destruct (or_insert_ok st k (r_inv L st R) R) as (e & E & F).
    destruct e as [o|x].
    - destruct F as (G & r & Em & F). exists (Occupied o), (Some r), st. simpl. unfold occ_into_mut.
      rewrite Em. simpl. destruct (map_get m st k) eqn:G'; [|congruence]. eauto 10.
    - destruct F as (G & Ek & F). rewrite G. simpl. destruct (f s k) as [s' [d|]] eqn:Ef; simpl.
      + destruct (F d) as (r & st' & Ei & O & R').
        exists (Vacant x), (Some r), st'. simpl. rewrite Ek, Ef, Ei. eauto 10.
      + exists (Vacant x), None, st. simpl. rewrite Ek, Ef. auto.
  Qed.

  Lemma c16_or_default st k d : reach st ->
    exists e r st', map_entry m st k = Ok e /\ entry_or_default m st e d = Ok (r, st') /\ reach st' /\
      match map_get m st k, d with
      | None, None => r = None /\ st' = st
      | None, Some d => exists r', r = Some r' /\ or_inserts st k d r' st'
      | Some v, _ => exists r', r = Some r' /\ or_inserts st k v r' st' /\ st' = st
      end.
  Proof.
    intros R. destruct (or_insert_ok st k (r_inv L st R) R) as (e & E & F).
    destruct e as [o|x].
    - destruct F as (G & r & Em & F). exists (Occupied o), (Some r), st. simpl. unfold occ_into_mut.
      rewrite Em. simpl. destruct (map_get m st k) eqn:G'; [|congruence]. eauto 10.
    - destruct F as (G & _ & F). rewrite G. simpl. destruct d as [d|]; simpl.
      + destruct (F d) as (r & st' & Ei & O & R').
        exists (Vacant x), (Some r), st'. simpl. rewrite Ei. eauto 10.
      + exists (Vacant x), None, st. auto.
  Qed.

  Lemma c16_and_modify S st k (f : S -> V -> S * V * outcome) s : reach st ->
    exists e s' e' st', map_entry m st k = Ok e /\
      entry_and_modify m st e f s = Ok (s', e', st') /\ reach st' /\
      match map_get m st k with
      | None => s' = s /\ st' = st /\ e' = Some e
      | Some v =>
          let '(s1, v1, oc) := f s v in
          s' = s1 /\ map_get m st' k = Some v1 /\
          (forall k', k' <> k -> map_get m st' k' = map_get m st k') /\
          match oc with
          | Done => exists o, e = Occupied o /\ e' = Some e /\ occ_live m st' k o
          | Unwound => e' = None
          end
      end.
  Proof.
    intros R. pose proof (r_inv L st R) as H. pose proof (entry_facts L st k H) as F.
    destruct (map_get m st k) as [v|] eqn:G.
    - destruct F as (o & r & E & Ho & _).
      destruct (occ_facts L st o k r H Ho) as (v' & G' & Gm & D & _ & _ & Egm & Em & _ & W).
      rewrite G in G'. injection G' as <-.
      destruct (f s v) as [[s1 v1] oc] eqn:Ef.
      destruct (W v1) as (st' & _ & A & H' & Ho' & G1 & G2).
      eexists (Occupied o), s1, _, st'. split; auto. simpl. rewrite Egm. simpl.
      rewrite D. simpl. rewrite Ef, A. simpl.
      split; [reflexivity|]. split; [eapply mr_assign; eauto|]. split; auto. split; auto. split; auto.
      destruct oc; auto. exists o. split; auto. split; auto.
      eapply ol_get_mut; [apply ol_entry; eauto|eauto|eauto].
    - destruct F as (x & E & Hx). exists (Vacant x), s, (Some (Vacant x)), st. split; auto.
  Qed.

  Lemma c17_occupied st k o : occ_live m st k o ->
    exists v r, map_get m st k = Some v /\ ms_occ_key m st o = Ok k /\
      ms_occ_get m st o = Ok v /\
      ms_occ_get_mut m st o = Ok r /\ ms_occ_into_mut m st o = Ok r /\
      map_get_mut m st k = Some r /\ deref m st r = Ok v /\
      (forall w, exists st', ms_occ_insert m st o w = Ok (v, st') /\ assign m st r w = Ok st' /\
         map_get m st' k = Some w /\ (forall k', k' <> k -> map_get m st' k' = map_get m st k') /\
         occ_live m st' k o) /\
      (exists st', ms_occ_remove m st o = Ok (v, st') /\ map_get m st' k = None /\
         (forall k', k' <> k -> map_get m st' k' = map_get m st k') /\ reach st').
  Proof.
    intros Hl. destruct (live_facts L st k o Hl) as [H [r Ho]].
    destruct (occ_facts L st o k r H Ho) as (v & G & Gm & D & Ek & Eg & Egm & Em & Er & W).
    exists v, r. repeat (split; [auto; fail|]). split.
    - intros w. destruct (W w) as (st' & Ei & A & _ & _ & G1 & G2). exists st'.
      repeat (split; [auto; fail|]). eapply ol_insert; eauto.
    - destruct (remove_facts L st k H) as (_ & R2 & R3).
      exists (snd (map_remove m st k)). repeat (split; [auto; fail|]).
      eapply mr_occ_remove; eauto.
  Qed.

  Lemma c17_vacant st k x v : reach st -> map_entry m st k = Ok (Vacant x) ->
    map_get m st k = None /\ ms_vac_key m st x = k /\
    exists r st', ms_vac_insert m st x v = Ok (r, st') /\ map_get m st' k = Some v /\
      map_get_mut m st' k = Some r /\ deref m st' r = Ok v /\
      (forall k', k' <> k -> map_get m st' k' = map_get m st k') /\ reach st'.
  Proof.
    intros R E. pose proof (r_inv L st R) as H.
    destruct (or_insert_ok st k H R) as (e & E' & F). rewrite E in E'. injection E' as <-.
    destruct F as (G & Ek & F). split; auto. split; auto.
    destruct (F v) as (r & st' & Ei & (G1 & D & Gm & G2) & R'). rewrite G in *.
    exists r, st'. auto 10.
  Qed.

  Lemma run_eops_ok k ps fin : forall st o v, occ_live m st k o -> map_get m st k = Some v ->
    exists st', run_eops m st o ps fin = Ok (fst (spec_eops k v ps fin), st') /\ reach st' /\
      map_get m st' k = snd (spec_eops k v ps fin) /\
      forall k', k' <> k -> map_get m st' k' = map_get m st k'.
  Proof.
    induction ps as [|p ps IH]; intros st o v Hl G;
      destruct (c17_occupied st k o Hl) as (v0 & r & G0 & Ek & Eg & Egm & Em & _ & _ & W & Er);
      rewrite G in G0; injection G0 as <-; simpl.
    - destruct fin as [|w|]; simpl.
      + exists st. split; auto. split; [exact (mr_occupied m st k o Hl)|]. auto.
      + destruct (W w) as (st' & _ & A & G1 & G2 & _). exists st'. rewrite Em. simpl. rewrite A.
        split; auto. split; auto. eapply mr_assign; eauto. exact (mr_occupied m st k o Hl).
      + destruct Er as (st' & E & G1 & G2 & R'). exists st'. rewrite E. auto.
    - assert (P : exists st1, run_eop m st o p = Ok (match p with
                   | EKey => SKey k | EGet => SValue v | EWrite _ => SUnit
                   | EInsert _ => SValue v end, st1) /\ occ_live m st1 k o /\
                   map_get m st1 k = Some (match p with EWrite w | EInsert w => w | _ => v end) /\
                   forall k', k' <> k -> map_get m st1 k' = map_get m st k').
      { destruct p as [| |w|w]; simpl.
        - exists st. rewrite Ek. auto.
        - exists st. rewrite Eg. auto.
        - destruct (W w) as (st' & _ & A & G1 & G2 & _). exists st'. rewrite Egm. simpl. rewrite A.
          split; auto. split; auto. eapply ol_get_mut; eauto.
        - destruct (W w) as (st' & I & _ & G1 & G2 & Hl'). exists st'. rewrite I. auto. }
      destruct P as (st1 & E1 & Hl1 & G1 & O1). rewrite E1. simpl.
      destruct (IH st1 o _ Hl1 G1) as (st' & E2 & R' & G2 & O2). rewrite E2. simpl.
      exists st'. destruct p; simpl; destruct (spec_eops k _ ps fin); simpl in *;
        (split; [reflexivity|]); (split; [exact R'|]); (split; [exact G2|]);
        intros k' Hk; rewrite O2 by auto; auto.
  Qed.

  Lemma c18 st k p : reach st ->
    exists st', run_entry m st k p = Ok (fst (spec_entry k (map_get m st k) p), st') /\ reach st' /\
      map_get m st' k = snd (spec_entry k (map_get m st k) p) /\
      forall k', k' <> k -> map_get m st' k' = map_get m st k'.
  Proof.
    intros R. pose proof (r_inv L st R) as H. pose proof (entry_facts L st k H) as F.
    unfold run_entry, spec_entry. destruct (map_get m st k) as [v|] eqn:G.
    - destruct F as (o & r & E & Ho & _). rewrite E. simpl.
      apply run_eops_ok; auto. apply ol_entry; auto.
    - destruct F as (x & E & Hx). rewrite E. simpl. destruct (ep_vac p) as [[v w]|]; simpl.
      + destruct (c17_vacant st k x v R E) as (_ & _ & r & st1 & Ei & G1 & Gm & _ & O1 & R1).
        rewrite Ei. simpl. destruct (c11 st1 k R1) as [_ C]. destruct (C r Gm) as [_ C'].
        destruct (C' w) as (st2 & A & G2 & O2 & _). rewrite A. simpl. exists st2.
        split; auto. split; [eapply mr_assign; eauto|]. split; auto.
        intros k' Hk. rewrite O2 by auto. auto.
      + exists st. auto.
  Qed.

  Lemma c19 veq a b : reach a -> reach b ->
    (map_eq m veq a b = true <-> forall k, same_option veq (map_get m a k) (map_get m b k)).
  Proof. intros Ra Rb. apply (eq_facts L); apply (r_inv L); auto. Qed.

  Lemma c19_equiv veq :
    ((forall v, veq v v = true) -> forall a, reach a -> map_eq m veq a a = true) /\
    ((forall u v, veq u v = true -> veq v u = true) -> forall a b, reach a -> reach b ->
       map_eq m veq a b = true -> map_eq m veq b a = true) /\
    ((forall u v w, veq u v = true -> veq v w = true -> veq u w = true) -> forall a b c,
       reach a -> reach b -> reach c ->
       map_eq m veq a b = true -> map_eq m veq b c = true -> map_eq m veq a c = true).
  Proof.
    split; [|split].
    - intros Hv a Ra. apply c19; auto. intros k. apply same_option_refl; auto.
    - intros Hv a b Ra Rb E. apply c19; auto. intros k. pose proof (proj1 (c19 _ _ _ Ra Rb) E k) as F.
      destruct (map_get m a k), (map_get m b k); simpl in *; auto.
    - intros Hv a b c Ra Rb Rc E1 E2. apply c19; auto. intros k.
      pose proof (proj1 (c19 _ _ _ Ra Rb) E1 k) as F1. pose proof (proj1 (c19 _ _ _ Rb Rc) E2 k) as F2.
      destruct (map_get m a k), (map_get m b k), (map_get m c k); simpl in *; auto; try contradiction.
      eauto.
  Qed.

  Lemma c20 cl st : reach st ->
    (forall k, map_get m (map_clone m cl st) k = option_map cl (map_get m st k)) /\
    exists l, yields (ms_Iter m) (map_iter m st) l /\
      yields (ms_Iter m) (map_iter m (map_clone m cl st)) (map (fun e => (fst e, cl (snd e))) l).
  Proof.
    intros R. pose proof (r_inv L st R) as H. destruct (clone_facts L cl st H) as [E G].
    split; auto. exists (map fst (ents st)). split; [apply iter_yields; auto|].
    rewrite <- E. apply iter_yields; auto. apply (c_clone _ _ _ C cl st H).
  Qed.

  Lemma c20_eq veq cl st : reach st -> (forall v, veq v (cl v) = true) ->
    map_eq m veq st (map_clone m cl st) = true.
  Proof.
    intros R Hv. apply c19; auto. { constructor; auto. }
    intros k. rewrite (proj1 (c20 cl st R)). destruct (map_get m st k); simpl; auto.
  Qed.

  (** * Collecting *)

  Lemma insert_all l : forall st, inv st ->
    let st' := fold_left (fun st e => snd (map_insert m st (fst e) (snd e))) l st in
    inv st' /\ (reach st -> reach st') /\
    (forall k v, last_value l k v -> map_get m st' k = Some v) /\
    (forall k, ~ In k (map fst l) -> map_get m st' k = map_get m st k).
  Proof.
    induction l as [|[k v] l IH]; intros st H; simpl.
    - split; auto. split; auto. split; auto. intros k v (a & b & E & _). destruct a; discriminate.
    - destruct (insert_facts L st k v H) as (_ & I2 & I3).
      destruct (IH (snd (map_insert m st k v)) (insert_inv L st k v H)) as (H' & R & P1 & P2).
      split; auto. split. { intros Hr. apply R. constructor; auto. } split.
      + intros k' v' (a & b & E & Hb). destruct a as [|p a]; simpl in E.
        * injection E as <- <- <-. rewrite P2 by auto. exact I2.
        * injection E as _ E. apply P1. exists a, b. auto.
      + intros k' Hn. rewrite P2 by tauto. apply I3. intros ->. tauto.
  Qed.

  Lemma last_value_in {A B} (eqb : A -> A -> bool) (l : list (A * B)) k :
    (forall a b, eqb a b = true <-> a = b) ->
    In k (map fst l) -> exists v, last_value l k v.
  Proof.
    intros He. induction l as [|[k' v] l IH]; simpl; [tauto|]. intros Hi.
    destruct (existsb (fun e => eqb k (fst e)) l) eqn:Ex.
    - apply existsb_exists in Ex as ([k2 v2] & H2 & E2). apply He in E2. simpl in E2. subst k2.
      destruct IH as (w & a & b & -> & Hb).
      { apply in_map_iff. exists (k, v2). auto. }
      exists w, ((k', v) :: a), b. auto.
    - assert (Hn : ~ In k (map fst l)).
      { intros Hk. apply in_map_iff in Hk as (e & <- & Hk).
        assert (existsb (fun e' => eqb (fst e) (fst e')) l = true).
        { apply existsb_exists. exists e. split; auto. apply He. auto. }
        congruence. }
      destruct Hi as [->|Hi]; [|contradiction]. exists v, [], l. auto.
  Qed.

  Lemma last_value_fun {A B} (l : list (A * B)) k v v' :
    last_value l k v -> last_value l k v' -> v = v'.
  Proof.
    intros (a & b & -> & Hb) (a' & b' & E & Hb').
    revert a' E. induction a as [|p a IH]; intros a' E; destruct a' as [|p' a']; simpl in E.
    - congruence.
    - injection E as <- E. destruct Hb. rewrite E, map_app. apply in_or_app. right. left. auto.
    - injection E as -> <-. destruct Hb'. rewrite map_app. apply in_or_app. right. left. auto.
    - injection E as _ E. eauto.
  Qed.

  Lemma insert_all_get l st : inv st -> ents st = [] ->
    let st' := fold_left (fun st e => snd (map_insert m st (fst e) (snd e))) l st in
    forall k v, map_get m st' k = Some v <-> last_value l k v.
  Proof.
    intros H E st'. destruct (insert_all l st H) as (_ & _ & P1 & P2). fold st' in P1, P2.
    intros k v. split; [|apply P1]. intros G.
    destruct (existsb (fun e => ks_eqb sp k (fst e)) l) eqn:Ex.
    - apply existsb_exists in Ex as ([k2 v2] & H2 & E2). apply (keqb_eq L) in E2. simpl in E2. subst k2.
      destruct (last_value_in (ks_eqb sp) l k (keqb_eq L)) as [w Hw].
      { apply in_map_iff. exists (k, v2). auto. }
      pose proof (P1 k w Hw) as G'. rewrite G in G'. injection G' as ->. auto.
    - rewrite P2 in G; [rewrite (nil_get L) in G; auto; discriminate|].
      intros Hk. apply in_map_iff in Hk as (e & <- & Hk).
      assert (existsb (fun e' => ks_eqb sp (fst e) (fst e')) l = true).
      { apply existsb_exists. exists e. split; auto. apply (keqb_eq L). auto. }
      congruence.
  Qed.

  Lemma c23 w l : reach (map_from_iter m w l) /\
    forall k v, map_get m (map_from_iter m w l) k = Some v <-> last_value l k v.
  Proof.
    destruct (new_facts L w) as [H E]. split.
    - apply insert_all; auto. constructor.
    - apply insert_all_get; auto.
  Qed.

  (** * serde *)

  Lemma ser_loop_ok {A Out Err} (z : serializer A Out Err) (i : iterator A) l :
    forall s it, yields i it l -> returns (fun n => ser_loop z i n it s) (feed z s l).
  Proof.
    induction l as [|x l IH]; intros s it [n0 Y].
    - exists 1. intros [|n] Hn; [lia|]. pose proof (Y (S n0) ltac:(lia)) as E. simpl in *.
      destruct (it_next i it) as [[y|] it']; [|reflexivity].
      destruct (drain i n0 it'); discriminate.
    - assert (Y' : exists it', it_next i it = (Some x, it') /\ yields i it' l).
      { pose proof (Y (S n0) ltac:(lia)) as E. simpl in E.
        destruct (it_next i it) as [[y|] it'] eqn:En; [|discriminate].
        destruct (drain i n0 it') as [l0|] eqn:Ed; [|discriminate]. injection E as -> ->.
        exists it'. split; auto. exists n0. intros n Hn.
        pose proof (Y (S n) ltac:(lia)) as E. simpl in E. rewrite En in E.
        destruct (drain i n it') as [l1|]; [|discriminate]. simpl in E. congruence. }
      destruct Y' as (it' & En & Y'). simpl.
      destruct (ser_elem z s x) as [s'|e] eqn:Es.
      + destruct (IH s' it' Y') as [n1 H1]. exists (S n1). intros [|n] Hn; [lia|].
        simpl. rewrite En, Es. apply H1. lia.
      + exists 1. intros [|n] Hn; [lia|]. simpl. rewrite En, Es. reflexivity.
  Qed.

  Lemma visit_supplies {D A Err St} (acc : access D A Err) (ins : St -> A -> St) d l :
    supplies acc d l -> forall st,
    returns (fun n => visit acc ins n d st) (inl (fold_left ins l st)).
  Proof.
    induction 1 as [d d' E|d x d' l E Hs IH]; intros st.
    - exists 1. intros [|n] Hn; [lia|]. simpl. rewrite E. reflexivity.
    - destruct (IH (ins st x)) as [n0 H0]. exists (S n0). intros [|n] Hn; [lia|].
      simpl. rewrite E. apply H0. lia.
  Qed.

  Lemma visit_breaks {D A Err St} (acc : access D A Err) (ins : St -> A -> St) d l e :
    breaks acc d l e -> forall st, returns (fun n => visit acc ins n d st) (inr e).
  Proof.
    induction 1 as [d e d' E|d x d' l e E Hs IH]; intros st.
    - exists 1. intros [|n] Hn; [lia|]. simpl. rewrite E. reflexivity.
    - destruct (IH (ins st x)) as [n0 H0]. exists (S n0). intros [|n] Hn; [lia|].
      simpl. rewrite E. apply H0. lia.
  Qed.

  Lemma c24_ser {Out Err} (z : serializer (K * V) Out Err) st : reach st ->
    exists l, yields (ms_Iter m) (map_iter m st) l /\ map_len m st = length l /\
      returns (fun n => map_serialize m z n st) (feed_all z l).
  Proof.
    intros R. pose proof (r_inv L st R) as H. exists (map fst (ents st)).
    split; [apply iter_yields; auto|]. split; [apply (len_facts L); auto|]. unfold map_serialize, serialize, feed_all.
    rewrite (len_facts L) by auto. destruct (ser_start z _) as [s|e].
    - apply ser_loop_ok. apply iter_yields; auto.
    - exists 0. reflexivity.
  Qed.

  Lemma c24_visit {D Err} (acc : access D (K * V) Err) w d l : supplies acc d l ->
    returns (fun n => map_visit m acc n w d) (inl (map_from_iter m w l)).
  Proof. intros Hs. apply visit_supplies; auto. Qed.

  Lemma c24_breaks {D Err} (acc : access D (K * V) Err) w d l e : breaks acc d l e ->
    returns (fun n => map_visit m acc n w d) (inr e).
  Proof. intros Hs. eapply visit_breaks; eauto. Qed.

  Lemma nodup_last {A B} (l : list (A * B)) k v : NoDup (map fst l) ->
    (last_value l k v <-> In (k, v) l).
  Proof.
    intros N. split.
    - intros (a & b & -> & _). apply in_or_app. right. left. auto.
    - intros Hi. apply in_split in Hi as (a & b & ->). exists a, b. split; auto.
      rewrite map_app in N. apply NoDup_remove_2 in N. intros Hb. apply N, in_or_app. auto.
  Qed.

  Lemma c24_roundtrip st w l : reach st -> yields (ms_Iter m) (map_iter m st) l ->
    forall k, map_get m (map_from_iter m w l) k = map_get m st k.
  Proof.
    intros R Y k. pose proof (r_inv L st R) as H.
    pose proof (iter_inv L st l H Y) as ->. destruct (ents_lists L st H) as [N E].
    destruct (c23 w (map fst (ents st))) as [_ G].
    destruct (map_get m st k) as [v|] eqn:E1.
    - apply G. apply nodup_last; auto. apply E; auto.
    - destruct (map_get m (map_from_iter m w (map fst (ents st))) k) as [v|] eqn:E2; auto.
      apply G, nodup_last, E in E2; auto. congruence.
  Qed.

  Lemma c24_round {D Err} (acc : access D (K * V) Err) w d l veq st : reach st ->
    yields (ms_Iter m) (map_iter m st) l -> supplies acc d l ->
    exists st', returns (fun n => map_visit m acc n w d) (inl st') /\
      (forall k, map_get m st' k = map_get m st k) /\
      ((forall v, veq v v = true) -> map_eq m veq st' st = true).
  Proof.
    intros R Y Hs. exists (map_from_iter m w l). split; [apply c24_visit; auto|].
    pose proof (c24_roundtrip st w l R Y) as G. split; auto.
    intros Hv. apply c19; auto. { apply c23. }
    intros k. rewrite G. apply same_option_refl; auto.
  Qed.

  (** * Conservation of values *)

  Lemma values_inv st vs : inv st -> yields (ms_Values m) (map_values m st) vs ->
    vs = map snd (map fst (ents st)).
  Proof.
    intros H Y. destruct (ml_values _ _ L st H) as [H1 E1].
    rewrite (yields_fun _ _ _ _ Y (yields_rem _ _ _ H1)), E1, map_map. reflexivity.
  Qed.

  Lemma values_perm st l : inv st -> lists (map_get m st) l ->
    forall vs, yields (ms_Values m) (map_values m st) vs -> Permutation vs (map snd l).
  Proof.
    intros H Hl vs Y. rewrite (values_inv st vs H Y). apply Permutation_map.
    eapply lists_unique; [apply (ents_lists L); auto|auto].
  Qed.

  Lemma del_perm k (l : list (K * V)) (f : fmap K V) : lists f l ->
    Permutation (map snd l) (opt_list (f k) ++ map snd (del (ks_eqb sp) k l)).
  Proof.
    intros [N E]. destruct (f k) as [v|] eqn:G; simpl.
    - apply E in G. apply in_split in G as (a & b & ->).
      rewrite map_app in N. simpl in N. apply NoDup_remove in N as [N Hn].
      assert (D : forall l : list (K * V), ~ In k (map fst l) -> del (ks_eqb sp) k l = l).
      { clear -L. induction l as [|[k' v'] l IH]; simpl; auto. intros Hi.
        rewrite (keqb_neq L) by (intros ->; tauto). simpl. rewrite IH; auto. }
      unfold del in *. rewrite filter_app. simpl. rewrite (keqb_refl L). simpl.
      rewrite !D; [|intros Hi; apply Hn, in_or_app; auto|intros Hi; apply Hn, in_or_app; auto].
      rewrite !map_app. simpl. symmetry. apply Permutation_middle.
    - replace (del (ks_eqb sp) k l) with l; auto.
      assert (Hn : ~ In k (map fst l)).
      { intros Hi. apply in_fst in Hi as [v Hi]. apply E in Hi. congruence. }
      clear -L Hn. induction l as [|[k' v'] l IH]; simpl; auto. simpl in Hn.
      rewrite (keqb_neq L) by (intros ->; tauto). simpl. rewrite <- IH; auto.
  Qed.

  Lemma del_lists (f f' : fmap K V) k l : lists f l ->
    f' k = None -> (forall k', k' <> k -> f' k' = f k') -> lists f' (del (ks_eqb sp) k l).
  Proof.
    intros [N E] E1 E2. split.
    - clear -N. unfold del. induction l as [|[k' v'] l IH]; simpl; [constructor|].
      inversion N as [|? ? Hn N']; subst.
      destruct (negb (ks_eqb sp k k')); simpl; auto. constructor; auto.
      intros Hi. apply Hn. apply in_map_iff in Hi as (e & <- & Hi). apply filter_In in Hi as [Hi _].
      apply in_map; auto.
    - intros k' v. unfold del. rewrite filter_In, E. simpl. rewrite negb_true_iff. split.
      + intros [Hf Hk]. rewrite E2; auto. intros ->. rewrite (keqb_refl L) in Hk. discriminate.
      + intros Hf. assert (k' <> k) by (intros ->; congruence). rewrite <- E2 by auto. split; auto.
        apply (keqb_neq L). congruence.
  Qed.

  Lemma add_lists (f f' : fmap K V) k v l : lists f l -> f k = None ->
    f' k = Some v -> (forall k', k' <> k -> f' k' = f k') -> lists f' ((k, v) :: l).
  Proof.
    intros [N E] E0 E1 E2. split.
    - simpl. constructor; auto. intros Hi. apply in_fst in Hi as [w Hi]. apply E in Hi. congruence.
    - intros k' w. simpl. rewrite E. destruct (ks_eqb sp k' k) eqn:Ek.
      + apply (keqb_eq L) in Ek. subst. rewrite E1, E0. split.
        * intros [[= ->]|[=]]; auto.
        * intros [= ->]. auto.
      + assert (k' <> k) by (intros ->; rewrite (keqb_refl L) in Ek; discriminate).
        rewrite E2 by auto. split; [|auto]. intros [[= -> ->]|Hf]; [congruence|auto].
  Qed.

  (** Updating one key changes the values accordingly. *)
  Lemma values_update st st' k o vs vs' : inv st -> inv st' ->
    map_get m st' k = o -> (forall k', k' <> k -> map_get m st' k' = map_get m st k') ->
    yields (ms_Values m) (map_values m st) vs -> yields (ms_Values m) (map_values m st') vs' ->
    Permutation (opt_list (map_get m st k) ++ vs') (opt_list o ++ vs).
  Proof.
    intros H H' E1 E2 Y Y'.
    set (l := map fst (ents st)). pose proof (ents_lists L st H) as Hl. fold l in Hl.
    set (g := fun k' => if ks_eqb sp k k' then None else map_get m st k').
    assert (G1 : g k = None) by (unfold g; rewrite (keqb_refl L); auto).
    assert (G2 : forall k', k' <> k -> g k' = map_get m st k').
    { intros k' Hk. unfold g. rewrite (keqb_neq L); auto. }
    pose proof (del_lists _ g k l Hl G1 G2) as Hd.
    assert (P : Permutation vs' (opt_list o ++ map snd (del (ks_eqb sp) k l))).
    { destruct o as [v|].
      - apply (values_perm st' ((k, v) :: del (ks_eqb sp) k l)); auto.
        apply (add_lists g); auto. intros k' Hk. rewrite E2, G2; auto.
      - apply (values_perm st' (del (ks_eqb sp) k l)); auto.
        apply (lists_perm g _ (del (ks_eqb sp) k l)); auto.
        intros k'. destruct (ks_eqb sp k' k) eqn:Ek.
        + apply (keqb_eq L) in Ek. subst. congruence.
        + assert (k' <> k) by (intros ->; rewrite (keqb_refl L) in Ek; discriminate).
          rewrite G2, E2; auto. }
    pose proof (values_perm st l H Hl vs Y) as Q. pose proof (del_perm k l _ Hl) as D.
    rewrite P, Q, D. rewrite !app_assoc. apply Permutation_app_tail. apply Permutation_app_comm.
  Qed.

  Lemma c39_insert st k v vs vs' : reach st ->
    yields (ms_Values m) (map_values m st) vs ->
    yields (ms_Values m) (map_values m (snd (map_insert m st k v))) vs' ->
    Permutation (opt_list (fst (map_insert m st k v)) ++ vs') (v :: vs).
  Proof.
    intros R Y Y'. pose proof (r_inv L st R) as H. destruct (insert_facts L st k v H) as (-> & I2 & I3).
    exact (values_update st _ k (Some v) vs vs' H (insert_inv L st k v H) I2 I3 Y Y').
  Qed.

  Lemma c39_remove st k vs vs' : reach st ->
    yields (ms_Values m) (map_values m st) vs ->
    yields (ms_Values m) (map_values m (snd (map_remove m st k))) vs' ->
    Permutation (opt_list (fst (map_remove m st k)) ++ vs') vs.
  Proof.
    intros R Y Y'. pose proof (r_inv L st R) as H. destruct (remove_facts L st k H) as (-> & I2 & I3).
    exact (values_update st _ k None vs vs' H (remove_inv L st k H) I2 I3 Y Y').
  Qed.

  Lemma c39_occ_insert st k o v old st' vs vs' : occ_live m st k o ->
    ms_occ_insert m st o v = Ok (old, st') ->
    yields (ms_Values m) (map_values m st) vs -> yields (ms_Values m) (map_values m st') vs' ->
    Permutation (old :: vs') (v :: vs).
  Proof.
    intros Hl E Y Y'. destruct (live_facts L st k o Hl) as [H _].
    destruct (c17_occupied st k o Hl) as (v0 & r & G & _ & _ & _ & _ & _ & _ & W & _).
    destruct (W v) as (st1 & E1 & _ & G1 & G2 & Hl'). rewrite E in E1. injection E1 as -> ->.
    destruct (live_facts L st1 k o Hl') as [H' _].
    pose proof (values_update st st1 k (Some v) vs vs' H H' G1 G2 Y Y') as P.
    rewrite G in P. exact P.
  Qed.

  Lemma c39_occ_remove st k o v st' vs vs' : occ_live m st k o ->
    ms_occ_remove m st o = Ok (v, st') ->
    yields (ms_Values m) (map_values m st) vs -> yields (ms_Values m) (map_values m st') vs' ->
    Permutation (v :: vs') vs.
  Proof.
    intros Hl E Y Y'. destruct (live_facts L st k o Hl) as [H _].
    destruct (c17_occupied st k o Hl) as (v0 & r & G & _ & _ & _ & _ & _ & _ & _ & st1 & E1 & G1 & G2 & R).
    rewrite E in E1. injection E1 as -> ->.
    pose proof (values_update st st1 k None vs vs' H (r_inv L st1 R) G1 G2 Y Y') as P.
    rewrite G in P. exact P.
  Qed.

  Lemma c39_vac_insert st k x v r st' vs vs' : reach st ->
    map_entry m st k = Ok (Vacant x) -> ms_vac_insert m st x v = Ok (r, st') ->
    yields (ms_Values m) (map_values m st) vs -> yields (ms_Values m) (map_values m st') vs' ->
    Permutation vs' (v :: vs).
  Proof.
    intros R E Ei Y Y'.
    destruct (c17_vacant st k x v R E) as (G & _ & r1 & st1 & E1 & G1 & _ & _ & G2 & R').
    rewrite Ei in E1. injection E1 as -> ->.
    pose proof (values_update st st1 k (Some v) vs vs' (r_inv L st R) (r_inv L st1 R') G1 G2 Y Y') as P.
    rewrite G in P. exact P.
  Qed.

  Lemma c39_retain S (f : retain_fn S K V) s st s' st' o l vs' : reach st ->
    map_retain m f s st = (s', st', o) ->
    yields (ms_Iter m) (map_iter m st) l -> yields (ms_Values m) (map_values m st') vs' ->
    Permutation (vs' ++ rejected f s l) (left_behind f s l).
  Proof.
    intros R E Y Y'.
    destruct (c12 S f s st R) as (l1 & s2 & l' & o2 & st2 & Y1 & El & E2 & Y2 & Hl).
    rewrite E in E2. injection E2 as <- <- <-.
    rewrite (yields_fun _ _ _ _ Y Y1) in *.
    pose proof (mr_retain m S f s st R) as R'. rewrite E in R'.
    pose proof (values_perm st' l' (r_inv L st' R') Hl vs' Y') as P. rewrite P.
    eapply retain_conserve; eauto.
  Qed.

  Lemma c39_into_iter st : reach st ->
    exists l, yields (ms_IntoIter m) (map_into_iter m st) l /\ lists (map_get m st) l.
  Proof.
    intros R. pose proof (r_inv L st R) as H. destruct (c08 st R) as (l & Y1 & _ & Y3).
    exists l. split; auto. rewrite (iter_inv L st l H Y1). apply ents_lists; auto.
  Qed.
End Proofs.
