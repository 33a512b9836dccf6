(** Proofs about listing all values of a key type. *)
Require Import List Arith NArith ZArith Bool Lia Permutation.
Import ListNotations.
From Verif Require Import Std Traits Key Api Spec Reach History SetHistory FullSpec IterLaws IterFacts MapCore MapLaws MapFacts MapProofs HistProofs SetCore
  SetLaws SetFacts SetProofs KeyLaws KeyFacts.

Lemma sorted_app {A} (before : A -> A -> Prop) a b : sorted_by before a -> sorted_by before b ->
  (forall x y, In x a -> In y b -> ~ before y x) -> sorted_by before (a ++ b).
Proof.
  induction a as [|x a IH]; simpl; auto. intros [H1 H2] Hb H. split.
  - intros y Hy. apply in_app_or in Hy as [Hy|Hy]; auto.
  - apply IH; auto.
Qed.

Lemma sorted_map {A B} (before : A -> A -> Prop) (before' : B -> B -> Prop) (f : A -> B) l :
  (forall x y, before' (f x) (f y) -> before x y) -> sorted_by before l -> sorted_by before' (map f l).
Proof.
  intros H. induction l as [|x l IH]; simpl; auto. intros [H1 H2]. split; auto.
  intros y Hy. apply in_map_iff in Hy as (z & <- & Hz). intros C. exact (H1 z Hz (H _ _ C)).
Qed.

Lemma app_nodup {A} (a b : list A) : NoDup a -> NoDup b -> (forall x, In x a -> ~ In x b) -> NoDup (a ++ b).
Proof.
  intros Ha Hb H. induction Ha as [|x a Hx Ha IH]; simpl; auto. constructor.
  - intros C. apply in_app_or in C as [C|C]; [auto|]. exact (H x (or_introl eq_refl) C).
  - apply IH. intros y Hy. apply H. right. exact Hy.
Qed.

Lemma all_ok :
  (forall t, hash_free t = true ->
     NoDup (all_keys t) /\ (forall k, In k (all_keys t)) /\ sorted_by (key_before t) (all_keys t) /\
     length (all_keys t) = card t) /\
  (forall vs, hash_free_variants vs = true ->
     NoDup (all_variants vs) /\ (forall k, In k (all_variants vs)) /\
     sorted_by (keys_before vs) (all_variants vs) /\ length (all_variants vs) = card_variants vs).
Proof.
  apply kty_mut.
  - intros _. split; [|split; [|split]]; simpl.
    + repeat constructor; simpl; intuition discriminate.
    + intros []; simpl; auto.
    + intuition discriminate.
    + reflexivity.
  - intros _. split; [|split; [|split]]; simpl; auto.
    + repeat constructor; auto.
    + intros []; auto.
  - discriminate.
  - intros t IH H. destruct (IH H) as (N & A & S & L). split; [|split; [|split]]; simpl.
    + apply app_nodup; [apply FinFun.Injective_map_NoDup; [intros x y; congruence|exact N]|repeat constructor; auto|].
      intros x Hx [<-|[]]. apply in_map_iff in Hx as (y & E & _). discriminate E.
    + intros [k|]; apply in_or_app; [left; apply in_map, A|right; left; reflexivity].
    + apply sorted_app.
      * exact (sorted_map (key_before t) (key_before (KOption t)) Some _ (fun x y H => H) S).
      * simpl. auto.
      * intros x y _ [<-|[]]. simpl. auto.
    + rewrite app_length, map_length, L. simpl. lia.
  - intros bs vs IH H. exact (IH H).
  - intros _. split; [constructor|]. split; [intros []|]. split; [exact Logic.I|reflexivity].
  - intros r IH H. destruct (IH H) as (N & A & S & L). split; [|split; [|split]]; simpl.
    + constructor; [|apply FinFun.Injective_map_NoDup; [intros x y; congruence|exact N]].
      intros Hx. apply in_map_iff in Hx as (y & E & _). discriminate E.
    + intros [[]|k]; [left; reflexivity|right; apply in_map, A].
    + split.
      * intros y Hy. apply in_map_iff in Hy as (z & <- & _). auto.
      * exact (sorted_map (keys_before r) (keys_before (VUnit r)) inr _ (fun x y H => H) S).
    + rewrite map_length, L. reflexivity.
  - intros t IHt r IHr H. simpl in H. apply andb_true_iff in H as [H1 H2].
    destruct (IHt H1) as (N & A & S & L). destruct (IHr H2) as (N' & A' & S' & L').
    split; [|split; [|split]]; simpl.
    + apply app_nodup.
      * apply FinFun.Injective_map_NoDup; [intros x y; congruence|exact N].
      * apply FinFun.Injective_map_NoDup; [intros x y; congruence|exact N'].
      * intros x Hx Hy. apply in_map_iff in Hx as (y & <- & _).
        apply in_map_iff in Hy as (z & E & _). discriminate E.
    + intros [k|k]; apply in_or_app; [left; apply in_map, A|right; apply in_map, A'].
    + apply sorted_app.
      * exact (sorted_map (key_before t) (keys_before (VTuple t r)) inl _ (fun x y H => H) S).
      * exact (sorted_map (keys_before r) (keys_before (VTuple t r)) inr _ (fun x y H => H) S').
      * intros x y Hx Hy. apply in_map_iff in Hx as (x' & <- & _). apply in_map_iff in Hy as (y' & <- & _).
        simpl. auto.
    + rewrite app_length, !map_length, L, L'. reflexivity.
Qed.

Lemma entries_in {K V} (f : fmap K V) ks k v : In (k, v) (entries_of f ks) <-> In k ks /\ f k = Some v.
Proof.
  unfold entries_of. rewrite in_flat_map. split.
  - intros (x & Hx & H). destruct (f x) eqn:E; simpl in H; [|contradiction].
    destruct H as [[= -> ->]|[]]. auto.
  - intros [H E]. exists k. split; [exact H|]. rewrite E. left. reflexivity.
Qed.

Lemma entries_fst {K V} (f : fmap K V) ks :
  map fst (entries_of f ks) = filter (fun k => match f k with Some _ => true | None => false end) ks.
Proof.
  induction ks as [|k ks IH]; simpl; auto. rewrite map_app, IH. destruct (f k); reflexivity.
Qed.

Lemma sorted_filter {A} (before : A -> A -> Prop) (p : A -> bool) l :
  sorted_by before l -> sorted_by before (filter p l).
Proof.
  induction l as [|x l IH]; simpl; auto. intros [H1 H2]. destruct (p x); simpl; auto. split; auto.
  intros y Hy. apply filter_In in Hy as [Hy _]. auto.
Qed.

Lemma filter_len {A} (p : A -> bool) l : length (filter p l) <= length l.
Proof. induction l as [|x l IH]; simpl; auto. destruct (p x); simpl; lia. Qed.

Lemma filter_full {A} (p : A -> bool) l : length (filter p l) = length l <-> forall x, In x l -> p x = true.
Proof.
  induction l as [|x l IH]; simpl; [intuition|]. pose proof (filter_len p l) as Le.
  destruct (p x) eqn:E; simpl.
  - rewrite Nat.succ_inj_wd, IH. split; intros H y; [intros [<-|Hy]|]; auto.
  - split; [lia|]. intros H. rewrite H in E by auto. discriminate.
Qed.

Section Full.
  Context (t : kty) (F : hash_free t = true).

  Lemma listing_unique {V} (f : fmap (key t) V) l : lists f l -> sorted_by (key_before t) (map fst l) ->
    l = entries_of f (all_keys t).
  Proof.
    intros [N H] S. destruct (proj1 all_ok t F) as (N' & A & S' & _).
    apply (sorted_unique (fun a b => key_before t (fst a) (fst b))).
    - intros [a v] [b w] Ha Hb. simpl.
      destruct (proj1 key_before_total t F a b) as [->|[B|B]]; auto.
      left. apply H in Ha, Hb. congruence.
    - apply sorted_by_fst. exact S.
    - apply sorted_by_fst. rewrite entries_fst. apply sorted_filter, S'.
    - apply NoDup_Permutation.
      + exact (NoDup_map_inv _ _ N).
      + apply (NoDup_map_inv fst). rewrite entries_fst. apply NoDup_filter, N'.
      + intros [k v]. rewrite entries_in, H. intuition.
  Qed.

  Lemma elements_unique (p : key t -> bool) l : elements p l -> sorted_by (key_before t) l ->
    l = filter p (all_keys t).
  Proof.
    intros [N H] S. destruct (proj1 all_ok t F) as (N' & A & S' & _).
    apply (sorted_unique (key_before t)); auto.
    - intros a b _ _. apply (proj1 key_before_total t F).
    - apply sorted_filter, S'.
    - apply NoDup_Permutation; [exact N|apply NoDup_filter, N'|].
      intros k. rewrite filter_In, H. intuition.
  Qed.
End Full.

Lemma full_map t ki V (st : ms_St (ki_map ki V)) : derive t = Some ki -> hash_free t = true ->
  map_reachable (ki_map ki V) st ->
  let l := entries_of (map_get (ki_map ki V) st) (all_keys t) in
  yields (ms_Iter (ki_map ki V)) (map_iter (ki_map ki V) st) l /\
  yields (ms_Values (ki_map ki V)) (map_values (ki_map ki V) st) (map snd l) /\
  yields (ms_IntoIter (ki_map ki V)) (map_into_iter (ki_map ki V) st) l /\
  map_len (ki_map ki V) st = length l.
Proof.
  intros D F R l. set (L := derive_map_laws t ki V D).
  destruct (c06 L st R) as (l1 & Y1 & Hl & Hs). destruct (c08 L st R) as (l2 & Y2 & Yv & Yi).
  destruct (c05 L st R) as (l3 & Y3 & _ & Len & _).
  pose proof (yields_fun _ _ _ _ Y1 Y2) as <-. pose proof (yields_fun _ _ _ _ Y1 Y3) as <-.
  assert (E : l1 = l).
  { apply (listing_unique t F); [exact Hl|].
    exact (sorted_by_ext _ _ _ (fun a b => proj2 (proj1 spec_before t a b)) Hs). }
  rewrite <- E. auto.
Qed.

Lemma full_set t ki (st : ss_St (ki_set ki)) : derive t = Some ki -> hash_free t = true ->
  set_reachable (ki_set ki) st ->
  let l := filter (set_contains (ki_set ki) st) (all_keys t) in
  yields (ss_Iter (ki_set ki)) (set_iter (ki_set ki) st) l /\
  yields (ss_IntoIter (ki_set ki)) (set_into_iter (ki_set ki) st) l /\
  set_len (ki_set ki) st = length l.
Proof.
  intros D F R l. destruct (s_c30 (derive_set_laws t ki D) st R) as (l1 & Y1 & Y2 & He & Hs & Len).
  assert (E : l1 = l).
  { apply (elements_unique t F); [exact He|].
    exact (sorted_by_ext _ _ _ (fun a b => proj2 (proj1 spec_before t a b)) Hs). }
  rewrite <- E. auto.
Qed.

Lemma full_map_bound t ki V (st : ms_St (ki_map ki V)) : derive t = Some ki -> hash_free t = true ->
  map_reachable (ki_map ki V) st ->
  map_len (ki_map ki V) st <= card t /\
  (map_len (ki_map ki V) st = card t <-> forall k, map_get (ki_map ki V) st k <> None).
Proof.
  intros D F R. destruct (full_map t ki V st D F R) as (_ & _ & _ & E).
  destruct (proj1 all_ok t F) as (N' & A & _ & Lc).
  rewrite E, <- (map_length fst), entries_fst, <- Lc. split.
  - apply filter_len.
  - rewrite filter_full. split.
    + intros H k C. specialize (H k (A k)). rewrite C in H. discriminate.
    + intros H k _. specialize (H k). destruct (map_get (ki_map ki V) st k); congruence.
Qed.

Lemma full_set_bound t ki (st : ss_St (ki_set ki)) : derive t = Some ki -> hash_free t = true ->
  set_reachable (ki_set ki) st ->
  set_len (ki_set ki) st <= card t /\
  (set_len (ki_set ki) st = card t <-> forall k, set_contains (ki_set ki) st k = true).
Proof.
  intros D F R. destruct (full_set t ki st D F R) as (_ & _ & E).
  destruct (proj1 all_ok t F) as (N' & A & _ & Lc). rewrite E, <- Lc. split.
  - apply filter_len.
  - rewrite filter_full. split; auto.
Qed.

(** * Programs *)

Lemma run_op_listed t ki V (D : derive t = Some ki) (F : hash_free t = true)
  (st : ms_St (ki_map ki V)) o : let L := derive_map_laws t ki V D in
  c_inv (ml_core L) st ->
  exists x st' n0, (forall n, n0 <= n -> run_op (ki_map ki V) n st o = Ok (x, st')) /\
    c_inv (ml_core L) st' /\
    spec_listed (all_keys t) (map_get (ki_map ki V) st) o x (map_get (ki_map ki V) st').
Proof.
  intros L H.
  assert (E : map fst (c_ents (ml_core L) st) = entries_of (map_get (ki_map ki V) st) (all_keys t)).
  { apply (listing_unique t F); [apply ents_lists; auto|].
    apply (sorted_by_ext _ _ _ (fun a b => proj2 (proj1 spec_before t a b))).
    apply strongly_sorted_by. rewrite map_map. exact (c_sorted _ _ _ (ml_core L) st H). }
  destruct (run_op_ok L st o H) as (x & st' & n0 & R & I & _ & S).
  exists x, st', n0. split; [exact R|]. split; [exact I|].
  destruct o; try exact S.
  - destruct (c_retain _ _ _ (ml_core L) _ (logged f) [] st H) as (log & st1 & oc & E1 & H1 & E2).
    specialize (R n0 (le_n _)). simpl in R. unfold map_retain in R. simpl in E1. rewrite E1 in R.
    injection R as <- <-. exists log, (map fst (c_ents (ml_core L) st1)), oc.
    rewrite <- E. split; [exact E2|]. split; [reflexivity|]. apply ents_lists; auto.
  - split; [|apply S]. destruct (iter_yields L st H) as [n1 Y].
    specialize (R (n0 + n1) ltac:(lia)). simpl in R. rewrite Y in R by lia. injection R as <- _.
    rewrite E. reflexivity.
Qed.


Lemma run_ops_listed t ki V (D : derive t = Some ki) (F : hash_free t = true) ops :
  let L := derive_map_laws t ki V D in forall st, c_inv (ml_core L) st ->
  exists xs st' n0, (forall n, n0 <= n -> run_ops (ki_map ki V) n st ops = Ok (xs, st')) /\
    spec_all_listed (all_keys t) (map_get (ki_map ki V) st) ops xs (map_get (ki_map ki V) st').
Proof.
  intros L. induction ops as [|o ops IH]; intros st H.
  - exists [], st, 0. split; [reflexivity|]. intros k. reflexivity.
  - destruct (run_op_listed t ki V D F st o H) as (x & st1 & n1 & R1 & H1 & S1).
    destruct (IH st1 H1) as (xs & st2 & n2 & R2 & S2).
    exists (x :: xs), st2, (n1 + n2). split.
    + intros n Hn. simpl. rewrite R1 by lia. simpl. rewrite R2 by lia. reflexivity.
    + exists (map_get (ki_map ki V) st1). auto.
Qed.

Lemma empty_get t ki V (D : derive t = Some ki) w k : map_get (ki_map ki V) (map_new (ki_map ki V) w) k = None.
Proof.
  destruct (ml_empty _ _ (derive_map_laws t ki V D) w) as [H E].
  pose proof (ents_lists (derive_map_laws t ki V D) _ H) as [_ G].
  unfold map_new. destruct (map_get (ki_map ki V) (ms_empty (ki_map ki V) w) k) eqn:X; [|reflexivity].
  apply G in X. rewrite E in X. destruct X.
Qed.

Lemma spec_listed_ext {K V} (ks : list K) (f g h : fmap K V) o x : (forall k, f k = g k) ->
  spec_listed ks f o x h -> spec_listed ks g o x h.
Proof.
  intros E. assert (L : forall l, lists f l -> lists g l).
  { intros l [N H]. split; [exact N|]. intros k v. rewrite H, E. tauto. }
  assert (Ks : keeps f h -> keeps g h) by (intros H k; rewrite <- E; auto).
  assert (U : forall k v, updates f k v h -> updates g k v h).
  { intros k v [H1 H2]. split; [exact H1|]. intros k' N. rewrite <- E. auto. }
  assert (En : entries_of f ks = entries_of g ks).
  { unfold entries_of. apply flat_map_ext. intros k. rewrite E. reflexivity. }
  destruct o; simpl; rewrite <- ?E, <- ?En.
  - intros [H1 H2]. auto.
  - intros [H1 H2]. auto.
  - destruct (f k); intros [H1 H2]; auto.
  - intros [H1 H2]. auto.
  - intros [H1 H2]. auto.
  - intros [(l & H1 & H2) H]. split; [|auto]. exists l. auto.
  - intros [(b & -> & Hb) H]. split; [|auto]. exists b. split; [reflexivity|]. rewrite Hb.
    split; intros G k; [rewrite <- E|rewrite E]; auto.
  - auto.
  - auto.
  - intros [H1 H2]. auto.
  - intros [H1 H2]. split; [exact H1|]. intros k. rewrite <- E. auto.
  - intros [H1 H2]. auto.
  - destruct (f k); intros [H1 H2]; auto.
  - destruct (f k); [|destruct (f0 k)]; intros [H1 H2]; auto.
  - destruct (f k); intros [H1 H2]; auto.
  - intros [H1 H2]. auto.
  - intros [H1 H2]. auto.
Qed.

Lemma spec_all_listed_ext {K V} (ks : list K) ops (f g h : fmap K V) xs : (forall k, f k = g k) ->
  spec_all_listed ks f ops xs h -> spec_all_listed ks g ops xs h.
Proof.
  intros E. destruct ops as [|o ops], xs as [|x xs]; simpl; auto.
  - intros H k. rewrite <- E. auto.
  - intros (f1 & H1 & H2). exists f1. split; [|exact H2]. exact (spec_listed_ext ks f g f1 o x E H1).
Qed.

Lemma full_history t ki V : derive t = Some ki -> hash_free t = true -> forall w ops,
  exists xs st n0,
    (forall n, n0 <= n -> run_ops (ki_map ki V) n (map_new (ki_map ki V) w) ops = Ok (xs, st)) /\
    spec_all_listed (all_keys t) (fun _ => None) ops xs (map_get (ki_map ki V) st).
Proof.
  intros D F w ops.
  destruct (run_ops_listed t ki V D F ops (map_new (ki_map ki V) w)
              (proj1 (ml_empty _ _ (derive_map_laws t ki V D) w))) as (xs & st & n0 & R & S).
  exists xs, st, n0. split; [exact R|].
  exact (spec_all_listed_ext _ _ _ _ _ _ (empty_get t ki V D w) S).
Qed.

Lemma run_sop_listed t ki (D : derive t = Some ki) (F : hash_free t = true)
  (st : ss_St (ki_set ki)) o : let L := derive_set_laws t ki D in
  sc_inv (sl_core L) st ->
  exists x st' n0, (forall n, n0 <= n -> run_sop (ki_set ki) n st o = (x, st')) /\
    sc_inv (sl_core L) st' /\
    spec_listed_set (all_keys t) (leaf_of t) (sibling t) (one_bitset t)
      (set_contains (ki_set ki) st) o x (set_contains (ki_set ki) st').
Proof.
  intros L H. pose proof (proj1 all_ok t F) as (_ & A & _).
  assert (E : sc_abs (sl_core L) st = filter (set_contains (ki_set ki) st) (all_keys t)).
  { apply (elements_unique t F); [apply s_elements; auto|].
    apply (sorted_by_ext _ _ _ (fun a b => proj2 (proj1 spec_before t a b))).
    apply strongly_sorted_by. exact (sc_sorted _ _ (sl_core L) st H). }
  assert (E2 : sc_vis (sl_core L) st =
    filter (fun k => set_contains (ki_set ki) st k || match leaf_of t k with LUnit => true | _ => false end)
      (all_keys t)).
  { apply (elements_unique t F).
    - split; [exact (sc_vis_nodup _ _ (sl_core L) st H)|]. intros k.
      rewrite (sc_vis_in _ _ (sl_core L) st k H), orb_true_iff, (s_contains_in L st k H).
      rewrite (proj1 spec_leaf). destruct (leaf_of t k); intuition discriminate.
    - apply (sorted_by_ext _ _ _ (fun a b => proj2 (proj1 spec_before t a b))).
      apply strongly_sorted_by. exact (sc_vis_sorted _ _ (sl_core L) st H). }
  destruct (run_sop_ok L o st H) as (x & st' & n0 & R & I & _ & S & _).
  exists x, st', n0. split; [exact R|]. split; [exact I|].
  assert (S' : spec_exact (leaf_of t) (sibling t) (set_contains (ki_set ki) st) o x (set_contains (ki_set ki) st')).
  { revert S. apply spec_exact_leaf; [exact (proj1 spec_leaf t)|exact (proj1 spec_sib t)]. }
  destruct o; try exact S'.
  - destruct (sc_retain _ _ (sl_core L) _ (slogged f) [] st H) as (log & st1 & at_ & E1 & H1 & G).
    specialize (R n0 (le_n _)). simpl in R. unfold set_retain in R. simpl in E1. rewrite E1 in R.
    injection R as <- <-. exists log, (sc_abs (sl_core L) st1), at_. rewrite <- E2.
    split; [|split; [reflexivity|apply s_elements; auto]].
    rewrite <- (undo_late _ _ _ _ (derive_late t ki D)). exact G.
  - split; [|apply S']. destruct (s_iter L st H) as [n1 Y].
    specialize (R (n0 + n1) ltac:(lia)). simpl in R. rewrite Y in R by lia. injection R as <- _.
    rewrite E. reflexivity.
Qed.

Lemma spec_listed_set_ext {T} (ks : list T) lf sb la (p p' : T -> bool) o x q : same_set p p' ->
  spec_listed_set ks lf sb la p o x q -> spec_listed_set ks lf sb la p' o x q.
Proof.
  intros E. assert (Ks : same_set p q -> same_set p' q) by (intros H k; rewrite <- E; auto).
  destruct o; try exact (spec_exact_ext lf sb p p' _ x q E).
  - intros (log & l' & oc & G & -> & C). exists log, l', oc. split; [|split; [reflexivity|exact C]].
    rewrite <- G. rewrite (undo_has _ _ _ _ (fun k => eq_sym (E k))). f_equal. apply filter_ext.
    intros k. rewrite E. reflexivity.
  - intros [-> H]. split; [|auto]. f_equal. apply filter_ext. intros k. apply E.
Qed.

Lemma run_sops_listed t ki (D : derive t = Some ki) (F : hash_free t = true) ops :
  let L := derive_set_laws t ki D in forall st, sc_inv (sl_core L) st ->
  exists xs st' n0, (forall n, n0 <= n -> run_sops (ki_set ki) n st ops = (xs, st')) /\
    spec_all (spec_listed_set (all_keys t) (leaf_of t) (sibling t) (one_bitset t))
      (set_contains (ki_set ki) st) ops xs (set_contains (ki_set ki) st').
Proof.
  intros L. induction ops as [|o ops IH]; intros st H.
  - exists [], st, 0. split; [reflexivity|]. intros k. reflexivity.
  - destruct (run_sop_listed t ki D F st o H) as (x & st1 & n1 & R1 & H1 & S1).
    destruct (IH st1 H1) as (xs & st2 & n2 & R2 & S2).
    exists (x :: xs), st2, (n1 + n2). split.
    + intros n Hn. simpl. rewrite R1 by lia. rewrite R2 by lia. reflexivity.
    + exists (set_contains (ki_set ki) st1). auto.
Qed.

Lemma full_set_history t ki : derive t = Some ki -> hash_free t = true -> forall w ops,
  exists xs st n0,
    (forall n, n0 <= n -> run_sops (ki_set ki) n (set_new (ki_set ki) w) ops = (xs, st)) /\
    spec_all (spec_listed_set (all_keys t) (leaf_of t) (sibling t) (one_bitset t))
      (fun _ => false) ops xs (set_contains (ki_set ki) st).
Proof.
  intros D F w ops. pose (L := derive_set_laws t ki D).
  destruct (run_sops_listed t ki D F ops (set_new (ki_set ki) w)
              (s_reach_inv L _ (sr_new _ w))) as (xs & st & n0 & R & S).
  exists xs, st, n0. split; [exact R|]. revert S. apply spec_all_ext.
  - intros p p' o x q. apply spec_listed_set_ext.
  - intros k. destruct (s_c14 L (set_new (ki_set ki) w) (or_introl (ex_intro _ w eq_refl))) as (H1 & H2 & _).
    auto.
Qed.
