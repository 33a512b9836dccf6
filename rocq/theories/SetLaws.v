(** Laws of a whole set storage, and their proof for the storages of
    src/set/storage/ and the array storage of unit enums. *)
Require Import List Arith NArith ZArith Bool Lia Permutation Sorted.
Import ListNotations.
From Verif Require Import Std Traits Hashbrown MapStorages SetStorages DeriveUnit
  DeriveAny Spec IterLaws MapCore MapLaws OptLaws HashLaws UnitLaws SetCore.

Record SetLaws {T} (sp : KeySpec T) (m : SetStorage T) : Type := MkSetLaws {
  sl_core : SCore sp (sops_of m);
  sl_Iter : it_laws (ss_Iter m);
  sl_IntoIter : it_laws (ss_IntoIter m);
  sl_empty : forall w, sc_inv sl_core (ss_empty m w) /\ sc_abs sl_core (ss_empty m w) = [];
  sl_iter : forall st, sc_inv sl_core st ->
    il_ok sl_Iter (ss_iter m st) /\ il_rem sl_Iter (ss_iter m st) = sc_abs sl_core st;
  sl_into_iter : forall st, sc_inv sl_core st ->
    il_ok sl_IntoIter (ss_into_iter m st) /\
    il_rem sl_IntoIter (ss_into_iter m st) = sc_abs sl_core st
}.
Arguments sl_core {T sp m}.
Arguments sl_Iter {T sp m}.
Arguments sl_IntoIter {T sp m}.

(** * Singleton *)

Definition single_score : SCore unit_spec (sops_of single_set_storage).
Proof.
  refine {| sc_inv := (fun _ => True) : ss_St single_set_storage -> Prop;
            sc_abs := (fun st => flag_abs (st_is_set st)) : ss_St single_set_storage -> _;
            sc_vis := (fun _ => [tt]) : ss_St single_set_storage -> _;
            sc_late := fun _ _ => false |}.
  - discriminate.
  - intros [] []; split; reflexivity.
  - intros [[]] _; simpl; repeat constructor; auto.
  - intros [[]] _; simpl; repeat constructor.
  - intros [[]] _; simpl; repeat constructor; auto.
  - intros [[]] _; simpl; repeat constructor.
  - intros st [] _. simpl. intuition.
  - intros [[]] _; reflexivity.
  - intros [[]] _; reflexivity.
  - intros [[]] [] _; simpl; intuition discriminate.
  - intros [[]] _; simpl; split; intros H; try discriminate; auto.
    + specialize (H tt). destruct H as [H _]. discriminate (H eq_refl).
    + intros k; split; discriminate.
  - intros [b] [] _. exists (MkSingleSet true). simpl. split; [reflexivity|].
    split; [exact I|]. destruct b; simpl; auto.
  - intros [b] [] _. exists (MkSingleSet false). simpl. rewrite orb_false_r.
    split; [reflexivity|]. split; [exact I|]. destruct b; reflexivity.
  - intros X f x [b] _; simpl. unfold sst_retain. destruct (f x tt) as [x1 []];
      [exists x1, (MkSingleSet true), None|exists x1, (MkSingleSet false), None
      |exists x1, (MkSingleSet b), (Some tt)|exists x1, (MkSingleSet false), None];
      repeat split.
  - intros st _. simpl. auto.
  - reflexivity.
  - intros [a] [b] _ _. simpl. rewrite Bool.eqb_true_iff. split; auto.
    intros H. exact (H tt).
Defined.

Definition single_slaws : SetLaws unit_spec single_set_storage.
Proof.
  refine {| sl_core := single_score;
            sl_Iter := opt_laws _ : it_laws (ss_Iter single_set_storage);
            sl_IntoIter := opt_laws _ : it_laws (ss_IntoIter single_set_storage) |}.
  - intros w. split; [exact I|reflexivity].
  - intros [[]] _; split; reflexivity.
  - intros [[]] _; split; reflexivity.
Defined.

(** * bool *)

Lemma bits_inv_cases (P : bool_set -> Prop) :
  P (MkBoolSet 0) -> P (MkBoolSet 1) -> P (MkBoolSet 2) -> P (MkBoolSet 3) ->
  forall st, (bs_bits st < 4)%N -> P st.
Proof.
  intros H0 H1 H2 H3 [b] H. simpl in H. apply bits_cases in H as [->|[->|[->| ->]]]; auto.
Qed.

Definition bool_score : SCore bool_spec (sops_of bool_set_storage).
Proof.
  refine {| sc_inv := (fun st => (bs_bits st < 4)%N) : ss_St bool_set_storage -> Prop;
            sc_abs := (fun st => bits_rem (bs_bits st)) : ss_St bool_set_storage -> _;
            sc_vis := (fun st => bits_rem (bs_bits st)) : ss_St bool_set_storage -> _;
            sc_late := fun _ _ => false |}.
  - discriminate.
  - intros [] []; simpl; intuition congruence.
  - apply bits_inv_cases; cbv; repeat constructor; simpl; intuition congruence.
  - apply bits_inv_cases; cbv; repeat constructor; simpl; intuition congruence.
  - apply bits_inv_cases; cbv; repeat constructor; simpl; intuition congruence.
  - apply bits_inv_cases; cbv; repeat constructor; simpl; intuition congruence.
  - intros st k Hi. simpl. intuition discriminate.
  - apply bits_inv_cases; reflexivity.
  - apply bits_inv_cases; reflexivity.
  - intros st k Hi. revert st Hi k.
    apply (bits_inv_cases (fun st => forall k, p_contains (sops_of bool_set_storage) st k = true
             <-> In k (bits_rem (bs_bits st)))); intros []; cbv; intuition discriminate.
  - apply bits_inv_cases; simpl; (split; [intros H; try discriminate; intros []; cbv; intuition discriminate|]);
      intros H; try reflexivity; pose proof (H true) as H1; pose proof (H false) as H2;
      cbv in H1, H2; intuition discriminate.
  - intros st k Hi. revert st Hi k.
    apply (bits_inv_cases (fun st => forall k, exists st', p_insert (sops_of bool_set_storage) st k = _ /\ _));
      intros []; eexists; (split; [reflexivity|]); (split; [reflexivity|]); cbv;
      repeat constructor.
  - intros st k Hi. revert st Hi k.
    apply (bits_inv_cases (fun st => forall k, exists st', p_remove (sops_of bool_set_storage) st k = _ /\ _));
      intros []; eexists; (split; [reflexivity|]); (split; [reflexivity|]); reflexivity.
  - intros X f x st Hi. revert st Hi.
    apply (bits_inv_cases (fun st => exists x' st' w, p_retain (sops_of bool_set_storage) f x st = (x', st', ends_at w) /\ _));
      simpl; unfold bs_retain, bs_retain_one; simpl;
      try destruct (f x true) as [x1 []]; simpl;
      try destruct (f x false) as [x2 []]; simpl;
      try destruct (f x1 false) as [x3 []]; simpl;
      do 2 eexists;
      first [exists None; split; [reflexivity|]; split; reflexivity
            |exists (Some true); split; [reflexivity|]; split; reflexivity
            |exists (Some false); split; [reflexivity|]; split; reflexivity].
  - intros st _. split; reflexivity.
  - reflexivity.
  - intros a b Ha Hb. revert a Ha. apply (bits_inv_cases (fun a => _ <-> _));
      revert b Hb; apply bits_inv_cases; simpl; split; intros H; try discriminate; auto;
      try (intros []; reflexivity);
      pose proof (H true) as H1; pose proof (H false) as H2; discriminate.
Defined.

Definition bool_slaws : SetLaws bool_spec bool_set_storage.
Proof.
  refine {| sl_core := bool_score;
            sl_Iter := bits_laws : it_laws (ss_Iter bool_set_storage);
            sl_IntoIter := bits_laws : it_laws (ss_IntoIter bool_set_storage) |}.
  - intros w. split; reflexivity.
  - intros st Hi; split; [exact Hi|reflexivity].
  - intros st Hi; split; [exact Hi|reflexivity].
Defined.

(** * Option *)

Section Option.
  Context {T : Type} (sp : KeySpec T) (m : SetStorage T) (L : SetLaws sp m).

  Definition sopt_to (k : option T) : T + unit :=
    match k with Some x => inl x | None => inr tt end.
  Definition sopt_of (k : T + unit) : option T :=
    match k with inl x => Some x | inr _ => None end.

  Lemma opt_ssim :
    ssim (sa := sum_spec sp (flag_spec LNone)) (a := sum_sops (sops_of m) (flag_sops LNone))
         (sops_of (opt_set_storage m)) (opt_spec sp)
         (fun st => (os_some m st, os_none m st)) sopt_to sopt_of.
  Proof.
    constructor.
    - intros [? ?] [? ?]; simpl; congruence.
    - intros []; reflexivity.
    - intros [k|[]]; reflexivity.
    - intros [] []; reflexivity.
    - intros [] []; simpl; auto.
    - intros []; reflexivity.
    - intros [k|]; simpl; [|reflexivity]. destruct (ks_sib sp k); reflexivity.
    - intros [s n]. reflexivity.
    - intros [s n]. reflexivity.
    - intros [s n] [k|]; simpl; [|reflexivity]. destruct (ss_insert m s k); reflexivity.
    - intros [s n] []; reflexivity.
    - intros [s n] [k|]; simpl; [|reflexivity]. destruct (ss_remove m s k); reflexivity.
    - intros X g x [s n]. simpl. unfold os_retain. simpl.
      destruct (ss_retain m (fun s k => g s (Some k)) x s) as [[x1 s1] []]; simpl; auto.
      destruct n; simpl; auto. destruct (g x1 None) as [? []]; reflexivity.
    - reflexivity.
    - reflexivity.
    - intros [a b] [a' b']. simpl. apply andb_comm.
  Qed.

  Definition opt_slaws : SetLaws (opt_spec sp) (opt_set_storage m).
  Proof.
    refine {| sl_core := sim_score (sum_score (sl_core L) (flag_core LNone (or_intror eq_refl)))
                           _ _ _ _ _ opt_ssim;
              sl_Iter := chain_laws _ _ (map_laws _ _ (sl_Iter L)) (opt_laws _)
                : it_laws (ss_Iter (opt_set_storage m));
              sl_IntoIter := chain_laws _ _ (map_laws _ _ (sl_IntoIter L)) (opt_laws _)
                : it_laws (ss_IntoIter (opt_set_storage m)) |}.
    - intros w. destruct (sl_empty _ _ L (sub_world 0 w)) as [H1 H2]. simpl. rewrite H2. auto.
    - intros [s n] [Hi _]. simpl in Hi. destruct (sl_iter _ _ L s Hi) as [H1 H2].
      split; [split; [exact H1|exact I]|]. simpl. rewrite H2.
      unfold sum_list. rewrite map_app, !map_map. f_equal. destruct n; reflexivity.
    - intros [s n] [Hi _]. simpl in Hi. destruct (sl_into_iter _ _ L s Hi) as [H1 H2].
      split; [split; [exact H1|exact I]|]. simpl. rewrite H2.
      unfold sum_list. rewrite map_app, !map_map. f_equal. destruct n; reflexivity.
  Defined.
End Option.

(** * Hash tables *)

Section Hash.
  Context {T : Type} (eqb : T -> T -> bool).
  Hypothesis Heq : forall a b, eqb a b = true <-> a = b.

  Lemma retain_list_elems {X} (f : set_retain_fn X T) l : forall x,
    retain_elems f x (map fst l) =
    (let '(x', l', o) := retain_list (hs_fn f) x l in (x', map fst (l' : list (T * unit)), o)).
  Proof.
    induction l as [|[k []] l IH]; intros x; simpl; auto. unfold hs_fn at 1.
    destruct (f x k) as [x1 []]; auto. rewrite IH.
    destruct (retain_list (hs_fn f) x1 l) as [[? ?] ?]; reflexivity.
  Qed.

  Lemma retain_list_undo {X} (f : set_retain_fn X T) has l : forall x x' (l' : list (T * unit)) o,
    retain_list (hs_fn f) x l = (x', l', o) -> (forall k, In k (map fst l) -> has k = true) ->
    exists w, o = ends_at w /\ retain_undo f (fun _ _ => false) has x (map fst l) = (x', map fst l', w).
  Proof.
    induction l as [|[k []] l IH]; intros x x' l' o; cbn [retain_list map fst retain_undo].
    - intros [= <- <- <-] _. exists None. auto.
    - unfold hs_fn at 1. destruct (f x k) as [x1 []]; intros E Hh.
      + destruct (retain_list (hs_fn f) x1 l) as [[x2 l2] o2] eqn:E2. injection E as <- <- <-.
        destruct (IH _ _ _ _ E2) as (w & -> & ->); [simpl in Hh; auto|]. exists w. auto.
      + destruct (IH _ _ _ _ E) as (w & -> & ->); [simpl in Hh; auto|]. exists w. destruct w; auto.
      + injection E as <- <- <-. exists (Some k). split; [reflexivity|]. f_equal. f_equal.
        change (k :: map fst l) with (map fst ((k, tt) :: l)) in *. apply filter_all. exact Hh.
      + destruct (IH _ _ _ _ E) as (w & -> & ->); [simpl in Hh; auto|]. exists w. destruct w; auto.
  Qed.

  Lemma h_get_some_in k (l : list (T * unit)) : is_some (h_get eqb k l) = true <-> In k (map fst l).
  Proof.
    pose proof (h_get_none eqb Heq k l) as H. destruct (h_get eqb k l) eqn:E; simpl.
    - split; auto. intros _. eapply h_get_in; eauto.
    - split; [discriminate|]. intros Hin. destruct (proj1 H eq_refl Hin).
  Qed.

  Definition hash_score : SCore (hash_spec eqb) (sops_of (hash_set_storage eqb)).
  Proof.
    refine {| sc_inv := (fun t => NoDup (map fst (ht_entries t)))
                : ss_St (hash_set_storage eqb) -> Prop;
              sc_abs := (fun t => map fst (ht_entries t)) : ss_St (hash_set_storage eqb) -> _;
              sc_vis := (fun t => map fst (ht_entries t)) : ss_St (hash_set_storage eqb) -> _;
              sc_late := fun _ _ => false |}.
    - discriminate.
    - exact Heq.
    - auto.
    - intros t _. apply unsorted.
    - auto.
    - intros t _. apply unsorted.
    - intros t k _. split; auto. intros [H|H]; [auto|discriminate].
    - intros t Hi. apply filter_all. intros k Hk. apply h_get_some_in. exact Hk.
    - intros t Hi. simpl. rewrite map_length. reflexivity.
    - intros t k Hi. apply h_get_some_in.
    - intros t Hi. simpl. destruct (ht_entries t) as [|[k v] l]; simpl.
      + split; auto. intros _ k. split; discriminate.
      + split; [discriminate|]. intros H. specialize (H k).
        rewrite (proj2 (Heq k k) eq_refl) in H. destruct H as [H _]. discriminate (H eq_refl).
    - intros t k Hi. simpl in *. unfold h_insert.
      destruct (h_get eqb k (ht_entries t)) as [[]|] eqn:E; eexists; (split; [reflexivity|]); simpl.
      + assert (Hr : h_replace eqb k tt (ht_entries t) = ht_entries t).
        { clear. induction (ht_entries t) as [|[k' []] l IH]; simpl; auto.
          rewrite IH. destruct (eqb k k'); reflexivity. }
        rewrite Hr. auto.
      + pose proof (permute_perm (ht_orders t 0) ((k, tt) :: ht_entries t)) as Hp.
        apply (h_get_none eqb Heq) in E.
        apply (Permutation_map fst) in Hp. split; [|exact Hp].
        eapply Permutation_NoDup; [symmetry; exact Hp|]. constructor; auto.
    - intros t k Hi. simpl in *. rewrite orb_false_r. eexists; split; [reflexivity|]. simpl.
      rewrite (h_delete_del eqb Heq) by auto. split; [apply NoDup_del; auto|].
      unfold del. rewrite filter_map_comm. reflexivity.
    - intros X f x t Hi. simpl in *. unfold h_retain. rewrite h_retain_spec.
      destruct (retain_list (hs_fn f) x (ht_entries t)) as [[x' l'] o] eqn:E.
      destruct (retain_list_keys _ _ _ _ _ _ E) as [H1 H2].
      destruct (retain_list_undo f (fun k => is_some (h_get eqb k (ht_entries t))) (ht_entries t) x x' l' o E) as (w & -> & U).
      { intros k Hk. apply h_get_some_in. exact Hk. }
      exists x', (MkTable (ht_orders t) l'), w. auto.
    - intros t Hi. split; [constructor|reflexivity].
    - reflexivity.
    - intros a b Ha Hb. simpl. rewrite (h_eq_spec eqb Heq) by auto. split.
      + intros H k. specialize (H k).
        destruct (h_get eqb k (ht_entries a)), (h_get eqb k (ht_entries b)); simpl in *; auto;
          discriminate.
      + intros H k. specialize (H k).
        destruct (h_get eqb k (ht_entries a)), (h_get eqb k (ht_entries b)); simpl in *; auto;
          discriminate.
  Defined.

  Definition hash_slaws : SetLaws (hash_spec eqb) (hash_set_storage eqb).
  Proof.
    refine {| sl_core := hash_score;
              sl_Iter := hash_laws _ : it_laws (ss_Iter (hash_set_storage eqb));
              sl_IntoIter := hash_laws _ : it_laws (ss_IntoIter (hash_set_storage eqb)) |}.
    - intros w. split; [constructor|reflexivity].
    - intros t Hi. split; [exact I|reflexivity].
    - intros t Hi. split; [exact I|reflexivity].
  Defined.
End Hash.

(** * Arrays of unit enums *)

Lemma fold_len_flags l n :
  fold_left (fun n b => n + usize_from b) l n =
  n + fold_left (fun n b => n + usize_from b) l 0.
Proof.
  revert n; induction l as [|o l IH]; intros n; simpl; [lia|].
  rewrite IH, (IH (usize_from o)). lia.
Qed.

Lemma fold_empty_flags l b :
  fold_left (fun b x => b && negb x) l b =
  b && fold_left (fun b x => b && negb x) l true.
Proof.
  revert b; induction l as [|o l IH]; intros b; simpl; [rewrite andb_true_r; auto|].
  rewrite IH, (IH (negb o)). rewrite andb_assoc. reflexivity.
Qed.

Lemma arr_retain_flags_inj {S R} (u : units R) : forall K (f : set_retain_fn S K) inj s a,
  arr_retain_flags f u inj s a = arr_retain_flags (fun s k => f s (inj k)) u (fun k => k) s a.
Proof.
  induction u as [|R u IH]; intros K f inj s a; simpl; auto.
  unfold retain_flag. destruct (fst a); simpl.
  - destruct (f s (inj (inl tt))) as [s1 []]; auto;
      rewrite (IH _ f), (IH _ (fun s k => f s (inj k))); reflexivity.
  - rewrite (IH _ f), (IH _ (fun s k => f s (inj k))); reflexivity.
Qed.

Definition us_split {R} {u : units R} (st : unit_set (UCons u)) : bool * unit_set u :=
  (fst (us_data _ st), MkUnitSet u (snd (us_data _ st))).

Lemma unit_nil_ssim :
  ssim (sa := nil_spec) (a := nil_sops (unit_set UNil))
       (sops_of (unit_set_storage UNil)) nil_spec (fun st => st) (fun k => k) (fun k => k).
Proof.
  constructor; try (intros; simpl; auto; fail); try (intros st []; fail); try (intros []; fail).
  - intros X f x [[]]. reflexivity.
  - intros [[]]. reflexivity.
Qed.

Lemma unit_cons_ssim {R} (u : units R) :
  ssim (sa := sum_spec (flag_spec LVariant) (units_spec u))
       (a := sum_sops (flag_sops LVariant) (sops_of (unit_set_storage u)))
       (sops_of (unit_set_storage (UCons u))) (units_spec (UCons u))
       us_split (fun k => k) (fun k => k).
Proof.
  constructor; try (intros; simpl; auto; fail).
  - intros [[a r]] [[b s]]. unfold us_split. simpl. congruence.
  - intros k. destruct k as [k|k]; simpl; auto. destruct (ks_sib (units_spec u) k); reflexivity.
  - intros [[a r]]. simpl. rewrite fold_len_flags. reflexivity.
  - intros [[a r]]. simpl. rewrite fold_empty_flags. reflexivity.
  - intros [[a r]] [[]|k]; reflexivity.
  - intros [[a r]] [[]|k]; reflexivity.
  - intros X f x [[a r]]. simpl. unfold us_retain. simpl. unfold retain_flag. destruct a; simpl.
    + destruct (f x (inl tt)) as [x1 []]; auto.
      * rewrite arr_retain_flags_inj.
        destruct (arr_retain_flags _ u _ x1 r) as [[? ?] ?]; reflexivity.
      * rewrite arr_retain_flags_inj.
        destruct (arr_retain_flags _ u _ x1 r) as [[? ?] ?]; reflexivity.
      * rewrite arr_retain_flags_inj.
        destruct (arr_retain_flags _ u _ x1 r) as [[? ?] ?]; reflexivity.
    + rewrite arr_retain_flags_inj.
      destruct (arr_retain_flags _ u _ x r) as [[? ?] ?]; reflexivity.
Qed.

Fixpoint unit_score {R} (u : units R) : SCore (units_spec u) (sops_of (unit_set_storage u)) :=
  match u in units R return SCore (units_spec u) (sops_of (unit_set_storage u)) with
  | UNil => sim_score (nil_score _) _ _ _ _ _ unit_nil_ssim
  | UCons u' => sim_score (sum_score (flag_core LVariant (or_introl eq_refl)) (unit_score u'))
                  _ _ _ _ _ (unit_cons_ssim u')
  end.

Lemma unit_sinv {R} (u : units R) st : sc_inv (unit_score u) st.
Proof. induction u; simpl; auto. Qed.

Lemma unit_abs {R} (u : units R) st :
  sc_abs (unit_score u) st = filter (arr_get u (us_data u st)) (variants_of u).
Proof.
  induction u as [|R u IH].
  - reflexivity.
  - destruct st as [[a r]]. simpl. unfold sum_list. rewrite map_id, IH, filter_map_comm.
    destruct a; reflexivity.
Qed.

Definition unit_slaws {R} (u : units R) : SetLaws (units_spec u) (unit_set_storage u).
Proof.
  assert (Hit : forall st, flatten_rem (us_iter u st) = sc_abs (unit_score u) st).
  { intros st. unfold us_iter. rewrite flatten_of_rem, unit_abs.
    apply filter_cat. reflexivity. }
  refine {| sl_core := unit_score u;
            sl_Iter := flatten_laws _ : it_laws (ss_Iter (unit_set_storage u));
            sl_IntoIter := flatten_laws _ : it_laws (ss_IntoIter (unit_set_storage u)) |}.
  - intros w. split; [apply unit_sinv|]. rewrite unit_abs. simpl.
    assert (E : forall k, arr_get u (arr_init u false) k = false).
    { clear. induction u; simpl; [intros []|]. intros [|k]; auto. }
    induction (variants_of u) as [|k l IH]; simpl; auto. rewrite E. auto.
  - intros st _. split; [exact I|apply Hit].
  - intros st _. split; [exact I|apply Hit].
Defined.
