(** Laws of the set storage generated for enums with tuple variants. *)
Require Import List Arith NArith ZArith Bool Lia Permutation Sorted.
Import ListNotations.
From Verif Require Import Std Traits SetStorages DeriveUnit
  DeriveAny Spec IterLaws MapCore MapLaws UnitLaws AnyLaws SetCore SetLaws.

Lemma anys_len_acc {R} (fs : fields R) n st :
  anys_len_from fs n st = n + anys_len_from fs 0 st.
Proof.
  revert n; induction fs; intros n; simpl.
  - lia.
  - rewrite IHfs, (IHfs _ (usize_from _)). lia.
  - rewrite IHfs, (IHfs _ (ss_len _ _)). lia.
Qed.

Lemma anys_is_empty_acc {R} (fs : fields R) b st :
  anys_is_empty_from fs b st = b && anys_is_empty_from fs true st.
Proof.
  revert b; induction fs; intros b; simpl.
  - rewrite andb_true_r. reflexivity.
  - rewrite IHfs, (IHfs _ (negb _)), andb_assoc. reflexivity.
  - rewrite IHfs, (IHfs _ (ss_is_empty _ _)), andb_assoc. reflexivity.
Qed.

Lemma anys_retain_inj {S R} (fs : fields R) : forall T (f : set_retain_fn S T) inj s st,
  anys_retain f fs inj s st = anys_retain (fun s k => f s (inj k)) fs (fun k => k) s st.
Proof.
  induction fs as [|R fs IH|K R ki fs IH]; intros T f inj s st; simpl; auto.
  - unfold retain_flag. destruct (fst st); simpl.
    + destruct (f s (inj (inl tt))) as [s1 []]; auto;
        rewrite (IH _ f), (IH _ (fun s k => f s (inj k))); reflexivity.
    + rewrite (IH _ f), (IH _ (fun s k => f s (inj k))); reflexivity.
  - destruct (ss_retain (ki_set ki) _ s (fst st)) as [[s1 o1] []]; auto.
    rewrite (IH _ f), (IH _ (fun s k => f s (inj k))); reflexivity.
Qed.

Section Any.
  Context {P : forall K, KeyImpl K -> Type} (pspec : forall K ki, P K ki -> KeySpec K)
          (pset : forall K ki (p : P K ki), SetLaws (pspec K ki p) (ki_set ki)).

  Local Notation spec := (fspec pspec).
  Local Notation core p := (sl_core (pset _ _ p)).

  Lemma any_nil_ssim :
    ssim (sa := nil_spec) (a := nil_sops unit)
         (sops_of (any_set_storage FNil)) nil_spec (fun st => st) (fun k => k) (fun k => k).
  Proof.
    constructor; try (intros; simpl; auto; fail); try (intros st []; fail);
      try (intros []; fail).
  Qed.

  Lemma any_unit_ssim {R} (fs : fields R) (L : flaws P fs) :
    ssim (sa := sum_spec (flag_spec LVariant) (spec fs L))
         (a := sum_sops (flag_sops LVariant) (sops_of (any_set_storage fs)))
         (sops_of (any_set_storage (FUnit fs))) (spec (FUnit fs) L)
         (fun st => st) (fun k => k) (fun k => k).
  Proof.
    constructor; try (intros; simpl; auto; fail).
    - intros [k|k]; simpl; auto. destruct (ks_sib (spec fs L) k); reflexivity.
    - intros [a r]. simpl. rewrite anys_len_acc. reflexivity.
    - intros [a r]. simpl. rewrite anys_is_empty_acc. reflexivity.
    - intros [a r] [[]|k]; simpl; auto. destruct (anys_insert fs r k); reflexivity.
    - intros [a r] [[]|k]; simpl; auto. destruct (anys_remove fs r k); reflexivity.
    - intros X f x [[] r]; simpl.
      + destruct (f x (inl tt)) as [x1 []]; auto;
          rewrite anys_retain_inj; destruct (anys_retain _ fs _ x1 r) as [[? ?] ?]; reflexivity.
      + rewrite anys_retain_inj; destruct (anys_retain _ fs _ x r) as [[? ?] ?]; reflexivity.
    - intros [a r] [b s]. simpl. destruct (Bool.eqb a b); reflexivity.
  Qed.

  Lemma any_tuple_ssim {K R} (ki : KeyImpl K) (fs : fields R) (L : flaws P (FTuple ki fs)) :
    ssim (sa := sum_spec (pspec _ ki (fst L)) (spec fs (snd L)))
         (a := sum_sops (sops_of (ki_set ki)) (sops_of (any_set_storage fs)))
         (sops_of (any_set_storage (FTuple ki fs))) (spec (FTuple ki fs) L)
         (fun st => st) (fun k => k) (fun k => k).
  Proof.
    constructor; try (intros; simpl; auto; fail).
    - intros k. simpl. destruct k as [k|k].
      + destruct (ks_sib (pspec _ ki (fst L)) k); reflexivity.
      + destruct (ks_sib (spec fs (snd L)) k); reflexivity.
    - intros [a r]. simpl. rewrite anys_len_acc. reflexivity.
    - intros [a r]. simpl. rewrite anys_is_empty_acc. reflexivity.
    - intros [a r] [k|k]; simpl.
      + destruct (ss_insert (ki_set ki) a k); reflexivity.
      + destruct (anys_insert fs r k); reflexivity.
    - intros [a r] [k|k]; simpl.
      + destruct (ss_remove (ki_set ki) a k); reflexivity.
      + destruct (anys_remove fs r k); reflexivity.
    - intros X f x [a r]; simpl.
      destruct (ss_retain (ki_set ki) _ x a) as [[x1 a1] []]; auto.
      rewrite anys_retain_inj; destruct (anys_retain _ fs _ x1 r) as [[? ?] ?]; reflexivity.
    - intros [a r] [b s]. simpl. destruct (ss_eq (ki_set ki) a b); reflexivity.
  Qed.

  Fixpoint any_score {R} (fs : fields R)
    : forall L : flaws P fs, SCore (spec fs L) (sops_of (any_set_storage fs)) :=
    match fs in fields R
      return forall L : flaws P fs, SCore (spec fs L) (sops_of (any_set_storage fs)) with
    | FNil => fun _ => sim_score (nil_score _) _ _ _ _ _ any_nil_ssim
    | FUnit fs' => fun L =>
        sim_score (sum_score (flag_core LVariant (or_introl eq_refl)) (any_score fs' L))
                  _ _ _ _ _ (any_unit_ssim fs' L)
    | FTuple ki fs' => fun L =>
        sim_score (sum_score (core (fst L)) (any_score fs' (snd L)))
                  _ _ _ _ _ (any_tuple_ssim ki fs' L)
    end.

  Lemma any_abs_unit {R} (fs : fields R) L st :
    sc_abs (any_score (FUnit fs) L) st =
    sum_list (flag_abs (fst st)) (sc_abs (any_score fs L) (snd st)).
  Proof. simpl. apply map_id. Qed.

  Lemma any_abs_tuple {K R} (ki : KeyImpl K) (fs : fields R) L st :
    sc_abs (any_score (FTuple ki fs) L) st =
    sum_list (sc_abs (core (fst L)) (fst st)) (sc_abs (any_score fs (snd L)) (snd st)).
  Proof. simpl. apply map_id. Qed.

  Lemma any_sinv_unit {R} (fs : fields R) L st :
    sc_inv (any_score (FUnit fs) L) st <-> sc_inv (any_score fs L) (snd st).
  Proof. simpl. tauto. Qed.

  Lemma any_sinv_tuple {K R} (ki : KeyImpl K) (fs : fields R) L st :
    sc_inv (any_score (FTuple ki fs) L) st <->
    sc_inv (core (fst L)) (fst st) /\ sc_inv (any_score fs (snd L)) (snd st).
  Proof. simpl. tauto. Qed.

  Lemma anys_empty_laws {R} (fs : fields R) L : forall i w,
    sc_inv (any_score fs L) (anys_empty fs i w) /\ sc_abs (any_score fs L) (anys_empty fs i w) = [].
  Proof.
    induction fs as [|R fs IH|K R ki fs IH]; intros i w.
    - split; [exact I|reflexivity].
    - destruct (IH L (S i) w) as [H1 H2]. split.
      + apply any_sinv_unit. exact H1.
      + rewrite any_abs_unit. simpl in *. rewrite H2. reflexivity.
    - destruct (IH (snd L) (S i) w) as [H1 H2].
      destruct (sl_empty _ _ (pset _ _ (fst L)) (sub_world i w)) as [H3 H4]. split.
      + apply any_sinv_tuple. auto.
      + rewrite any_abs_tuple. simpl in *. rewrite H2, H4. reflexivity.
  Qed.

  Section Fields.
    Context {T : Type}
            (complex : nat -> forall K, KeyImpl K -> (K -> T) -> iterator T)
            (cinit : forall i K (ki : KeyImpl K) inj, cx_set K ki -> it_st (complex i K ki inj))
            (Lc : forall i K ki (p : P K ki) inj, it_laws (complex i K ki inj)).
    Hypothesis Hc : forall i K ki (p : P K ki) inj (s : cx_set K ki), sc_inv (core p) s ->
      il_ok (Lc i K ki p inj) (cinit i K ki inj s) /\
      il_rem (Lc i K ki p inj) (cinit i K ki inj s) = map inj (sc_abs (core p) s).

    Definition siter_Ls (i : nat) (t : T) : it_laws (siter_simple i t) := flag_laws t.

    Lemma s_rems {R} (fs : fields R) : forall L i inj st, sc_inv (any_score fs L) st ->
      all_ok _ (f_all_laws _ _ siter_Ls Lc fs i inj L)
        (field_init (Cx := cx_set) siter_simple complex (fun _ _ b => b) cinit i fs inj st) /\
      concat (all_rems _ (f_all_laws _ _ siter_Ls Lc fs i inj L)
                (field_init (Cx := cx_set) siter_simple complex (fun _ _ b => b) cinit i fs inj st)) =
      map inj (sc_abs (any_score fs L) st).
    Proof.
      induction fs as [|R fs IH|K R ki fs IH]; intros L i inj st Hi.
      - split; [exact I|reflexivity].
      - apply any_sinv_unit in Hi. rewrite any_abs_unit. unfold sum_list.
        destruct (IH L (S i) (fun k => inj (inr k)) (snd st) Hi) as [H1 H2].
        split; [split; [exact I|exact H1]|].
        cbn [field_its f_all_laws field_init all_rems concat fst snd].
        rewrite H2, !map_app, !map_map. f_equal. simpl. destruct (fst st); reflexivity.
      - apply any_sinv_tuple in Hi as [Hi1 Hi2]. rewrite any_abs_tuple. unfold sum_list.
        destruct (IH (snd L) (S i) (fun k => inj (inr k)) (snd st) Hi2) as [H1 H2].
        destruct (Hc i _ ki (fst L) (fun k => inj (inl k)) (fst st) Hi1) as [H3 H4].
        split; [split; [exact H3|exact H1]|].
        cbn [field_its f_all_laws field_init all_rems concat fst snd].
        rewrite H2, H4, !map_app, !map_map. reflexivity.
    Qed.
  End Fields.

  Definition siter_Lc {T} (i : nat) K (ki : KeyImpl K) (p : P K ki) (inj : K -> T)
    : it_laws (siter_cx i K ki inj) := map_laws inj _ (sl_Iter (pset _ ki p)).
  Definition sinto_Lc {T} (i : nat) K (ki : KeyImpl K) (p : P K ki) (inj : K -> T)
    : it_laws (sinto_cx i K ki inj) := map_laws inj _ (sl_IntoIter (pset _ ki p)).

  Definition any_slaws {R} (fs : fields R) (L : flaws P fs)
    : SetLaws (spec fs L) (any_set_storage fs).
  Proof.
    refine {| sl_core := any_score fs L;
              sl_Iter := f_struct_laws fs _ _ siter_Ls siter_Lc L
                : it_laws (ss_Iter (any_set_storage fs));
              sl_IntoIter := f_struct_laws fs _ _ siter_Ls sinto_Lc L
                : it_laws (ss_IntoIter (any_set_storage fs)) |}.
    - intros w. apply anys_empty_laws.
    - intros st Hi.
      destruct (s_rems (T := R) siter_cx (fun _ K ki _ s => ss_iter (ki_set ki) s) siter_Lc) with
        (fs := fs) (L := L) (i := 0) (inj := fun k : R => k) (st := st) as [H1 H2]; auto.
      { intros i K ki p inj s Hs. destruct (sl_iter _ _ (pset _ ki p) s Hs) as [H1 H2].
        split; [exact H1|]. simpl. rewrite H2. reflexivity. }
      split.
      + simpl. split; [rewrite field_its_len; auto|exact H1].
      + etransitivity; [apply struct_all; rewrite field_its_len; auto|].
        rewrite map_id in H2. exact H2.
    - intros st Hi.
      destruct (s_rems (T := R) sinto_cx (fun _ K ki _ s => ss_into_iter (ki_set ki) s) sinto_Lc) with
        (fs := fs) (L := L) (i := 0) (inj := fun k : R => k) (st := st) as [H1 H2]; auto.
      { intros i K ki p inj s Hs. destruct (sl_into_iter _ _ (pset _ ki p) s Hs) as [H1 H2].
        split; [exact H1|]. simpl. rewrite H2. reflexivity. }
      split.
      + simpl. split; [rewrite field_its_len; auto|exact H1].
      + etransitivity; [apply struct_all; rewrite field_its_len; auto|].
        rewrite map_id in H2. exact H2.
  Defined.
End Any.
