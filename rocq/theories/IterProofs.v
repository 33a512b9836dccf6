(** Which iterators are double-ended, and exact size hints. *)
Require Import List Arith NArith ZArith Bool Lia.
Import ListNotations.
From Verif Require Import Std Traits MapStorages SetStorages DeriveUnit DeriveAny Key Api Spec Reach
  IterLaws MapCore MapLaws SetCore SetLaws HashLaws OptLaws KeyLaws IterFacts.

Lemma de_map {A B} (f : A -> B) i : double_ended (map_it f i) = double_ended i.
Proof. unfold double_ended. simpl. destruct (it_back i); reflexivity. Qed.

Lemma de_chain {A} (a b : iterator A) :
  double_ended (chain_it a b) = double_ended a && double_ended b.
Proof. unfold double_ended. simpl. destruct (it_back a), (it_back b); reflexivity. Qed.

Lemma de_struct {A} (its : list (iterator A)) :
  double_ended (struct_it its) = forallb double_ended its.
Proof.
  unfold double_ended at 1. simpl.
  assert (E : forall l : list (iterator A),
             match all_backs l with Some _ => true | None => false end = forallb double_ended l).
  { induction l as [|i l IH]; simpl; auto. unfold double_ended at 1. rewrite <- IH.
    destruct (it_back i), (all_backs l); reflexivity. }
  rewrite <- E. destruct (all_backs its); reflexivity.
Qed.

(** All iterators of a key type agree. *)
Definition ends {K} (ki : KeyImpl K) (b : bool) : Prop :=
  (forall V, double_ended (ms_Iter (ki_map ki V)) = b /\
             double_ended (ms_Keys (ki_map ki V)) = b /\
             double_ended (ms_Values (ki_map ki V)) = b /\
             double_ended (ms_IterMut (ki_map ki V)) = b /\
             double_ended (ms_ValuesMut (ki_map ki V)) = b /\
             double_ended (ms_IntoIter (ki_map ki V)) = b) /\
  double_ended (ss_Iter (ki_set ki)) = b /\ double_ended (ss_IntoIter (ki_set ki)) = b.

Fixpoint fends {R} (fs : fields R) (b : bool) : Prop :=
  match fs with
  | FNil => b = true
  | FUnit fs' => fends fs' b
  | FTuple ki fs' => exists b1 b2, ends ki b1 /\ fends fs' b2 /\ b = b1 && b2
  end.

Lemma fends_its {R T A} (simple : nat -> T -> iterator A)
    (complex : nat -> forall K, KeyImpl K -> (K -> T) -> iterator A) (fs : fields R) :
  (forall i t, double_ended (simple i t) = true) ->
  (forall i K (ki : KeyImpl K) inj b, ends ki b -> double_ended (complex i K ki inj) = b) ->
  forall i inj b, fends fs b -> forallb double_ended (field_its simple complex i fs inj) = b.
Proof.
  intros Hs Hc. induction fs as [|R fs IH|K R ki fs IH]; intros i inj b; simpl.
  - auto.
  - intros H. rewrite Hs. simpl. auto.
  - intros (b1 & b2 & H1 & H2 & ->). rewrite (Hc _ _ _ _ _ H1). f_equal. auto.
Qed.

Lemma derive_ends :
  (forall t ki, derive t = Some ki -> ends ki (hash_free t)) /\
  (forall vs, (forall fs, derive_fields vs = Some fs -> fends fs (hash_free_variants vs)) /\
              (forall u, as_units vs = Some u -> hash_free_variants vs = true)).
Proof.
  apply kty_mut.
  - intros ki [= <-]. repeat split.
  - intros ki [= <-]. repeat split.
  - intros p ki [= <-]. repeat split.
  - intros t IH ki E. apply option_map_inv in E as (ki' & E & ->).
    destruct (IH ki' E) as [H [S1 S2]]. split; [intros V|split];
      try (destruct (H V) as (H1 & H2 & H3 & H4 & H5 & H6); repeat split);
      simpl; rewrite de_chain, ?de_map; simpl; rewrite andb_true_r; auto.
  - intros bitset vs [IHf IHu] ki E. simpl in E. destruct (as_units vs) as [u|] eqn:Eu.
    + simpl. rewrite (IHu u eq_refl). unfold derive_unit in E. destruct bitset.
      * destruct (determine_bits _); [|discriminate]. injection E as <-. repeat split.
      * injection E as <-. repeat split.
    + apply option_map_inv in E as (fs & E & ->). specialize (IHf fs E). simpl.
      split; [intros V|split]; [repeat split| |]; simpl; rewrite de_struct; apply fends_its; auto;
        unfold pair_simple, iter_cx, keys_cx, keys_simple, values_cx, val_simple, iter_mut_cx,
          values_mut_cx, into_iter_cx, siter_cx, sinto_cx; intros; rewrite ?de_map; auto;
        match goal with H : ends _ _ |- _ => destruct H as [H [? ?]] end; auto;
        decompose [and] (H V); auto.
  - split; [intros fs [= <-]; reflexivity|auto].
  - intros r [IHf IHu]. split.
    + intros fs E. apply option_map_inv in E as (fs' & E & ->). exact (IHf fs' E).
    + simpl. intros u E. apply option_map_inv in E as (u' & E & _). exact (IHu u' E).
  - intros t IHt r [IHf IHu]. split; [|discriminate]. intros fs E. simpl in E.
    destruct (derive t) as [ki|] eqn:Et; [|discriminate].
    destruct (derive_fields r) as [fs'|] eqn:Er; [|discriminate]. injection E as <-.
    exists (hash_free t), (hash_free_variants r). auto.
Qed.

Lemma hints_exact_rem {A} (i : iterator A) (L : it_laws i) s :
  (forall s, il_ok L s -> it_hint i s = (length (il_rem L s), Some (length (il_rem L s)))) ->
  il_ok L s -> hints_exact i s.
Proof.
  intros H Hok ds outs s' E.
  destruct (run_it_rem i L ds s Hok (run_it_back i ds s _ E)) as (s2 & E2 & Hok2 & R2).
  rewrite E in E2. injection E2 as _ <-.
  exists (il_rem L s'). split; [apply yields_rem; auto|]. auto.
Qed.

Lemma exact_opt A s : hints_exact (opt_it A) s.
Proof.
  apply (hints_exact_rem _ (opt_laws A)); [|exact I].
  intros [x|] _; reflexivity.
Qed.

Lemma exact_hash A s : hints_exact (hash_it A) s.
Proof. apply (hints_exact_rem _ (hash_laws A)); [|exact I]. reflexivity. Qed.

Lemma exact_bits s : (s < 4)%N -> hints_exact bits_it s.
Proof.
  intros H. apply (hints_exact_rem _ bits_laws); [|exact H].
  intros b Hb. change (b < 4)%N in Hb. change (il_rem bits_laws b) with (bits_rem b).
  assert (C : b = 0%N \/ b = 1%N \/ b = 2%N \/ b = 3%N) by lia.
  destruct C as [-> | [-> | [-> | ->]]]; reflexivity.
Qed.
