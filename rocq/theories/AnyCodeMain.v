(** The code generated for enums with tuple variants answers every list of requests
    as the storages of the model do. *)
Require Import List Arith NArith Bool String Lia.
Import ListNotations.
From Verif Require Import Std Traits Rust DeriveAny Key Spec AnyCode AnyRun AnyCodeSpec AnyCodeFacts AnyCodeKeys AnyCodeMap
  AnyCodeEntry AnyCodeOps AnyCodeViews AnyCodeSets AnyRetains.

Section Main.
  Context {T : Type} (T_dec : forall a b : T, {a = b} + {a <> b})
          {K : T -> Type} (impl : forall t, KeyImpl (K t)) {V S : Type}.
  Variable U : auser K V S.
  Variable flds : vfields T.
  Hypothesis names : NoDup (List.map fst flds).
  Hypothesis rets : forall t, retains (impl t).
  Notation m := (any_map_storage V (fs_of impl flds)).
  Notation ss := (any_set_storage (fs_of impl flds)).
  Notation C := (any_map_code flds).
  Notation D := (any_set_code flds).
  Notation do := (do_task T_dec impl U flds).
  Notation doset := (do_set_task T_dec impl U flds).

  Lemma all_agree q : agrees (T_dec := T_dec) (impl := impl) U flds q.
  Proof.
    destruct q.
    - apply len_agrees.
    - apply is_empty_agrees.
    - now apply contains_agrees.
    - now apply get_agrees.
    - now apply insert_agrees.
    - now apply set_agrees.
    - now apply remove_agrees.
    - now apply retain_agrees.
    - apply clear_agrees.
    - apply clone_agrees.
    - apply iter_agrees.
    - apply iter_mut_agrees.
    - apply values_mut_agrees.
    - now apply entry_agrees.
  Qed.

  Lemma all_set_agree q : set_agrees_on (T_dec := T_dec) (impl := impl) U flds q.
  Proof.
    destruct q.
    - apply slen_agrees.
    - apply sis_empty_agrees.
    - now apply scontains_agrees.
    - now apply sinsert_agrees.
    - now apply sremove_agrees.
    - now apply sretain_agrees.
    - apply sclear_agrees.
    - apply sclone_agrees.
    - apply siter_agrees.
  Qed.

  Lemma replies_related {Q A X Y} (f : Q -> S -> X -> S * X * A) (g : Q -> S -> Y -> S * Y * A)
    (h : Y -> X) :
    (forall q s y, f q s (h y) = let '(s', y', a) := g q s y in (s', h y', a)) ->
    forall l s y, replies f l s (h y) = let '(as_, s', y') := replies g l s y in (as_, s', h y').
  Proof.
    intros H. induction l as [|q l IH]; intros s y; [reflexivity|]. cbn [replies].
    rewrite H. destruct (g q s y) as [[s1 y1] a]. rewrite IH.
    now destruct (replies g l s1 y1) as [[r s2] y2].
  Qed.

  Lemma map_work w l s :
    work T_dec impl U flds do C w l s =
    let '(rs, s', st) := replies (model_task impl U flds) l s (ms_empty m w) in
    Some (rs, s', mself flds st).
  Proof.
    unfold work. rewrite empty_agrees.
    rewrite (replies_related do (model_task impl U flds) (mself flds)) by exact all_agree.
    now destruct (replies _ _ _ _) as [[rs s'] st].
  Qed.

  Lemma set_work w l s :
    work T_dec impl U flds doset D w l s =
    let '(rs, s', st) := replies (model_set_task impl U flds) l s (ss_empty ss w) in
    Some (rs, s', sself flds st).
  Proof.
    unfold work. rewrite sempty_agrees.
    rewrite (replies_related doset (model_set_task impl U flds) (sself flds)) by exact all_set_agree.
    now destruct (replies _ _ _ _) as [[rs s'] st].
  Qed.

  Lemma map_answers w l s :
    option_map fst (work T_dec impl U flds do C w l s) =
    Some (fst (replies (model_task impl U flds) l s (ms_empty m w))).
  Proof. rewrite map_work. now destruct (replies _ _ _ _) as [[rs s'] st]. Qed.

  Lemma set_answers w l s :
    option_map fst (work T_dec impl U flds doset D w l s) =
    Some (fst (replies (model_set_task impl U flds) l s (ss_empty ss w))).
  Proof. rewrite set_work. now destruct (replies _ _ _ _) as [[rs s'] st]. Qed.

  Lemma map_eq_answers w1 w2 l1 l2 s :
    work2 T_dec impl U flds do C w1 w2 l1 l2 s =
    let '(_, s1, a) := replies (model_task impl U flds) l1 s (ms_empty m w1) in
    let '(_, s2, b) := replies (model_task impl U flds) l2 s1 (ms_empty m w2) in
    Some (model_eq impl U flds a b s2).
  Proof.
    unfold work2. rewrite map_work.
    destruct (replies (model_task impl U flds) l1 s (ms_empty m w1)) as [[r1 s1] a].
    rewrite map_work.
    destruct (replies (model_task impl U flds) l2 s1 (ms_empty m w2)) as [[r2 s2] b].
    rewrite <- (eq_agrees (T_dec := T_dec) U flds a b s2).
    now destruct (invoke _ _ _ _ _ _ _) as [[c a'] s3].
  Qed.

  Lemma set_eq_answers w1 w2 l1 l2 s :
    work2 T_dec impl U flds doset D w1 w2 l1 l2 s =
    let '(_, s1, a) := replies (model_set_task impl U flds) l1 s (ss_empty ss w1) in
    let '(_, s2, b) := replies (model_set_task impl U flds) l2 s1 (ss_empty ss w2) in
    Some (s2, RBool (ss_eq ss a b)).
  Proof.
    unfold work2. rewrite set_work.
    destruct (replies (model_set_task impl U flds) l1 s (ss_empty ss w1)) as [[r1 s1] a].
    rewrite set_work.
    destruct (replies (model_set_task impl U flds) l2 s1 (ss_empty ss w2)) as [[r2 s2] b].
    rewrite <- (seq_agrees (T_dec := T_dec) U flds a b s2).
    now destruct (invoke _ _ _ _ _ _ _) as [[c a'] s3].
  Qed.
End Main.

(** Every enum with a tuple variant. *)
Lemma enums_written bitset vs ki names : as_units vs = None -> derive (KEnum bitset vs) = Some ki ->
  (forall fs, derive_fields vs = Some fs -> List.length names = fields_len fs) ->
  exists (T : Type) (T_dec : forall a b : T, {a = b} + {a <> b})
         (K : T -> Type) (impl : forall t, KeyImpl (K t)) (flds : vfields T),
    List.map fst flds = names /\ (forall t, retains (impl t)) /\
    existT KeyImpl (R_of (K := K) flds) (derive_any (fs_of impl flds)) =
    existT KeyImpl (key (KEnum bitset vs)) ki.
Proof.
  intros Hu E L. cbn in E. rewrite Hu in E.
  destruct (derive_fields vs) as [fs|] eqn:Ef; [|discriminate]. injection E as <-.
  destruct (fields_written fs names (proj2 derive_retains vs fs Ef) (L fs eq_refl))
    as (T & T_dec & K & impl & flds & H1 & H2 & H3).
  exists T, T_dec, K, impl, flds. split; [exact H1|]. split; [exact H2|].
  exact (f_equal (fun p : {R : Type & fields R} => existT KeyImpl (projT1 p) (derive_any (projT2 p))) H3).
Qed.

Lemma fields_counted vs : forall fs, derive_fields vs = Some fs -> fields_len fs = variant_count vs.
Proof.
  induction vs as [|r IH|t r IH]; cbn; intros fs E.
  - now injection E as <-.
  - destruct (derive_fields r) as [fs'|]; [|discriminate]. injection E as <-. cbn.
    now rewrite (IH fs' eq_refl).
  - destruct (derive t) as [ki|]; [|discriminate].
    destruct (derive_fields r) as [fs'|]; [|discriminate]. injection E as <-. cbn.
    now rewrite (IH fs' eq_refl).
Qed.

Lemma enum_code bitset vs ki names : as_units vs = None -> derive (KEnum bitset vs) = Some ki ->
  NoDup names -> List.length names = variant_count vs ->
  exists (T : Type) (T_dec : forall a b : T, {a = b} + {a <> b})
         (K : T -> Type) (impl : forall t, KeyImpl (K t)) (flds : vfields T),
    List.map fst flds = names /\
    existT KeyImpl (R_of (K := K) flds) (derive_any (fs_of impl flds)) =
    existT KeyImpl (key (KEnum bitset vs)) ki /\
    forall (V S : Type) (U : auser K V S),
      (forall w l s,
         option_map fst (work T_dec impl U flds (do_task T_dec impl U flds)
                           (any_map_code flds) w l s) =
         Some (fst (replies (model_task impl U flds) l s
                      (ms_empty (any_map_storage V (fs_of impl flds)) w)))) /\
      (forall w l s,
         option_map fst (work T_dec impl U flds (do_set_task T_dec impl U flds)
                           (any_set_code flds) w l s) =
         Some (fst (replies (model_set_task impl U flds) l s
                      (ss_empty (any_set_storage (fs_of impl flds)) w)))).
Proof.
  intros Hu E D L.
  destruct (enums_written bitset vs ki names Hu E) as (T & T_dec & K & impl & flds & H1 & H2 & H3).
  { intros fs Ef. rewrite (fields_counted vs fs Ef). exact L. }
  exists T, T_dec, K, impl, flds. rewrite <- H1 in D. split; [exact H1|]. split; [exact H3|].
  intros V S U. split.
  - intros w l s. exact (map_answers T_dec impl U flds D H2 w l s).
  - intros w l s. exact (set_answers T_dec impl U flds D H2 w l s).
Qed.
