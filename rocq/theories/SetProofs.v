(** Proofs of the set properties for lawful storages. *)
Require Import List Arith NArith ZArith Bool Lia Permutation Sorted.
Import ListNotations.
From Verif Require Import Std Traits Key Api Spec Reach SetHistory IterLaws IterFacts MapCore MapLaws
  SetCore SetLaws MapFacts MapProofs SetFacts.

Lemma retain_elems_inv {X T} (f : set_retain_fn X T) l : forall x x' l' o,
  retain_elems f x l = (x', l', o) -> NoDup l -> NoDup l' /\ forall k, In k l' -> In k l.
Proof.
  induction l as [|k l IH]; intros x x' l' o; simpl.
  - intros [= <- <- <-] _. split; [constructor|auto].
  - destruct (f x k) as [x1 []] eqn:F.
    + destruct (retain_elems f x1 l) as [[x2 r2] o2] eqn:E. intros [= <- <- <-] N.
      inversion N; subst. destruct (IH _ _ _ _ E H2) as [N2 I2]. split.
      * constructor; auto.
      * intros y [->|Hy]; auto.
    + intros E N. inversion N; subst. destruct (IH _ _ _ _ E H2). auto.
    + intros [= <- <- <-] N. split; auto.
    + intros E N. inversion N; subst. destruct (IH _ _ _ _ E H2). auto.
Qed.

Lemma filter_shorter {A} (p : A -> bool) l : length (filter p l) <= length l.
Proof. induction l as [|x l IH]; simpl; auto. destruct (p x); simpl; lia. Qed.

Lemma spec_contents_ext {T} (p p' : T -> bool) o x q : same_set p p' ->
  spec_contents p o x q -> spec_contents p' o x q.
Proof.
  intros E. assert (S : same_set p q -> same_set p' q) by (intros H k; rewrite <- E; auto).
  assert (El : forall l, elements p l -> elements p' l) by (intros l; apply elements_ext; auto).
  destruct o; simpl; auto.
  - intros [H1 H2]. split; auto. intros y Hy. rewrite <- E. auto.
  - intros [H1 H2]. split; auto. intros y Hy. rewrite <- E. auto.
  - intros [-> H]. rewrite <- E. auto.
  - intros [(l & H & ->) H2]. split; eauto.
  - intros [(l & H & ->) H2]. split; eauto.
Qed.

Lemma spec_sop_ext {T} (p p' : T -> bool) o x q : same_set p p' ->
  spec_sop p o x q -> spec_sop p' o x q.
Proof.
  intros E. pose proof (spec_contents_ext p p' o x q E) as C.
  assert (S : same_set p q -> same_set p' q) by (intros H k; rewrite <- E; auto).
  destruct o; auto; simpl in *.
  - rewrite E. tauto.
  - rewrite E. tauto.
  - intros [(b & -> & H) H2]. split; auto. exists b. split; auto. rewrite H.
    split; intros G k; rewrite <- (G k); auto.
  - intros (l & log & l' & oc & H1 & H2 & H3 & H4). exists l, log, l', oc.
    split; [eapply elements_ext; eauto|]. split; auto. split; auto.
    destruct oc; auto. destruct H4 as [H4 H5]. split; auto. intros k Hk. rewrite <- E. auto.
Qed.

Lemma spec_exact_ext {T} lf sb (p p' : T -> bool) o x q : same_set p p' ->
  spec_exact lf sb p o x q -> spec_exact lf sb p' o x q.
Proof.
  intros E. pose proof (spec_contents_ext p p' o x q E) as C.
  assert (S : same_set p q -> same_set p' q) by (intros H k; rewrite <- E; auto).
  destruct o; auto; simpl in *.
  - rewrite E. tauto.
  - rewrite E. destruct (sb k) as [y|]; [rewrite (E y)|]; tauto.
  - intros [(b & -> & H) H2]. split; auto. exists b. split; auto. rewrite H.
    split; intros G k; rewrite <- (G k), E; reflexivity.
  - intros (l & log & l' & oc & H0 & H1 & H2 & H3 & H4). exists l, log, l', oc.
    split; auto. split; [intros k; rewrite <- E; auto|]. split; auto. split; auto.
    destruct oc; auto. destruct H4 as [H4 H5]. split; intros k; rewrite <- E; auto.
Qed.

Lemma spec_all_ext {T} (spec : (T -> bool) -> sop T -> sobs T -> (T -> bool) -> Prop) (p p' : T -> bool) ops xs q :
  (forall p p' o x q, same_set p p' -> spec p o x q -> spec p' o x q) ->
  same_set p p' -> spec_all spec p ops xs q -> spec_all spec p' ops xs q.
Proof.
  intros Hs E. destruct ops as [|o ops], xs as [|x xs]; simpl; auto.
  - intros H k. rewrite <- E. auto.
  - intros (p1 & H1 & H2). exists p1. split; auto. eapply Hs; eauto.
Qed.

Section Proofs.
  Context {T : Type} {sp : KeySpec T} {m : SetStorage T} (L : SetLaws sp m).
  Notation inv := (sc_inv (sl_core L)).
  Notation abs := (sc_abs (sl_core L)).
  Notation vis := (sc_vis (sl_core L)).
  Notation reach := (set_reachable m).
  Notation has := (set_contains m).

  (** * Histories *)

  Lemma iter_fuel st : inv st -> exists n0, forall n, n0 <= n ->
    drain (ss_Iter m) n (set_iter m st) = Some (abs st).
  Proof. intros H. exact (s_iter L st H). Qed.

  Lemma run_sop_ok o st : inv st -> exists x st' n0,
    (forall n, n0 <= n -> run_sop m n st o = (x, st')) /\ inv st' /\ (reach st -> reach st') /\
    spec_exact (ks_leaf sp) (ks_sib sp) (has st) o x (has st') /\
    spec_contents (has st) o x (has st') /\
    ((forall k, inverted (ks_leaf sp k) = false) -> (forall k, ks_leaf sp k <> LUnit) ->
     (forall k, ks_sib sp k = None) -> spec_sop (has st) o x (has st')).
  Proof.
    intros H. assert (R0 : same_set (has st) (has st)) by (intros k; auto).
    destruct o as [k|k|k| | | |f|]; simpl.
    - destruct (s_insert L st k H) as (H' & A & E).
      exists (QBool (fst (set_insert m st k))), (snd (set_insert m st k)), 0.
      split; [intros n _; destruct (set_insert m st k); auto|]. split; auto.
      split; [intros R; exact (sr_insert m st k R)|].
      split; [split; auto; rewrite E; destruct (ks_leaf sp k); reflexivity|]. split; auto.
      intros I _ _. rewrite E, I. auto.
    - destruct (s_remove L st k H) as (H' & A & E).
      exists (QBool (fst (set_remove m st k))), (snd (set_remove m st k)), 0.
      split; [intros n _; destruct (set_remove m st k); auto|]. split; auto.
      split; [intros R; exact (sr_remove m st k R)|].
      split; [split; auto; rewrite E; reflexivity|]. split; auto.
      intros _ _ S. rewrite E, S. simpl. rewrite orb_false_r. auto.
    - eexists _, st, 0. split; [reflexivity|]. auto 10.
    - eexists _, st, 0. split; [reflexivity|].
      assert (X : exists l, elements (has st) l /\ QNat (T := T) (set_len m st) = QNat (length l)).
      { exists (abs st). rewrite (s_len L) by auto. split; auto. apply s_elements; auto. }
      auto 10.
    - eexists _, st, 0. split; [reflexivity|]. split; auto. split; auto.
      split. { split; auto. eexists. split; [reflexivity|]. apply (s_is_empty L); auto. }
      split; auto. intros I _ _. split; auto. eexists. split; [reflexivity|]. rewrite (s_is_empty L) by auto.
      split; intros G k.
      + apply not_true_is_false. intros C. apply G in C. specialize (I k). rewrite C in I. discriminate.
      + rewrite G. split; [discriminate|]. intros C. specialize (I k). rewrite C in I. discriminate.
    - destruct (s_clear L st H) as (H' & _ & G). eexists _, _, 0. split; [reflexivity|].
      split; auto. split; [intros R; exact (sr_clear m st R)|]. auto 10.
    - destruct (s_retain L _ (slogged f) [] st H) as (x' & st' & oc & l' & E & H' & G & A).
      exists (QRetain x' oc), st', 0. split; [intros n _; rewrite E; auto|]. split; auto.
      split. { intros R. pose proof (sr_retain m _ (slogged f) [] st R) as R'. rewrite E in R'. exact R'. }
      split.
      { exists (vis st), x', l', oc. split; [exact (sc_vis_nodup _ _ (sl_core L) st H)|].
        split. { intros k. rewrite (s_contains_in L) by auto. exact (sc_vis_in _ _ (sl_core L) st k H). }
        split; auto. split; auto. destruct oc.
        - rewrite <- A. apply s_elements; auto.
        - destruct A as [A1 A2]. split; intros k; rewrite !(s_contains_in L) by auto; auto. }
      split; auto. intros _ F _. rewrite (s_vis_free L st F H) in G.
      exists (abs st), x', l', oc. split; [apply s_elements; auto|]. split; auto. split; auto.
      destruct oc.
      + rewrite <- A. apply s_elements; auto.
      + destruct A as [A1 A2]. split.
        * intros k. rewrite !(s_contains_in L) by auto. intros Hk. destruct (A1 k Hk) as [?|[_ C]]; auto.
          exfalso. eapply F; eauto.
        * intros k Hk. apply (s_contains_in L); auto. apply A2; auto.
          apply (retain_elems_inv _ _ _ _ _ _ G (sc_nodup _ _ (sl_core L) st H)); auto.
    - destruct (iter_fuel st H) as [n0 E]. exists (QList (abs st)), st, n0.
      split; [intros n Hn; rewrite E; auto|].
      assert (X : exists l, elements (has st) l /\ QList (abs st) = QList l).
      { exists (abs st). split; auto. apply s_elements; auto. }
      auto 10.
  Qed.

  Lemma run_sops_ok ops : forall st, inv st -> exists xs st' n0,
    (forall n, n0 <= n -> run_sops m n st ops = (xs, st')) /\ inv st' /\ (reach st -> reach st') /\
    spec_all (spec_exact (ks_leaf sp) (ks_sib sp)) (has st) ops xs (has st') /\
    spec_all spec_contents (has st) ops xs (has st') /\
    ((forall k, inverted (ks_leaf sp k) = false) -> (forall k, ks_leaf sp k <> LUnit) ->
     (forall k, ks_sib sp k = None) -> spec_all spec_sop (has st) ops xs (has st')).
  Proof.
    induction ops as [|o ops IH]; intros st H; simpl.
    - exists [], st, 0. split; auto. split; auto. split; auto. split; [|split]; intros; intros k; auto.
    - destruct (run_sop_ok o st H) as (x & st1 & n1 & E1 & H1 & R1 & X1 & C1 & D1).
      destruct (IH st1 H1) as (xs & st2 & n2 & E2 & H2 & R2 & X2 & C2 & D2).
      exists (x :: xs), st2, (Nat.max n1 n2). split.
      { intros n Hn. rewrite E1, E2 by lia. auto. }
      split; auto. split; auto. split; [|split].
      + exists (has st1). auto.
      + exists (has st1). auto.
      + intros I F S. exists (has st1). auto.
  Qed.

  Lemma s_c25 st ops p : reach st -> same_set (has st) p -> exists xs st' n0,
    (forall n, n0 <= n -> run_sops m n st ops = (xs, st')) /\ reach st' /\
    spec_all spec_contents p ops xs (has st').
  Proof.
    intros R E. destruct (run_sops_ok ops st (s_reach_inv L st R)) as (xs & st' & n0 & E1 & _ & R1 & _ & C & _).
    exists xs, st', n0. split; auto. split; auto.
    eapply spec_all_ext; [|exact E|exact C]. apply spec_contents_ext.
  Qed.

  Lemma s_c25_doc st ops p :
    (forall k, inverted (ks_leaf sp k) = false) -> (forall k, ks_leaf sp k <> LUnit) ->
    (forall k, ks_sib sp k = None) ->
    reach st -> same_set (has st) p -> exists xs st' n0,
    (forall n, n0 <= n -> run_sops m n st ops = (xs, st')) /\ reach st' /\
    spec_all spec_sop p ops xs (has st').
  Proof.
    intros I F S R E.
    destruct (run_sops_ok ops st (s_reach_inv L st R)) as (xs & st' & n0 & E1 & _ & R1 & _ & _ & C).
    exists xs, st', n0. split; auto. split; auto.
    eapply spec_all_ext; [|exact E|exact (C I F S)]. apply spec_sop_ext.
  Qed.

  Lemma s_c25_exact st ops p :
    reach st -> same_set (has st) p -> exists xs st' n0,
    (forall n, n0 <= n -> run_sops m n st ops = (xs, st')) /\ reach st' /\
    spec_all (spec_exact (ks_leaf sp) (ks_sib sp)) p ops xs (has st').
  Proof.
    intros R E. destruct (run_sops_ok ops st (s_reach_inv L st R)) as (xs & st' & n0 & E1 & _ & R1 & C & _).
    exists xs, st', n0. split; auto. split; auto.
    eapply spec_all_ext; [|exact E|exact C]. apply spec_exact_ext.
  Qed.

  (** * Single operations *)

  Lemma s_c14 st : (exists w, st = set_new m w) \/ (exists w, st = set_default m w) \/
      (exists st0, reach st0 /\ st = set_clear m st0) ->
    (forall k, has st k = false) /\ set_len m st = 0 /\ yields (ss_Iter m) (set_iter m st) [] /\
    yields (ss_IntoIter m) (set_into_iter m st) [].
  Proof.
    intros C. assert (D : inv st /\ abs st = [] /\ forall k, has st k = false).
    { destruct C as [[w ->]|[[w ->]|(st0 & R & ->)]].
      - apply s_new. - apply s_new. - apply s_clear, s_reach_inv; auto. }
    destruct D as (H & A & F). split; auto.
    split; [rewrite (s_len L), A; auto|]. rewrite <- A.
    split; [apply s_iter|apply s_into_iter]; auto.
  Qed.

  Lemma s_c30 st : reach st -> exists l,
    yields (ss_Iter m) (set_iter m st) l /\ yields (ss_IntoIter m) (set_into_iter m st) l /\
    elements (has st) l /\ sorted_by (ks_before sp) l /\ set_len m st = length l.
  Proof.
    intros R. pose proof (s_reach_inv L st R) as H. exists (abs st).
    split; [apply s_iter; auto|]. split; [apply s_into_iter; auto|].
    split; [apply s_elements; auto|]. split; [|apply s_len; auto].
    apply strongly_sorted_by. exact (sc_sorted _ _ (sl_core L) st H).
  Qed.

  Lemma s_c30_unique a b : (forall x y, x = y \/ ks_before sp x y \/ ks_before sp y x) ->
    reach a -> reach b -> (forall k, has a k = has b k) -> forall la lb,
    yields (ss_Iter m) (set_iter m a) la -> yields (ss_Iter m) (set_iter m b) lb -> la = lb.
  Proof.
    intros Tot Ra Rb E la lb Ya Yb.
    destruct (s_c30 a Ra) as (la' & Ya' & _ & [Na Ea] & Sa & _).
    destruct (s_c30 b Rb) as (lb' & Yb' & _ & [Nb Eb] & Sb & _).
    rewrite (yields_fun _ _ _ _ Ya Ya'), (yields_fun _ _ _ _ Yb Yb').
    apply (sorted_unique (ks_before sp)); auto.
    - apply NoDup_Permutation; auto. intros x. rewrite Ea, Eb, E. reflexivity.
  Qed.

  Lemma s_c26 st k : reach st ->
    fst (set_insert m st k) = (if inverted (ks_leaf sp k) then has st k else negb (has st k)).
  Proof. intros R. apply (s_insert L), (s_reach_inv L); auto. Qed.

  Lemma s_c27 st k : reach st ->
    fst (set_remove m st k) = has st k || sib_contains (has st) (ks_sib sp k).
  Proof. intros R. apply (s_remove L), (s_reach_inv L); auto. Qed.

  Lemma s_c28 st : reach st ->
    (set_is_empty m st = true <-> forall k, has st k = true <-> ks_leaf sp k = LNone).
  Proof. intros R. apply (s_is_empty L), (s_reach_inv L); auto. Qed.

  Lemma s_none st : reach st -> (set_len m st = 0 <-> forall k, has st k = false).
  Proof.
    intros R. pose proof (s_reach_inv L st R) as H. rewrite (s_len L) by auto. split.
    - intros Z k. apply not_true_is_false. rewrite (s_contains_in L) by auto.
      destruct (abs st); [auto|discriminate].
    - intros F. destruct (abs st) as [|k l] eqn:A; auto. exfalso.
      assert (C : has st k = true) by (apply (s_contains_in L); auto; rewrite A; left; auto).
      rewrite F in C. discriminate.
  Qed.

  Lemma s_c29 X (f : set_retain_fn X T) x st : reach st ->
    exists l vs x' l' oc st',
      yields (ss_Iter m) (set_iter m st) l /\
      NoDup vs /\ sorted_by (ks_before sp) vs /\
      (forall k, In k vs <-> has st k = true \/ ks_leaf sp k = LUnit) /\ filter (has st) vs = l /\
      retain_elems f x vs = (x', l', oc) /\ set_retain m f x st = (x', st', oc) /\
      match oc with
      | Done => yields (ss_Iter m) (set_iter m st') l' /\ elements (has st') l'
      | Unwound =>
          (forall k, has st' k = true -> has st k = true \/ In k l' /\ ks_leaf sp k = LUnit) /\
          (forall k, has st k = true -> In k l' -> has st' k = true)
      end /\ reach st'.
  Proof.
    intros R. pose proof (s_reach_inv L st R) as H.
    destruct (s_retain L X f x st H) as (x' & st' & oc & l' & E & H' & G & A).
    exists (abs st), (vis st), x', l', oc, st'.
    split; [apply s_iter; auto|]. split; [exact (sc_vis_nodup _ _ (sl_core L) st H)|].
    split; [apply strongly_sorted_by; exact (sc_vis_sorted _ _ (sl_core L) st H)|].
    split. { intros k. rewrite (s_contains_in L) by auto. exact (sc_vis_in _ _ (sl_core L) st k H). }
    split; [exact (sc_vis_filter _ _ (sl_core L) st H)|]. split; [exact G|]. split; [exact E|]. split.
    - destruct oc.
      + rewrite <- A. split; [apply s_iter; auto|apply s_elements; auto].
      + destruct A as [A1 A2]. split.
        * intros k. rewrite !(s_contains_in L) by auto. auto.
        * intros k. rewrite !(s_contains_in L) by auto. auto.
    - pose proof (sr_retain m X f x st R) as R'. rewrite E in R'. exact R'.
  Qed.

  Lemma s_c38 X (f : set_retain_fn X T) x st : reach st ->
    exists vs x' l' w st',
      NoDup vs /\ sorted_by (ks_before sp) vs /\
      (forall k, In k vs <-> has st k = true \/ ks_leaf sp k = LUnit) /\
      yields (ss_Iter m) (set_iter m st) (filter (has st) vs) /\
      retain_undo f (sc_late (sl_core L)) (has st) x vs = (x', l', w) /\
      set_retain m f x st = (x', st', ends_at w) /\ reach st' /\
      yields (ss_Iter m) (set_iter m st') l' /\ elements (has st') l'.
  Proof.
    intros R. pose proof (s_reach_inv L st R) as H.
    destruct (sc_retain _ _ (sl_core L) X f x st H) as (x' & st' & w & E & H' & U).
    exists (vis st), x', (abs st'), w, st'.
    split; [exact (sc_vis_nodup _ _ (sl_core L) st H)|].
    split; [apply strongly_sorted_by; exact (sc_vis_sorted _ _ (sl_core L) st H)|].
    split. { intros k. rewrite (s_contains_in L) by auto. exact (sc_vis_in _ _ (sl_core L) st k H). }
    split. { pose proof (sc_vis_filter _ _ (sl_core L) st H) as G. cbn in G.
             change (set_contains m st) with (ss_contains m st). rewrite G. apply s_iter; auto. }
    split; [exact U|]. split; [exact E|].
    split. { pose proof (sr_retain m X f x st R) as R'.
             change (set_retain m f x st = (x', st', ends_at w)) in E. rewrite E in R'. exact R'. }
    split; [apply s_iter; auto|apply s_elements; auto].
  Qed.

  Lemma s_c29_free X (f : set_retain_fn X T) x st : (forall k, ks_leaf sp k <> LUnit) -> reach st ->
    exists l x' l' oc st',
      yields (ss_Iter m) (set_iter m st) l /\
      retain_elems f x l = (x', l', oc) /\ set_retain m f x st = (x', st', oc) /\
      match oc with
      | Done => yields (ss_Iter m) (set_iter m st') l' /\ elements (has st') l'
      | Unwound => (forall k, has st' k = true -> has st k = true) /\
                   (forall k, In k l' -> has st' k = true)
      end /\ reach st'.
  Proof.
    intros F R. destruct (s_c29 X f x st R) as (l & vs & x' & l' & oc & st' & Y & N & _ & I & E & G & E' & A & R').
    assert (V : vs = l).
    { rewrite <- E. symmetry. clear - F I. 
      assert (J : forall k, In k vs -> has st k = true).
      { intros k Hk. apply I in Hk. destruct Hk as [?|Hk]; auto. exfalso. eapply F; eauto. }
      clear I. induction vs as [|a vs IH]; simpl; auto. rewrite (J a) by (left; auto). f_equal.
      apply IH. intros k Hk. apply J. right. auto. }
    rewrite <- V in Y. clear E V. exists vs, x', l', oc, st'. split; [exact Y|]. split; [exact G|]. split; [exact E'|].
    split; [|exact R']. destruct oc; auto. destruct A as [A1 A2]. split.
    - intros k Hk. destruct (A1 k Hk) as [?|[_ C]]; auto. exfalso. eapply F; eauto.
    - intros k Hk. apply A2; auto. destruct (retain_elems_inv _ _ _ _ _ _ G N) as [_ J].
      specialize (J k Hk). apply I in J. destruct J as [?|C]; auto. exfalso. eapply F; eauto.
  Qed.

  Lemma s_c32 a b : reach a -> reach b ->
    (set_eq m a b = true <-> forall k, has a k = has b k).
  Proof. intros Ra Rb. apply (s_eq L); apply (s_reach_inv L); auto. Qed.

  Lemma s_c20 st : reach st ->
    (forall k, has (set_clone m st) k = has st k) /\ set_eq m (set_clone m st) st = true /\
    exists l, yields (ss_Iter m) (set_iter m st) l /\
              yields (ss_Iter m) (set_iter m (set_clone m st)) l.
  Proof.
    intros R. rewrite (s_clone L). split; auto. split.
    - apply s_c32; auto.
    - exists (abs st). pose proof (s_reach_inv L st R). split; apply s_iter; auto.
  Qed.

  (** * Collecting *)

  Lemma s_insert_all l : forall st, reach st ->
    reach (fold_left (fun st x => snd (set_insert m st x)) l st) /\
    forall k, has (fold_left (fun st x => snd (set_insert m st x)) l st) k = true <->
              has st k = true \/ In k l.
  Proof.
    induction l as [|x l IH]; intros st R; simpl.
    - split; auto. intros k. tauto.
    - destruct (IH _ (sr_insert m st x R)) as [R' E]. split; auto. intros k. rewrite E.
      destruct (s_insert L st x (s_reach_inv L st R)) as (_ & [A1 A2] & _).
      destruct (ks_eqb sp x k) eqn:Q.
      + apply (sc_keqb _ _ (sl_core L)) in Q. subst k. rewrite A1. tauto.
      + assert (k <> x) by (intros ->; rewrite (proj2 (sc_keqb _ _ (sl_core L) x x) eq_refl) in Q; discriminate).
        rewrite A2 by auto. intuition congruence.
  Qed.

  Lemma s_c23 w l : reach (set_from_iter m w l) /\
    forall k, has (set_from_iter m w l) k = true <-> In k l.
  Proof.
    destruct (s_insert_all l (set_new m w) (sr_new m w)) as [R E]. split; auto.
    intros k. unfold set_from_iter. rewrite E. destruct (s_new L w) as (_ & _ & F). rewrite F.
    intuition discriminate.
  Qed.

  (** * serde *)

  Lemma s_c24_ser {Out Err} (z : serializer T Out Err) st : reach st ->
    exists l, yields (ss_Iter m) (set_iter m st) l /\ set_len m st = length l /\
      returns (fun n => set_serialize m z n st) (feed_all z l).
  Proof.
    intros R. pose proof (s_reach_inv L st R) as H. exists (abs st).
    split; [apply s_iter; auto|]. split; [apply s_len; auto|].
    unfold set_serialize, serialize, feed_all. rewrite (s_len L) by auto.
    destruct (ser_start z (Some (length (abs st)))) as [s|e].
    - apply ser_loop_ok, s_iter; auto.
    - exists 0. auto.
  Qed.

  Lemma s_c24_visit {D Err} (acc : access D T Err) w d l : supplies acc d l ->
    returns (fun n => set_visit m acc n w d) (inl (set_from_iter m w l)).
  Proof. intros Hs. apply visit_supplies; auto. Qed.

  Lemma s_c24_breaks {D Err} (acc : access D T Err) w d l e : breaks acc d l e ->
    returns (fun n => set_visit m acc n w d) (inr e).
  Proof. intros Hs. eapply visit_breaks; eauto. Qed.

  Lemma s_c24_round {D Err} (acc : access D T Err) w d l st : reach st ->
    yields (ss_Iter m) (set_iter m st) l -> supplies acc d l ->
    exists st', returns (fun n => set_visit m acc n w d) (inl st') /\
      (forall k, has st' k = has st k) /\ set_eq m st' st = true.
  Proof.
    intros R Y Hs. destruct (s_c23 w l) as [R' E]. destruct (s_c30 st R) as (l' & Y' & _ & [_ El] & _).
    rewrite (yields_fun _ _ _ _ Y Y') in *.
    assert (G : forall k, has (set_from_iter m w l') k = has st k).
    { intros k. apply bool_ext. rewrite E, El. reflexivity. }
    exists (set_from_iter m w l'). split; [apply s_c24_visit; auto|]. split; auto. apply s_c32; auto.
  Qed.

  (** * Intersection *)

  Section Inter.
    Variable other : ss_St m.
    Notation keep := (filter (has other)).

    Lemma inter_next_ok l : forall it, il_ok (sl_Iter L) it -> il_rem (sl_Iter L) it = l ->
      exists it', (forall n, length l < n ->
        inter_next m n (MkInter it other) = Some (hd_error (keep l), MkInter it' other)) /\
      il_ok (sl_Iter L) it' /\ keep (il_rem (sl_Iter L) it') = tl (keep l) /\
      length (il_rem (sl_Iter L) it') <= length l.
    Proof.
      induction l as [|x l IH]; intros it Hok E;
        destruct (il_next _ (sl_Iter L) it Hok) as (it' & En & Hok' & R); rewrite E in En, R; simpl in En, R.
      - exists it'. split; [|rewrite R; auto]. intros [|n] Hn; [lia|]. simpl. rewrite En. auto.
      - simpl. destruct (has other x) eqn:C; simpl.
        + exists it'. split; [|rewrite R; auto]. intros [|n] Hn; [lia|]. simpl. rewrite En, C. auto.
        + destruct (IH it' Hok' R) as (it2 & E2 & Hok2 & K2 & L2).
          exists it2. split; [|auto]. intros [|n] Hn; [lia|]. simpl. rewrite En, C. apply E2. lia.
    Qed.

    Lemma inter_drain_ok l : forall it n, il_ok (sl_Iter L) it ->
      keep (il_rem (sl_Iter L) it) = l -> length (il_rem (sl_Iter L) it) + length l + 1 < n ->
      inter_drain m n (MkInter it other) = Some l.
    Proof.
      induction l as [|x l IH]; intros it n Hok E Hn; destruct n as [|n]; try (simpl in Hn; lia); simpl;
        destruct (inter_next_ok _ it Hok eq_refl) as (it' & E' & Hok' & K' & L');
        rewrite E' by lia; rewrite E; simpl; auto.
      rewrite E in K'. simpl in K'. rewrite (IH it'); auto. simpl in Hn. lia.
    Qed.

    Lemma inter_run_ok k : forall it, il_ok (sl_Iter L) it ->
      exists it' n0, (forall n, n0 <= n -> inter_run m n k (MkInter it other) =
          Some (fst (deque (repeat Front k) (keep (il_rem (sl_Iter L) it))), MkInter it' other)) /\
        il_ok (sl_Iter L) it' /\
        keep (il_rem (sl_Iter L) it') =
          snd (deque (repeat Front k) (keep (il_rem (sl_Iter L) it))).
    Proof.
      induction k as [|k IH]; intros it Hok; simpl.
      - exists it, 0. auto.
      - destruct (inter_next_ok _ it Hok eq_refl) as (it1 & E1 & Hok1 & K1 & _).
        destruct (IH it1 Hok1) as (it2 & n0 & E2 & Hok2 & K2).
        rewrite K1 in E2, K2.
        exists it2, (Nat.max n0 (S (length (il_rem (sl_Iter L) it)))). split; [|split; auto].
        + intros n Hn. rewrite E1 by lia. rewrite E2 by lia. simpl.
          destruct (deque (repeat Front k) (tl (keep (il_rem (sl_Iter L) it)))); auto.
        + destruct (deque (repeat Front k) (tl (keep (il_rem (sl_Iter L) it)))); auto.
    Qed.

    Lemma inter_fold_ok {B} (f : B -> T -> B) l : forall it init n, il_ok (sl_Iter L) it ->
      il_rem (sl_Iter L) it = l -> length l < n ->
      inter_fold m n (MkInter it other) init f = Some (fold_left f (keep l) init).
    Proof.
      induction l as [|x l IH]; intros it init n Hok E Hn; destruct n as [|n]; try (simpl in Hn; lia);
        destruct (il_next _ (sl_Iter L) it Hok) as (it' & En & Hok' & R); rewrite E in En, R; simpl in En, R;
        simpl; rewrite En; auto.
      simpl in Hn. rewrite (IH it'); auto; try lia. destruct (has other x); auto.
    Qed.

    Lemma inter_yields it : il_ok (sl_Iter L) it ->
      returns (fun n => inter_drain m n (MkInter it other)) (keep (il_rem (sl_Iter L) it)).
    Proof.
      intros Hok. eexists. intros n Hn. apply inter_drain_ok; auto. exact Hn.
    Qed.

    Lemma inter_hint_ok it : il_ok (sl_Iter L) it ->
      fst (inter_hint m (MkInter it other)) <= length (keep (il_rem (sl_Iter L) it)) /\
      match snd (inter_hint m (MkInter it other)) with
      | Some u => length (keep (il_rem (sl_Iter L) it)) <= u
      | None => True
      end.
    Proof.
      intros Hok. unfold inter_hint. simpl. split; [lia|].
      pose proof (il_hint _ (sl_Iter L) it Hok) as [_ Hu].
      destruct (snd (it_hint (ss_Iter m) it)) as [u|]; auto.
      pose proof (filter_shorter (has other) (il_rem (sl_Iter L) it)). lia.
    Qed.
  End Inter.

  Lemma inter_start a b : reach a -> reach b -> exists it other,
    set_intersection m a b = MkInter it other /\ il_ok (sl_Iter L) it /\
    elements (fun k => has a k && has b k) (filter (has other) (il_rem (sl_Iter L) it)) /\
    exists l, (l = abs a \/ l = abs b) /\ il_rem (sl_Iter L) it = l.
  Proof.
    intros Ra Rb. pose proof (s_reach_inv L a Ra) as Ha. pose proof (s_reach_inv L b Rb) as Hb.
    unfold set_intersection.
    assert (G : forall x y, inv x -> (forall k, has a k && has b k = has x k && has y k) ->
      elements (fun k => has a k && has b k) (filter (has y) (abs x))).
    { intros x y Hx E. split.
      - apply NoDup_filter. exact (sc_nodup _ _ (sl_core L) x Hx).
      - intros k. rewrite E, filter_In, <- (s_contains_in L), andb_true_iff by auto. reflexivity. }
    destruct (sl_iter _ _ L a Ha) as [Hok1 E1]. destruct (sl_iter _ _ L b Hb) as [Hok2 E2].
    destruct (_ <=? _).
    - exists (set_iter m a), b. split; auto. split; auto. unfold set_iter. rewrite E1. split; eauto.
    - exists (set_iter m b), a. split; auto. split; auto. unfold set_iter. rewrite E2. split; eauto.
      apply G; auto. intros k. apply andb_comm.
  Qed.

  Lemma s_c31 a b : reach a -> reach b -> exists l,
    elements (fun k => has a k && has b k) l /\ sorted_by (ks_before sp) l /\
    returns (fun n => inter_drain m n (set_intersection m a b)) l /\
    (forall B (f : B -> T -> B) init,
       returns (fun n => inter_fold m n (set_intersection m a b) init f) (fold_left f l init)) /\
    (forall k, exists x',
       returns (fun n => inter_run m n k (set_intersection m a b)) (fst (deque (repeat Front k) l), x') /\
       returns (fun n => inter_drain m n x') (snd (deque (repeat Front k) l)) /\
       fst (inter_hint m x') <= length (snd (deque (repeat Front k) l)) /\
       match snd (inter_hint m x') with
       | Some u => length (snd (deque (repeat Front k) l)) <= u
       | None => True
       end /\
       (forall B (f : B -> T -> B) init,
         returns (fun n => inter_fold m n x' init f)
                 (fold_left f (snd (deque (repeat Front k) l)) init))).
  Proof.
    intros Ra Rb. destruct (inter_start a b Ra Rb) as (it & other & -> & Hok & El & l0 & Hl & E0).
    exists (filter (has other) (il_rem (sl_Iter L) it)).
    split; [exact El|]. split.
    { assert (S0 : sorted_by (ks_before sp) l0).
      { apply strongly_sorted_by. destruct Hl as [-> | ->]; apply (sc_sorted _ _ (sl_core L));
          apply (s_reach_inv L); auto. }
      rewrite E0. clear - S0. induction l0 as [|x l IH]; simpl in *; auto. destruct S0 as [S1 S2].
      destruct (has other x); auto. simpl. split; auto. intros y Hy. apply S1.
      apply filter_In in Hy. tauto. }
    split; [apply inter_yields; auto|].
    split. { intros B f init. eexists. intros n Hn. apply inter_fold_ok; auto. exact Hn. }
    intros k. destruct (inter_run_ok other k it Hok) as (it' & n0 & E & Hok' & K').
    exists (MkInter it' other). rewrite <- K'. split; [exists n0; auto|].
    split; [apply inter_yields; auto|]. pose proof (inter_hint_ok other it' Hok') as [H1 H2].
    split; [exact H1|]. split; [exact H2|].
    intros B f init. eexists. intros n Hn. apply inter_fold_ok; auto. exact Hn.
  Qed.

  Lemma s_c31_sym a b : reach a -> reach b -> exists l l',
    returns (fun n => inter_drain m n (set_intersection m a b)) l /\
    returns (fun n => inter_drain m n (set_intersection m b a)) l' /\ Permutation l l'.
  Proof.
    intros Ra Rb. destruct (s_c31 a b Ra Rb) as (l & E & _ & R & _).
    destruct (s_c31 b a Rb Ra) as (l' & E' & _ & R' & _). exists l, l'. split; auto. split; auto.
    eapply elements_perm; [exact E|]. eapply elements_ext; [|exact E']. intros k. apply andb_comm.
  Qed.

  (** * Iterators *)

  Lemma s_c09 st : reach st -> exists l,
    behaves_as_deque (ss_Iter m) (set_iter m st) l /\
    behaves_as_deque (ss_IntoIter m) (set_into_iter m st) l.
  Proof.
    intros R. pose proof (s_reach_inv L st R) as H. exists (abs st). split.
    - destruct (sl_iter _ _ L st H) as [Hok E]. rewrite <- E. exact (behaves_rem _ (sl_Iter L) _ Hok).
    - destruct (sl_into_iter _ _ L st H) as [Hok E]. rewrite <- E. exact (behaves_rem _ (sl_IntoIter L) _ Hok).
  Qed.

  Lemma s_c47 st : reach st -> exists l,
    clones_continue (ss_Iter m) (set_iter m st) l /\
    clones_continue (ss_IntoIter m) (set_into_iter m st) l.
  Proof.
    intros R. pose proof (s_reach_inv L st R) as H.
    destruct (sl_iter _ _ L st H) as [H0 E0]. destruct (sl_into_iter _ _ L st H) as [H1 E1].
    exists (il_rem (sl_Iter L) (ss_iter m st)). split; [apply (clones_rem _ (sl_Iter L)); exact H0|].
    rewrite E0, <- E1. apply (clones_rem _ (sl_IntoIter L)). exact H1.
  Qed.

  Lemma s_c37 st : reach st ->
    hints_bracket (ss_Iter m) (set_iter m st) /\ hints_bracket (ss_IntoIter m) (set_into_iter m st).
  Proof.
    intros R. pose proof (s_reach_inv L st R) as H. split.
    - destruct (sl_iter _ _ L st H) as [Hok E]. exact (hints_rem _ (sl_Iter L) _ Hok).
    - destruct (sl_into_iter _ _ L st H) as [Hok E]. exact (hints_rem _ (sl_IntoIter L) _ Hok).
  Qed.
End Proofs.
