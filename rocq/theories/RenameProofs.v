(** Proofs about translated programs. *)
Require Import List Arith NArith ZArith Bool Lia Permutation.
Import ListNotations.
From Verif Require Import Std Traits Key Api Spec Reach History SetHistory StateSpec StateProofs
  FullSpec ComposeSpec RenameSpec IterLaws IterFacts MapCore SetCore ComposeProofs ComposeSets
  SetProofs KeyLaws FullProofs.

Lemma logged_eq {K V} (f : list (K * V) -> K -> V -> V * answer) log k v :
  logged f log k v = (log ++ [(k, v)], fst (f log k v), snd (f log k v)).
Proof. unfold logged. destruct (f log k v). reflexivity. Qed.

Lemma slogged_eq {T} (f : list T -> T -> answer) log k :
  slogged f log k = (log ++ [k], f log k).
Proof. reflexivity. Qed.

Section Rename.
  Context {A B : Type} (j : A -> B) (i : B -> A) (H : inverse j i).

  Lemma i_j a : i (j a) = a. Proof. apply H. Qed.
  Lemma j_i b : j (i b) = b. Proof. apply H. Qed.

  Lemma j_inj a a' : j a = j a' -> a = a'.
  Proof. intros E. rewrite <- (i_j a), E. apply i_j. Qed.

  Lemma dec_b (dec : forall a b : A, a = b \/ a <> b) (x y : B) : x = y \/ x <> y.
  Proof.
    destruct (dec (i x) (i y)) as [E|N].
    - left. rewrite <- (j_i x), E. apply j_i.
    - right. congruence.
  Qed.

  Section Maps.
    Context {V : Type}.

    Lemma ren_lists (f : fmap A V) l : lists f l -> lists (fun b => f (i b)) (map (ren_entry j) l).
    Proof.
      intros [N E]. split.
      - rewrite map_map. simpl. rewrite <- (map_map fst j).
        apply FinFun.Injective_map_NoDup; [exact j_inj|exact N].
      - intros b v. rewrite in_map_iff. split.
        + intros ([a w] & [= <- <-] & Ha). rewrite i_j. apply E, Ha.
        + intros Hb. exists (i b, v). split; [unfold ren_entry; simpl; rewrite j_i; reflexivity|].
          apply E, Hb.
    Qed.

    Lemma ren_updates (f f' : fmap A V) k o : updates f k o f' ->
      updates (fun b => f (i b)) (j k) o (fun b => f' (i b)).
    Proof.
      intros [H1 H2]. split; [rewrite i_j; exact H1|]. intros b Hb. apply H2.
      intros C. apply Hb. rewrite <- C, j_i. reflexivity.
    Qed.

    Lemma ren_keeps (f f' : fmap A V) : keeps f f' -> keeps (fun b => f (i b)) (fun b => f' (i b)).
    Proof. intros E b. apply E. Qed.

    Lemma ren_log l : map (ren_entry i) (map (ren_entry (V := V) j) l) = l.
    Proof.
      rewrite map_map. rewrite <- map_id. apply map_ext. intros [a v]. unfold ren_entry. simpl.
      rewrite i_j. reflexivity.
    Qed.

    Lemma ren_retain (f : list (A * V) -> A -> V -> V * answer) l : forall log,
      retain_list (logged (fun log k v => f (map (ren_entry i) log) (i k) v))
        (map (ren_entry j) log) (map (ren_entry j) l) =
      let '(log', l', o) := retain_list (logged f) log l in
      (map (ren_entry j) log', map (ren_entry j) l', o).
    Proof.
      induction l as [|[k v] l IH]; intros log; [reflexivity|].
      cbn [map retain_list ren_entry fst snd].
      rewrite !(logged_eq f), logged_eq, ren_log, i_j.
      destruct (f log k v) as [v' []]; cbn [fst snd].
      - specialize (IH (log ++ [(k, v)])). rewrite map_app in IH.
        change (map (ren_entry j) [(k, v)]) with [(j k, v)] in IH. rewrite IH.
        destruct (retain_list (logged f) (log ++ [(k, v)]) l) as [[log' l'] o]. reflexivity.
      - specialize (IH (log ++ [(k, v)])). rewrite map_app in IH.
        change (map (ren_entry j) [(k, v)]) with [(j k, v)] in IH. rewrite IH.
        destruct (retain_list (logged f) (log ++ [(k, v)]) l) as [[log' l'] o]. reflexivity.
      - rewrite map_app. reflexivity.
      - rewrite map_app. reflexivity.
    Qed.

    Lemma ren_spec (f f' : fmap A V) o x : spec_op f o x f' ->
      spec_op (fun b => f (i b)) (ren_op j i o) (ren_obs j x) (fun b => f' (i b)).
    Proof.
      destruct o; simpl; rewrite ?i_j.
      - intros [-> E]. split; [reflexivity|apply ren_keeps, E].
      - intros [-> E]. split; [reflexivity|apply ren_keeps, E].
      - intros [-> E]. split; [reflexivity|]. destruct (f k); [apply ren_updates, E|apply ren_keeps, E].
      - intros [-> E]. split; [reflexivity|apply ren_updates, E].
      - intros [-> E]. split; [reflexivity|apply ren_updates, E].
      - intros [(l & L & ->) E]. split; [|apply ren_keeps, E]. exists (map (ren_entry j) l).
        split; [apply ren_lists, L|]. rewrite map_length. reflexivity.
      - intros [(b & -> & Hb) E]. split; [|apply ren_keeps, E]. exists b. split; [reflexivity|].
        rewrite Hb. split; [auto|]. intros G k. rewrite <- (i_j k). apply G.
      - intros [-> E]. split; [reflexivity|]. auto.
      - intros (l & log & l' & o & L & R & -> & L').
        exists (map (ren_entry j) l), (map (ren_entry j) log), (map (ren_entry j) l'), o.
        split; [apply ren_lists, L|]. split; [|split; [reflexivity|apply ren_lists, L']].
        pose proof (ren_retain f0 l []) as G. rewrite R in G. exact G.
      - intros [(l & L & ->) E]. split; [|apply ren_keeps, E]. exists (map (ren_entry j) l).
        split; [apply ren_lists, L|reflexivity].
      - intros [-> E]. split; [reflexivity|]. intros b. apply E.
      - intros [-> E]. split; [reflexivity|apply ren_keeps, E].
      - destruct (f k); intros [-> E]; (split; [reflexivity|]); [apply ren_keeps, E|apply ren_updates, E].
      - destruct (f k); [|destruct (f0 k)]; intros [-> E]; (split; [reflexivity|]);
          first [apply ren_keeps, E|apply ren_updates, E].
      - destruct (f k); intros [-> E]; (split; [|apply ren_updates, E]);
          [destruct (snd (g v)); reflexivity|reflexivity].
      - intros [-> E]. split; [reflexivity|apply ren_updates, E].
      - intros [-> E]. split; [reflexivity|apply ren_updates, E].
    Qed.

    Lemma ren_specs ops : forall (f f' : fmap A V) xs, spec_ops f ops xs f' ->
      spec_ops (fun b => f (i b)) (map (ren_op j i) ops) (map (ren_obs j) xs) (fun b => f' (i b)).
    Proof.
      induction ops as [|o ops IH]; intros f f' [|x xs]; simpl; auto.
      - apply ren_keeps.
      - intros (f1 & H1 & H2). exists (fun b => f1 (i b)). split; [apply ren_spec, H1|apply IH, H2].
    Qed.

    Lemma ren_blind (o : mop A V) : order_blind o -> order_blind (ren_op j i o).
    Proof.
      destruct o; simpl; auto. intros (g & G). exists (fun k v => g (i k) v). intros log k v. apply G.
    Qed.

    Lemma renamed_map (ma : MapStorage A V) (mb : MapStorage B V) :
      (forall a b : A, a = b \/ a <> b) -> acts_as_map ma -> acts_as_map mb ->
      forall wa wb ops, Forall order_blind ops ->
      exists xs ys sa sb n0,
        (forall n, n0 <= n -> run_ops ma n (map_new ma wa) ops = Ok (xs, sa) /\
                              run_ops mb n (map_new mb wb) (map (ren_op j i) ops) = Ok (ys, sb)) /\
        Forall2 same_result (map (ren_obs j) xs) ys /\
        (forall k, map_get mb sb (j k) = map_get ma sa k).
    Proof.
      intros dec Ha Hb wa wb ops Bl.
      destruct (acts_history ma Ha wa ops) as (xs & sa & n1 & E1 & S1).
      destruct (acts_history mb Hb wb (map (ren_op j i) ops)) as (ys & sb & n2 & E2 & S2).
      exists xs, ys, sa, sb, (n1 + n2).
      split; [intros n Hn; split; [apply E1|apply E2]; lia|].
      apply ren_specs in S1.
      assert (Bl' : Forall order_blind (map (ren_op j i) ops)).
      { rewrite Forall_map. eapply Forall_impl; [|exact Bl]. intros o. apply ren_blind. }
      destruct (spec_ops_same (dec_b dec) _ _ _ _ _ _ _ Bl' (fun _ => eq_refl) S1 S2) as [Q1 Q2].
      split; [exact Q1|]. intros k. rewrite (Q2 (j k)), i_j. reflexivity.
    Qed.
  End Maps.

  Section Sets.
    Lemma ren_elements (p : A -> bool) l : elements p l -> elements (fun b => p (i b)) (map j l).
    Proof.
      intros [N E]. split.
      - apply FinFun.Injective_map_NoDup; [exact j_inj|exact N].
      - intros b. rewrite in_map_iff. split.
        + intros (a & <- & Ha). rewrite i_j. apply E, Ha.
        + intros Hb. exists (i b). split; [apply j_i|apply E, Hb].
    Qed.

    Lemma ren_sretain (f : list A -> A -> answer) l : forall log,
      retain_elems (slogged (fun log k => f (map i log) (i k))) (map j log) (map j l) =
      let '(log', l', o) := retain_elems (slogged f) log l in (map j log', map j l', o).
    Proof.
      assert (G : forall l, map i (map j l) = l).
      { intros l0. rewrite map_map, <- map_id. apply map_ext, i_j. }
      induction l as [|k l IH]; intros log; [reflexivity|].
      cbn [map retain_elems]. rewrite !(slogged_eq f), slogged_eq, G, i_j.
      specialize (IH (log ++ [k])). rewrite map_app in IH. simpl in IH.
      destruct (f log k); try rewrite IH; try rewrite map_app;
        try destruct (retain_elems (slogged f) (log ++ [k]) l) as [[log' l'] o]; reflexivity.
    Qed.

    Lemma ren_sspec full (p q : A -> bool) o x : spec_results full p o x q ->
      spec_results full (fun b => p (i b)) (ren_sop j i o) (ren_sobs j x) (fun b => q (i b)).
    Proof.
      assert (Ad : forall k, adds p k q -> adds (fun b => p (i b)) (j k) (fun b => q (i b))).
      { intros k [H1 H2]. split; [rewrite i_j; exact H1|]. intros b Hb. apply H2.
        intros C. apply Hb. rewrite <- C, j_i. reflexivity. }
      assert (Dr : forall k, drops p k q -> drops (fun b => p (i b)) (j k) (fun b => q (i b))).
      { intros k [H1 H2]. split; [rewrite i_j; exact H1|]. intros b Hb. apply H2.
        intros C. apply Hb. rewrite <- C, j_i. reflexivity. }
      assert (Ss : same_set p q -> same_set (fun b => p (i b)) (fun b => q (i b))).
      { intros E b. apply E. }
      assert (S : forall o, spec_sop p o x q ->
        spec_sop (fun b => p (i b)) (ren_sop j i o) (ren_sobs j x) (fun b => q (i b))).
      { clear o. intros o. destruct o; simpl; rewrite ?i_j.
        - intros [-> E]. split; [reflexivity|auto].
        - intros [-> E]. split; [reflexivity|auto].
        - intros [-> E]. split; [reflexivity|auto].
        - intros [(l & L & ->) E]. split; [|auto]. exists (map j l).
          split; [apply ren_elements, L|]. rewrite map_length. reflexivity.
        - intros [(b & -> & Hb) E]. split; [|auto]. exists b. split; [reflexivity|].
          rewrite Hb. split; [auto|]. intros G k. rewrite <- (i_j k). apply G.
        - intros [-> E]. split; [reflexivity|]. auto.
        - intros (l & log & l' & oc & L & R & -> & D).
          exists (map j l), (map j log), (map j l'), oc. split; [apply ren_elements, L|].
          split; [|split; [reflexivity|]].
          + pose proof (ren_sretain f l []) as G. rewrite R in G. exact G.
          + destruct oc; [apply ren_elements, D|]. destruct D as [D1 D2]. split.
            * intros k. apply D1.
            * intros k Hk. apply in_map_iff in Hk as (a & <- & Ha). rewrite i_j. auto.
        - intros [(l & L & ->) E]. split; [|auto]. exists (map j l).
          split; [apply ren_elements, L|reflexivity]. }
      unfold spec_results. destruct full; [apply S|].
      destruct o; try apply (S _); simpl; auto.
    Qed.

    Lemma ren_sspecs full ops : forall (p q : A -> bool) xs, spec_all (spec_results full) p ops xs q ->
      spec_all (spec_results full) (fun b => p (i b)) (map (ren_sop j i) ops)
        (map (ren_sobs j) xs) (fun b => q (i b)).
    Proof.
      induction ops as [|o ops IH]; intros p q [|x xs]; simpl; auto.
      - intros E b. apply E.
      - intros (p1 & H1 & H2). exists (fun b => p1 (i b)). split; [apply ren_sspec, H1|apply IH, H2].
    Qed.

    Lemma ren_sblind (o : sop A) : order_blind_set o -> order_blind_set (ren_sop j i o).
    Proof.
      destruct o; simpl; auto. intros (g & G). exists (fun k => g (i k)). intros log k. apply G.
    Qed.
  End Sets.
End Rename.

Section SetSame.
  Context {T : Type} (dec : forall a b : T, a = b \/ a <> b).

  Lemma spec_results_same full (p q p' q' : T -> bool) o x y : order_blind_set o -> same_set p q ->
    spec_results full p o x p' -> spec_results full q o y q' ->
    (same_result_set x y \/ full = false /\ open_result o) /\ same_set p' q'.
  Proof.
    intros Bl E.
    assert (Ad : forall k, adds p k p' -> adds q k q' -> same_set p' q').
    { intros k [A1 A2] [C1 C2] z. destruct (dec z k) as [->|N]; [congruence|]. rewrite A2, C2; auto. }
    assert (Dr : forall k, drops p k p' -> drops q k q' -> same_set p' q').
    { intros k [A1 A2] [C1 C2] z. destruct (dec z k) as [->|N]; [congruence|]. rewrite A2, C2; auto. }
    assert (S : spec_sop p o x p' -> spec_sop q o y q' -> same_result_set x y /\ same_set p' q').
    { destruct o; simpl in *.
      - intros [-> H1] [-> H2]. rewrite E. split; [reflexivity|]. eauto.
      - intros [-> H1] [-> H2]. rewrite E. split; [reflexivity|]. eauto.
      - intros [-> H1] [-> H2]. rewrite E. split; [reflexivity|]. exact (same_sets _ _ _ _ E H1 H2).
      - intros [(l & [N Hl] & ->) H1] [(l' & [N' Hl'] & ->) H2].
        split; [|exact (same_sets _ _ _ _ E H1 H2)]. simpl. f_equal. apply Permutation_length.
        apply NoDup_Permutation; auto. intros z. rewrite Hl, Hl', E. tauto.
      - intros [(b & -> & Hb) H1] [(b' & -> & Hb') H2].
        split; [|exact (same_sets _ _ _ _ E H1 H2)]. simpl. f_equal. apply same_true.
        rewrite Hb, Hb'. split; intros G k; [rewrite <- E|rewrite E]; auto.
      - intros [-> H1] [-> H2]. split; [reflexivity|]. intros z. rewrite H1, H2. reflexivity.
      - destruct Bl as [g Bl].
        intros (l & log & l1 & oc & [N Hl] & R & -> & H1) (l' & log' & l1' & oc' & [N' Hl'] & R' & -> & H1').
        rewrite (retain_elems_blind f g Bl) in R, R'. injection R as <- <- <-. injection R' as <- <- <-.
        assert (P : Permutation l l').
        { apply NoDup_Permutation; auto. intros z. rewrite Hl, Hl', E. tauto. }
        split; [split; [exact P|reflexivity]|]. intros z. apply same_true.
        rewrite <- (proj2 H1), <- (proj2 H1'), !filter_In, Hl, Hl', E. tauto.
      - intros [(l & [N Hl] & ->) H1] [(l' & [N' Hl'] & ->) H2].
        split; [|exact (same_sets _ _ _ _ E H1 H2)]. simpl.
        apply NoDup_Permutation; auto. intros z. rewrite Hl, Hl', E. tauto. }
    unfold spec_results. destruct full.
    - intros H1 H2. destruct (S H1 H2). auto.
    - destruct o; simpl; intros H1 H2; try (destruct (S H1 H2); auto; fail).
      + split; [right; auto|eauto].
      + split; [right; auto|eauto].
      + split; [right; auto|]. exact (same_sets _ _ _ _ E H1 H2).
  Qed.

  Lemma spec_all_alike full ops : forall (p q p' q' : T -> bool) xs ys, Forall order_blind_set ops ->
    same_set p q -> spec_all (spec_results full) p ops xs p' -> spec_all (spec_results full) q ops ys q' ->
    answer_alike full ops xs ys /\ same_set p' q'.
  Proof.
    induction ops as [|o ops IH]; intros f g f' g' [|x xs] [|y ys] Bl E A C; simpl in *;
      try contradiction.
    - split; [exact I|]. exact (same_sets _ _ _ _ E A C).
    - destruct A as (f1 & A1 & A2), C as (g1 & C1 & C2). inversion_clear Bl as [|? ? B1 B2].
      destruct (spec_results_same full f g f1 g1 o x y B1 E A1 C1) as [S1 E1].
      destruct (IH f1 g1 f' g' xs ys B2 E1 A2 C2) as [S2 E2]. auto.
  Qed.
End SetSame.

Lemma renamed_set {A B} (j : A -> B) (i : B -> A) full (ma : SetStorage A) (mb : SetStorage B) :
  inverse j i -> (forall a b : A, a = b \/ a <> b) -> acts_as_set full ma -> acts_as_set full mb ->
  forall wa wb ops, Forall order_blind_set ops ->
  exists xs ys sa sb n0,
    (forall n, n0 <= n -> run_sops ma n (set_new ma wa) ops = (xs, sa) /\
                          run_sops mb n (set_new mb wb) (map (ren_sop j i) ops) = (ys, sb)) /\
    answer_alike full (map (ren_sop j i) ops) (map (ren_sobs j) xs) ys /\
    (forall k, set_contains mb sb (j k) = set_contains ma sa k).
Proof.
  intros Inv dec Ha Hb wa wb ops Bl.
  destruct (set_acts_history full ma Ha wa ops) as (xs & sa & n1 & E1 & S1).
  destruct (set_acts_history full mb Hb wb (map (ren_sop j i) ops)) as (ys & sb & n2 & E2 & S2).
  exists xs, ys, sa, sb, (n1 + n2).
  split; [intros n Hn; split; [apply E1|apply E2]; lia|].
  apply (ren_sspecs j i Inv) in S1.
  assert (Bl' : Forall order_blind_set (map (ren_sop j i) ops)).
  { rewrite Forall_map. eapply Forall_impl; [|exact Bl]. intros o. apply ren_sblind. }
  destruct (spec_all_alike (dec_b j i Inv dec) full _ _ _ _ _ _ _ Bl' (fun _ => eq_refl) S1 S2) as [Q1 Q2].
  split; [exact Q1|]. intros k. rewrite <- (Q2 (j k)). rewrite (i_j j i Inv). reflexivity.
Qed.

(** * With the keys in corresponding order *)

Lemma lists_same {K V} (dec : forall a b : K, a = b \/ a <> b) (f g : fmap K V) l :
  lists f l -> lists g l -> keeps f g.
Proof.
  intros [_ Hf] [_ Hg] k. destruct (f k) as [v|] eqn:E.
  - apply Hf, Hg in E. exact E.
  - destruct (g k) as [v|] eqn:E2; [|reflexivity]. apply Hg, Hf in E2. congruence.
Qed.

Lemma plain_result {K V} (f f' : fmap K V) o x : spec_op f o x f' ->
  match o with
  | MIter | MRetain _ => True
  | _ => match x with RList _ | RRetain _ _ => False | _ => True end
  end.
Proof.
  destruct o; simpl; auto; intros H;
    repeat match goal with
    | H : _ /\ _ |- _ => destruct H
    | H : exists _, _ |- _ => destruct H
    | H : context [match ?f ?k with Some _ => _ | None => _ end] |- _ => destruct (f k)
    end; subst; simpl; auto.
  destruct (snd (g v)); exact I.
Qed.

Lemma same_plain {K V} (x y : mobs K V) : match x with RList _ | RRetain _ _ => False | _ => True end ->
  same_result x y -> x = y.
Proof. destruct x, y; simpl; tauto. Qed.

Lemma spec_listed_det {K V} (dec : forall a b : K, a = b \/ a <> b) (ks : list K)
  (f g f' g' : fmap K V) o x y : keeps f g ->
  spec_listed ks f o x f' -> spec_listed ks g o y g' -> x = y /\ keeps f' g'.
Proof.
  intros E A C.
  assert (C' : spec_listed ks f o y g').
  { revert C. apply spec_listed_ext. intros k. apply E. }
  clear C.
  assert (G : match o with MIter | MRetain _ => True | _ => x = y /\ keeps f' g' end).
  { destruct o; try exact I;
      (match type of A with spec_listed _ _ ?o _ _ =>
         change (spec_op f o x f') in A; change (spec_op f o y g') in C';
         pose proof (plain_result f f' o x A) as P;
         destruct (spec_op_same dec f f f' g' o x y I (fun _ => eq_refl) A C') as [S Q];
         exact (conj (same_plain x y P S) Q) end). }
  destruct o; try exact G; clear G.
  - destruct A as (log & l & oc & R & -> & L), C' as (log2 & l2 & oc2 & R2 & -> & L2).
    rewrite R in R2. injection R2 as <- <- <-. split; [reflexivity|exact (lists_same dec _ _ _ L L2)].
  - destruct A as [-> A], C' as [-> C]. split; [reflexivity|]. intros k. rewrite A, C. reflexivity.
Qed.

Lemma spec_all_listed_det {K V} (dec : forall a b : K, a = b \/ a <> b) (ks : list K) ops :
  forall (f g f' g' : fmap K V) xs ys, keeps f g ->
  spec_all_listed ks f ops xs f' -> spec_all_listed ks g ops ys g' -> xs = ys /\ keeps f' g'.
Proof.
  induction ops as [|o ops IH]; intros f g f' g' [|x xs] [|y ys] E A C; simpl in *; try contradiction.
  - split; [reflexivity|]. intros k. rewrite A, C. apply E.
  - destruct A as (f1 & A1 & A2), C as (g1 & C1 & C2).
    destruct (spec_listed_det dec ks f g f1 g1 o x y E A1 C1) as [-> E1].
    destruct (IH f1 g1 f' g' xs ys E1 A2 C2) as [-> E2]. auto.
Qed.

Lemma plain_result_set {T} lf sb (p q : T -> bool) o x : spec_exact lf sb p o x q ->
  match o with
  | SIter | SRetain _ => True
  | _ => match x with QList _ | QRetain _ _ => False | _ => True end
  end.
Proof.
  destruct o; simpl; auto; intros H;
    repeat match goal with
    | H : _ /\ _ |- _ => destruct H
    | H : exists _, _ |- _ => destruct H
    end; subst; simpl; auto.
Qed.

Lemma same_plain_set {T} (x y : sobs T) : match x with QList _ | QRetain _ _ => False | _ => True end ->
  same_result_set x y -> x = y.
Proof. destruct x, y; simpl; tauto. Qed.

Lemma undo_none {T} (f : list T -> T -> answer) late has : (forall log k, f log k <> Unwind) ->
  forall l log, snd (retain_undo (slogged f) late has log l) = None.
Proof.
  intros H. induction l as [|k l IH]; intros log; [reflexivity|].
  cbn [retain_undo]. pose proof (H log k) as N. rewrite (slogged_eq f log k).
  destruct (f log k); try congruence; specialize (IH (log ++ [k]));
    destruct (retain_undo (slogged f) late has (log ++ [k]) l) as [[? ?] ?]; exact IH.
Qed.

Lemma undo_returning {T} (f : list T -> T -> answer) late late' has : (forall log k, f log k <> Unwind) ->
  forall l log, retain_undo (slogged f) late has log l = retain_undo (slogged f) late' has log l.
Proof.
  intros H. induction l as [|k l IH]; intros log; [reflexivity|].
  cbn [retain_undo]. rewrite (slogged_eq f log k), IH. pose proof (H log k) as U.
  pose proof (undo_none f late' has H l (log ++ [k])) as M.
  destruct (f log k); try congruence;
    destruct (retain_undo (slogged f) late' has (log ++ [k]) l) as [[? ?] ?]; simpl in M; subst; reflexivity.
Qed.

Lemma spec_listed_set_det {T} (dec : forall a b : T, a = b \/ a <> b) (ks : list T) lf sb la la'
  (p q p' q' : T -> bool) o x y : (forall a b, la a b = la' a b) \/ returning o -> same_set p q ->
  spec_listed_set ks lf sb la p o x p' -> spec_listed_set ks lf sb la' q o y q' ->
  x = y /\ same_set p' q'.
Proof.
  intros Rt E A C.
  assert (C' : spec_listed_set ks lf sb la' p o y q').
  { revert C. apply spec_listed_set_ext. intros k. symmetry. apply E. }
  clear C.
  assert (G : match o with SIter | SRetain _ => True | _ => x = y /\ same_set p' q' end).
  { destruct o; try exact I;
      (match type of A with spec_listed_set _ _ _ _ _ ?o _ _ =>
         change (spec_exact lf sb p o x p') in A; change (spec_exact lf sb p o y q') in C';
         pose proof (plain_result_set lf sb p p' o x A) as P;
         destruct (spec_exact_same dec lf sb p p p' q' o x y I (fun _ => eq_refl) A C') as [S Q];
         exact (conj (same_plain_set x y P S) Q) end). }
  destruct o; try exact G; clear G.
  - destruct A as (log & l & oc & R & -> & L), C' as (log2 & l2 & oc2 & R2 & -> & L2).
    assert (Eq : forall l log, retain_undo (slogged f) la p log l = retain_undo (slogged f) la' p log l).
    { destruct Rt as [Rt|Rt]; intros; [apply undo_late, Rt|apply undo_returning, Rt]. }
    rewrite Eq in R. rewrite R in R2. injection R2 as <- <- <-. split; [reflexivity|].
    destruct L as [_ L], L2 as [_ L2].
    intros k. apply same_true. rewrite <- L, <- L2. reflexivity.
  - destruct A as [-> A], C' as [-> C]. split; [reflexivity|]. intros k. rewrite <- A, <- C. reflexivity.
Qed.

Lemma spec_all_listed_set_det {T} (dec : forall a b : T, a = b \/ a <> b) (ks : list T) lf sb la la' ops :
  forall (p q p' q' : T -> bool) xs ys,
  (forall a b, la a b = la' a b) \/ Forall returning ops -> same_set p q ->
  spec_all (spec_listed_set ks lf sb la) p ops xs p' -> spec_all (spec_listed_set ks lf sb la') q ops ys q' ->
  xs = ys /\ same_set p' q'.
Proof.
  induction ops as [|o ops IH]; intros f g f' g' [|x xs] [|y ys] Rt E A C; simpl in *; try contradiction.
  - split; [reflexivity|]. intros k. rewrite <- A, <- C. apply E.
  - destruct A as (f1 & A1 & A2), C as (g1 & C1 & C2).
    destruct (spec_listed_set_det dec ks lf sb la la' f g f1 g1 o x y) as [-> E1]; auto.
    { destruct Rt as [?|Rt]; [auto|inversion_clear Rt; auto]. }
    destruct (IH f1 g1 f' g' xs ys) as [-> E2]; auto.
    destruct Rt as [?|Rt]; [auto|inversion_clear Rt; auto].
Qed.

Section Ordered.
  Context {A B : Type} (j : A -> B) (i : B -> A) (H : inverse j i).

  Lemma ren_entries {V} (f : fmap A V) ks :
    entries_of (fun b => f (i b)) (map j ks) = map (ren_entry j) (entries_of f ks).
  Proof.
    induction ks as [|k ks IH]; simpl; [reflexivity|]. rewrite (i_j j i H).
    change (flat_map _ (map j ks)) with (entries_of (fun b => f (i b)) (map j ks)).
    rewrite IH, map_app. destruct (f k); reflexivity.
  Qed.

  Lemma ren_listed {V} ks (f f' : fmap A V) o x : spec_listed ks f o x f' ->
    spec_listed (map j ks) (fun b => f (i b)) (ren_op j i o) (ren_obs j x) (fun b => f' (i b)).
  Proof.
    intros S.
    destruct o; try exact (ren_spec j i H f f' _ x S).
    - destruct S as (log & l' & oc & R & -> & L). simpl. rewrite ren_entries.
      exists (map (ren_entry j) log), (map (ren_entry j) l'), oc.
      split; [|split; [reflexivity|apply (ren_lists j i H), L]].
      pose proof (ren_retain j i H f0 (entries_of f ks) []) as G. rewrite R in G. exact G.
    - destruct S as [-> S]. simpl. rewrite ren_entries. split; [reflexivity|]. intros b. apply S.
  Qed.

  Lemma ren_all_listed {V} ks ops : forall (f f' : fmap A V) xs, spec_all_listed ks f ops xs f' ->
    spec_all_listed (map j ks) (fun b => f (i b)) (map (ren_op j i) ops) (map (ren_obs j) xs)
      (fun b => f' (i b)).
  Proof.
    induction ops as [|o ops IH]; intros f f' [|x xs]; simpl; auto.
    - intros E b. apply E.
    - intros (f1 & H1 & H2). exists (fun b => f1 (i b)). split; [apply ren_listed, H1|apply IH, H2].
  Qed.

  Lemma ren_filter (p : A -> bool) ks : filter (fun b => p (i b)) (map j ks) = map j (filter p ks).
  Proof.
    induction ks as [|k ks IH]; simpl; [reflexivity|]. rewrite (i_j j i H), IH.
    destruct (p k); reflexivity.
  Qed.

  Lemma ren_undo (f : list A -> A -> answer) late (has : A -> bool) l : forall log,
    retain_undo (slogged (fun log k => f (map i log) (i k))) (fun a b => late (i a) (i b))
      (fun b => has (i b)) (map j log) (map j l) =
    let '(log', l', o) := retain_undo (slogged f) late has log l in (map j log', map j l', option_map j o).
  Proof.
    assert (G : forall l, map i (map j l) = l).
    { intros l0. rewrite map_map, <- map_id. apply map_ext, (i_j j i H). }
    induction l as [|k l IH]; intros log; [reflexivity|].
    cbn [map retain_undo]. rewrite !(slogged_eq f), slogged_eq, G, (i_j j i H).
    specialize (IH (log ++ [k])). rewrite map_app in IH. simpl in IH.
    destruct (f log k).
    - rewrite IH. now destruct (retain_undo (slogged f) late has (log ++ [k]) l) as [[log' l'] w].
    - rewrite IH. destruct (retain_undo (slogged f) late has (log ++ [k]) l) as [[log' l'] [w|]]; [|reflexivity].
      cbn [option_map]. rewrite !(i_j j i H). now destruct (late w k).
    - rewrite map_app. cbn [option_map map]. f_equal. f_equal. change (j k :: map j l) with (map j (k :: l)). apply ren_filter.
    - rewrite IH. destruct (retain_undo (slogged f) late has (log ++ [k]) l) as [[log' l'] [w|]]; [|reflexivity].
      cbn [option_map]. rewrite !(i_j j i H). now destruct (late w k).
  Qed.

  Lemma ren_listed_set ks lf lf' sb sb' la (p q : A -> bool) o x :
    (forall k, lf' (j k) = lf k) -> (forall k, sb' (j k) = option_map j (sb k)) ->
    spec_listed_set ks lf sb la p o x q ->
    spec_listed_set (map j ks) lf' sb' (fun a b => la (i a) (i b)) (fun b => p (i b)) (ren_sop j i o) (ren_sobs j x) (fun b => q (i b)).
  Proof.
    intros Hl Hs.
    assert (Hl' : forall b, lf' b = lf (i b)) by (intros b; rewrite <- Hl, (j_i j i H); reflexivity).
    assert (Ad : forall k, adds p k q -> adds (fun b => p (i b)) (j k) (fun b => q (i b))).
    { intros k [H1 H2]. split; [rewrite (i_j j i H); exact H1|]. intros b Hb. apply H2.
      intros C. apply Hb. rewrite <- C, (j_i j i H). reflexivity. }
    assert (Dr : forall k, drops p k q -> drops (fun b => p (i b)) (j k) (fun b => q (i b))).
    { intros k [H1 H2]. split; [rewrite (i_j j i H); exact H1|]. intros b Hb. apply H2.
      intros C. apply Hb. rewrite <- C, (j_i j i H). reflexivity. }
    assert (Ss : same_set p q -> same_set (fun b => p (i b)) (fun b => q (i b))).
    { intros E b. apply E. }
    destruct o; simpl; rewrite ?Hl, ?Hs, ?(i_j j i H).
    - intros [-> E]. split; [reflexivity|auto].
    - intros [-> E]. split; [|auto]. simpl.
      destruct (sb k) as [y|]; simpl; rewrite ?(i_j j i H); reflexivity.
    - intros [-> E]. split; [reflexivity|auto].
    - intros [(l & L & ->) E]. split; [|auto]. exists (map j l).
      split; [apply (ren_elements j i H), L|]. rewrite map_length. reflexivity.
    - intros [(b & -> & Hb) E]. split; [|auto]. exists b. split; [reflexivity|]. rewrite Hb.
      split; intros G k.
      + rewrite Hl'. apply G.
      + specialize (G (j k)). rewrite Hl, (i_j j i H) in G. exact G.
    - intros [-> E]. split; [reflexivity|]. auto.
    - intros (log & l' & oc & R & -> & C).
      exists (map j log), (map j l'), (option_map j oc). split; [|split].
      + rewrite (filter_ext _ (fun b => p (i b) || match lf (i b) with LUnit => true | _ => false end))
          by (intros b; rewrite Hl'; reflexivity).
        rewrite (ren_filter (fun a => p a || match lf a with LUnit => true | _ => false end)).
        pose proof (ren_undo f la p (filter (fun a => p a || match lf a with LUnit => true | _ => false end) ks) []) as G.
        rewrite R in G. exact G.
      + simpl. destruct oc; reflexivity.
      + apply (ren_elements j i H), C.
    - intros [-> E]. split; [|auto]. rewrite ren_filter. reflexivity.
  Qed.

  Lemma ren_all_listed_set ks lf lf' sb sb' la ops :
    (forall k, lf' (j k) = lf k) -> (forall k, sb' (j k) = option_map j (sb k)) ->
    forall (p q : A -> bool) xs, spec_all (spec_listed_set ks lf sb la) p ops xs q ->
    spec_all (spec_listed_set (map j ks) lf' sb' (fun a b => la (i a) (i b))) (fun b => p (i b)) (map (ren_sop j i) ops)
      (map (ren_sobs j) xs) (fun b => q (i b)).
  Proof.
    intros Hl Hs. induction ops as [|o ops IH]; intros p q [|x xs]; simpl; auto.
    - intros E b. apply E.
    - intros (p1 & H1 & H2). exists (fun b => p1 (i b)).
      split; [exact (ren_listed_set ks lf lf' sb sb' la p p1 o x Hl Hs H1)|apply IH, H2].
  Qed.
End Ordered.

Lemma renamed_map_ordered t t' a b V j i : derive t = Some a -> derive t' = Some b ->
  hash_free t = true -> hash_free t' = true -> inverse j i -> map j (all_keys t) = all_keys t' ->
  forall w w' ops, exists xs sa sb n0,
    (forall n, n0 <= n ->
       run_ops (ki_map a V) n (map_new (ki_map a V) w) ops = Ok (xs, sa) /\
       run_ops (ki_map b V) n (map_new (ki_map b V) w') (map (ren_op j i) ops) = Ok (map (ren_obs j) xs, sb)) /\
    (forall k, map_get (ki_map b V) sb (j k) = map_get (ki_map a V) sa k).
Proof.
  intros Da Db Fa Fb Inv Ks w w' ops.
  destruct (full_history t a V Da Fa w ops) as (xs & sa & n1 & E1 & S1).
  destruct (full_history t' b V Db Fb w' (map (ren_op j i) ops)) as (ys & sb & n2 & E2 & S2).
  apply (ren_all_listed j i Inv) in S1. rewrite Ks in S1.
  destruct (spec_all_listed_det (dec_b j i Inv (key_dec t)) _ _ _ _ _ _ _ _ (fun _ => eq_refl) S1 S2) as [<- Q].
  exists xs, sa, sb, (n1 + n2). split; [intros n Hn; split; [apply E1|apply E2]; lia|].
  intros k. rewrite (Q (j k)), (i_j j i Inv). reflexivity.
Qed.

Lemma renamed_set_ordered t t' a b j i : derive t = Some a -> derive t' = Some b ->
  hash_free t = true -> hash_free t' = true -> inverse j i -> map j (all_keys t) = all_keys t' ->
  (forall k, leaf_of t' (j k) = leaf_of t k) ->
  (forall k, sibling t' (j k) = option_map j (sibling t k)) ->
  forall w w' ops,
  (forall k k', one_bitset t' (j k) (j k') = one_bitset t k k') \/ Forall returning ops ->
  exists xs sa sb n0,
    (forall n, n0 <= n ->
       run_sops (ki_set a) n (set_new (ki_set a) w) ops = (xs, sa) /\
       run_sops (ki_set b) n (set_new (ki_set b) w') (map (ren_sop j i) ops) = (map (ren_sobs j) xs, sb)) /\
    (forall k, set_contains (ki_set b) sb (j k) = set_contains (ki_set a) sa k).
Proof.
  intros Da Db Fa Fb Inv Ks Hl Hs w w' ops Rt.
  destruct (full_set_history t a Da Fa w ops) as (xs & sa & n1 & E1 & S1).
  destruct (full_set_history t' b Db Fb w' (map (ren_sop j i) ops)) as (ys & sb & n2 & E2 & S2).
  apply (ren_all_listed_set j i Inv _ _ _ _ _ _ _ Hl Hs) in S1. rewrite Ks in S1.
  assert (Rt' : (forall a b, one_bitset t (i a) (i b) = one_bitset t' a b) \/
                Forall returning (map (ren_sop j i) ops)).
  { destruct Rt as [Rt|Rt]; [left|right].
    - intros x y. rewrite <- Rt, !(j_i j i Inv). reflexivity.
    - rewrite Forall_map. eapply Forall_impl; [|exact Rt]. intros []; simpl; auto. }
  destruct (spec_all_listed_set_det (dec_b j i Inv (key_dec t)) _ _ _ _ _ _ _ _ _ _ _ _ Rt' (fun _ => eq_refl) S1 S2) as [<- Q].
  exists xs, sa, sb, (n1 + n2). split; [intros n Hn; split; [apply E1|apply E2]; lia|].
  intros k. rewrite <- (Q (j k)), (i_j j i Inv). reflexivity.
Qed.
