(** Values neither appear nor vanish in a program over several maps. *)
Require Import List Arith Bool Lia Permutation Sorted.
Import ListNotations.
From Verif Require Import Std Traits Spec EffectSpec EqSpec DropSpec ClearSpec Sources SourceSpec AnyRefSpec Program ProgramSpec.

(** ** Rearranging appended lists *)
Ltac cut_at a r :=
  lazymatch r with
  | a => constr:((@nil unit, tt))
  | a ++ ?t => constr:((@nil unit, t))
  | ?h ++ ?t =>
      let p := cut_at a t in
      lazymatch p with
      | (@nil unit, tt) => constr:((h, tt))
      | (@nil unit, ?u) => constr:((h, u))
      | (?l, tt) => constr:((h ++ l, tt))
      | (?l, ?u) => constr:((h ++ l, u))
      end
  end.

Lemma perm_head {A} (a l r l1 l2 : list A) : r = l1 ++ a ++ l2 -> Permutation l (l1 ++ l2) ->
  Permutation (a ++ l) r.
Proof.
  intros -> H. rewrite H. rewrite !app_assoc. apply Permutation_app_tail. apply Permutation_app_comm.
Qed.

Ltac perm_step :=
  rewrite <- ?app_assoc, ?app_nil_r, ?app_nil_l;
  lazymatch goal with
  | |- Permutation ?l ?l => reflexivity
  | |- Permutation (?a ++ ?l) ?r =>
      let p := cut_at a r in
      lazymatch p with
      | (@nil unit, tt) => refine (perm_head a l r [] [] _ _); [now rewrite ?app_nil_r|]
      | (@nil unit, ?u) => refine (perm_head a l r [] u _ _); [reflexivity|]
      | (?h, tt) => refine (perm_head a l r h [] _ _); [now rewrite <- ?app_assoc, ?app_nil_r|rewrite ?app_nil_r]
      | (?h, ?u) => refine (perm_head a l r h u _ _); [now rewrite <- ?app_assoc|]
      end
  | |- Permutation ?a (?h ++ ?t) => apply Permutation_sym
  end.
Ltac perm := repeat perm_step.

Lemma set_var_length' {A} a (x : option A) R : length (set_var a x R) = length R.
Proof. revert a. induction R as [|y R IH]; intros [|a]; cbn; auto. Qed.
Lemma var_other' {A} a b (x : option A) R : a <> b -> var b (set_var a x R) = var b R.
Proof.
  unfold var. revert a b. induction R as [|y R IH]; intros [|a] [|b] H; cbn; auto; try congruence.
Qed.

Section Ledger.
  Context {K V S : Type}.
  Variable before : K -> K -> Prop.
  Variable pl : K -> K -> spot.
  Variable both : bool.
  Variable U : helpers S K V.
  Notation W := (with_book U).
  Notation bk := (book V).

  (** From [b] to [b'], [dm] was made and [dg] was taken. *)
  Definition booked (b b' : bk) (dm dg : list V) : Prop :=
    made b' = dm ++ made b /\ gone b' = dg ++ gone b.

  Lemma booked_refl b : booked b b [] [].
  Proof. split; reflexivity. Qed.
  Lemma booked_trans b1 b2 b3 m1 g1 m2 g2 : booked b1 b2 m1 g1 -> booked b2 b3 m2 g2 ->
    booked b1 b3 (m2 ++ m1) (g2 ++ g1).
  Proof. intros [E1 E2] [E3 E4]. split; rewrite ?E3, ?E4, ?E1, ?E2; now rewrite app_assoc. Qed.

  Lemma drop_booked s b v s' b' p : h_drop W (s, b) v = ((s', b'), p) -> booked b b' [] [v].
  Proof. cbn. destruct (h_drop U s v) as [s1 q]. intros [= <- <- <-]. split; reflexivity. Qed.

  Lemma drops_booked bf n w x (l : list (K * V)) x' n' lk : drops_some (h_drop W) bf n w x l x' n' lk -> n' <> 0 ->
    exists dg, booked (snd x) (snd x') [] dg /\ Permutation (map snd l) (dg ++ map snd lk).
  Proof.
    induction 1 as [n w x|n w [s b] k v [s1 b1] l x2 n2 lk Hw D H IH|n w [s b] k v [s1 b1] l x2 n2 lk Hw D H IH
                   |w [s b] k v [s1 b1] l Hw D|n j x k v l x2 n2 lk Hw H IH];
      intros Hn.
    - exists []. split; [apply booked_refl|reflexivity].
    - apply drop_booked in D. destruct (IH Hn) as (dg & B & P).
      eexists. split; [exact (booked_trans _ _ _ _ _ _ _ D B)|].
      cbn [map snd]. change (v :: map snd l) with ([v] ++ map snd l). rewrite P. perm.
    - apply drop_booked in D. destruct (IH Hn) as (dg & B & P).
      eexists. split; [exact (booked_trans _ _ _ _ _ _ _ D B)|].
      cbn [map snd]. change (v :: map snd l) with ([v] ++ map snd l). rewrite P. perm.
    - congruence.
    - destruct (IH Hn) as (dg & B & P). exists dg. split; [exact B|]. cbn [map snd].
      change (v :: map snd l) with ([v] ++ map snd l). change (v :: map snd lk) with ([v] ++ map snd lk).
      rewrite P. perm.
  Qed.

  Lemma clone_one s b v s' b' o : h_clone W (s, b) v = ((s', b'), o) ->
    booked b b' (match o with Some v1 => [v1] | None => [] end) [].
  Proof. cbn. destruct (h_clone U s v) as [s1 [v1|]]; intros [= <- <- <-]; split; reflexivity. Qed.

  Lemma clone_booked (l : list (K * V)) : forall x x' o, clone_values (h_clone W) x l = (x', o) ->
    match o with
    | Some l' => booked (snd x) (snd x') (rev (map snd l')) []
    | None => exists d, booked (snd x) (snd x') d []
    end.
  Proof.
    induction l as [|[k v] l IH]; intros [s b] x' o; cbn [clone_values].
    - intros [= <- <-]. apply booked_refl.
    - destruct (h_clone W (s, b) v) as [[s1 b1] [v1|]] eqn:Ec; apply clone_one in Ec.
      + destruct (clone_values (h_clone W) (s1, b1) l) as [x2 o2] eqn:E. apply IH in E.
        destruct o2 as [l2|]; intros [= <- <-].
        * cbn [map rev]. exact (booked_trans _ _ _ _ _ _ _ Ec E).
        * destruct E as [d E]. exists (d ++ [v1]). exact (booked_trans _ _ _ _ _ _ _ Ec E).
      + intros [= <- <-]. exists []. exact Ec.
  Qed.

  Lemma until_booked (l : list (K * V)) x x' mk : clones_until (h_clone W) x l x' mk ->
    booked (snd x) (snd x') (rev (map snd mk)) [].
  Proof.
    intros (l0 & k & v & rest & [s0 b0] & _ & Ec & Ev). destruct x' as [s1 b1].
    apply clone_booked in Ec. apply clone_one in Ev. exact (booked_trans _ _ _ _ _ _ _ Ec Ev).
  Qed.

  Lemma keep_one s b k v s' b' v1 a : keep_or_drop W (s, b) k v = ((s', b'), v1, a) ->
    match a with
    | Keep | Unwind => booked b b' [v1] [v]
    | Discard | DiscardUnwind => booked b b' [v1] [v1; v]
    end.
  Proof.
    unfold keep_or_drop. cbn. destruct (h_keep U s k v) as [[s1 v2] [[]|]].
    - intros [= <- <- <- <-]. split; reflexivity.
    - destruct (h_drop U s1 v2) as [s2 []]; intros [= <- <- <- <-]; split; reflexivity.
    - intros [= <- <- <- <-]. split; reflexivity.
  Qed.

  Lemma retain_booked (l : list (K * V)) : forall x x' l' o,
    retain_list (keep_or_drop W) x l = (x', l', o) ->
    exists dm dg, booked (snd x) (snd x') dm dg /\
      Permutation (dm ++ map snd l) (map snd l' ++ dg).
  Proof.
    induction l as [|[k v] l IH]; intros [s b] x' l' o; cbn [retain_list].
    - intros [= <- <- <-]. exists [], []. split; [apply booked_refl|reflexivity].
    - destruct (keep_or_drop W (s, b) k v) as [[[s1 b1] v1] a] eqn:Ek. apply keep_one in Ek.
      cbn [map snd]. change (v :: map snd l) with ([v] ++ map snd l).
      change [v1; v] with ([v1] ++ [v]) in Ek.
      destruct a.
      + destruct (retain_list _ _ l) as [[x2 l2] o2] eqn:E. intros [= <- <- <-].
        apply IH in E as (dm & dg & B & P). eexists _, _.
        split; [exact (booked_trans _ _ _ _ _ _ _ Ek B)|].
        cbn [map snd]. change (v1 :: map snd l2) with ([v1] ++ map snd l2).
        transitivity ([v1] ++ [v] ++ dm ++ map snd l); [perm|]. rewrite P. perm.
      + intros E. apply IH in E as (dm & dg & B & P). eexists _, _.
        split; [exact (booked_trans _ _ _ _ _ _ _ Ek B)|].
        transitivity ([v1] ++ [v] ++ dm ++ map snd l); [perm|]. rewrite P. perm.
      + intros [= <- <- <-]. eexists _, _. split; [exact Ek|].
        cbn [map snd]. change (v1 :: map snd l) with ([v1] ++ map snd l). perm.
      + intros [= <- <- <-]. eexists _, _. split; [exact Ek|]. perm.
  Qed.

  Lemma calls_booked x (l : list (K * V * V)) x' q : calls (h_eq W) x l x' q -> snd x' = snd x.
  Proof.
    assert (One : forall x v w x1 r, h_eq W x v w = (x1, r) -> snd x1 = snd x).
    { intros [s b] v w x1 r. cbn. destruct (h_eq U s v w). intros [= <- _]. reflexivity. }
    induction 1 as [x|x k v w x' r E _|x k v w x1 l x' r E _ IH]; [reflexivity|eauto|].
    rewrite IH. eauto.
  Qed.

  Definition vals (o : option (list (K * V))) : list V :=
    match o with Some es => map snd es | None => [] end.

  Lemma held_at a (E : list (option (list (K * V)))) : a < length E ->
    exists X, Permutation (held E) (vals (var a E) ++ X) /\
      forall x, Permutation (held (set_var a x E)) (vals x ++ X).
  Proof.
    unfold held, var. revert a. induction E as [|y E IH]; intros [|a] H; cbn in H; try lia; cbn [flat_map set_var nth].
    - exists (held E). split; [reflexivity|]. intros x. reflexivity.
    - destruct (IH a ltac:(lia)) as (X & P & Q). fold (vals y). exists (vals y ++ X). split.
      + rewrite P. perm.
      + intros x. rewrite Q. perm.
  Qed.

  Lemma var_bound {A} a (x : A) R : var a R = Some x -> a < length R.
  Proof.
    unfold var. intros H. destruct (Nat.lt_ge_cases a (length R)) as [?|Hl]; [assumption|].
    rewrite nth_overflow in H by exact Hl. discriminate.
  Qed.

  Lemma deque_values ds : forall (es : list (K * V)) o rest, deque ds es = (o, rest) ->
    Permutation (map snd es) (values_in o ++ map snd rest).
  Proof.
    induction ds as [|[] ds IH]; intros es o rest; cbn [deque].
    - intros [= <- <-]. reflexivity.
    - destruct (deque ds (tl es)) as [o1 r1] eqn:E. intros [= <- <-]. apply IH in E.
      destruct es as [|[k v] es]; cbn in *; [exact E|]. now apply perm_skip.
    - destruct (deque ds (removelast es)) as [o1 r1] eqn:E. intros [= <- <-]. apply IH in E.
      destruct (rev es) as [|[k v] r] eqn:Er; cbn [hd_error values_in].
      + assert (es = []) as -> by (rewrite <- (rev_involutive es), Er; reflexivity). exact E.
      + assert (es = rev r ++ [(k, v)]) as -> by (rewrite <- (rev_involutive es), Er; reflexivity).
        rewrite removelast_last in E. rewrite map_app, E. cbn [map snd].
        change (v :: values_in o1) with ([v] ++ values_in o1). perm.
  Qed.

  Lemma places_perm k (l : list (K * V)) :
    Permutation (map snd l)
      (map snd (filter (in_array pl k) l) ++ map snd (filter (elsewhere pl k) l) ++ map snd (filter (in_table pl k) l)).
  Proof.
    induction l as [|[j v] l IH]; [reflexivity|]. cbn [filter]. unfold in_array at 1, elsewhere at 1, in_table at 1.
    cbn [fst map snd]. change (v :: map snd l) with ([v] ++ map snd l).
    destruct (pl k j); cbn [map snd]; rewrite IH.
    - reflexivity.
    - change (v :: map snd (filter (in_table pl k) l)) with ([v] ++ map snd (filter (in_table pl k) l)). perm.
    - change (v :: map snd (filter (elsewhere pl k) l)) with ([v] ++ map snd (filter (elsewhere pl k) l)). perm.
  Qed.

  Lemma clears_booked x (l : list (K * V)) x' n kept lk : clears_some (h_drop W) pl x l x' n kept lk -> n <> 0 ->
    exists dg, booked (snd x) (snd x') [] dg /\
      Permutation (map snd l) (dg ++ map snd kept ++ map snd lk) /\ (n = 2 -> lk = []).
  Proof.
    assert (Le : forall bf n w x (l : list (K * V)) x' n' lk, drops_some (h_drop W) bf n w x l x' n' lk -> n' <= n)
      by (clear; induction 1; lia).
    induction 1 as [x|[s b] k v [s1 b1] l x2 n kept lk D H IH|[s b] k v [s1 b1] l x2 n D H]; intros Hn.
    - exists []. split; [apply booked_refl|]. split; reflexivity.
    - apply drop_booked in D. destruct (IH Hn) as (dg & B & P & Q). eexists.
      split; [exact (booked_trans _ _ _ _ _ _ _ D B)|]. split; [|exact Q].
      cbn [map snd]. change (v :: map snd l) with ([v] ++ map snd l). rewrite P. perm.
    - pose proof (Le _ _ _ _ _ _ _ _ H) as Hle.
      apply drop_booked in D. apply drops_booked in H as (dg & B & P); [|exact Hn].
      cbn [map] in P. rewrite app_nil_r in P. eexists.
      split; [exact (booked_trans _ _ _ _ _ _ _ D B)|]. split; [|lia].
      cbn [map snd]. change (v :: map snd l) with ([v] ++ map snd l).
      rewrite (places_perm k l), P. perm.
  Qed.

  Definition balanced (q : stmt K V) (x : said K V) (b b' : bk) (E E' : list (option (list (K * V)))) : Prop :=
    exists dm dg lost, booked b b' dm dg /\
      Permutation (put_in q x ++ dm ++ held E) (held E' ++ dg ++ given_back q x ++ lost) /\
      (lost <> [] -> may_lose both q x).

  Lemma one_balanced q a y es y' es' x : about q = Some a ->
    does_one before pl both W q y es y' es' (Some x) ->
    exists dm dg lost, booked (snd y) (snd y') dm dg /\
      Permutation (put_in q x ++ dm ++ map snd es) (map snd es' ++ dg ++ given_back q x ++ lost) /\
      (lost <> [] -> may_lose both q x).
  Proof.
    assert (Same : forall (q : stmt K V) (x : said K V) (es : list (K * V)) (b : bk), put_in q x = [] -> given_back q x = [] ->
      exists dm dg lost, booked b b dm dg /\
      Permutation (put_in q x ++ dm ++ map snd es) (map snd es ++ dg ++ given_back q x ++ lost) /\
      (lost <> [] -> may_lose both q x)).
    { intros q0 x0 es0 b -> ->. exists [], [], []. split; [apply booked_refl|]. split; [|congruence].
      perm. }
    intros Ha D. remember (Some x) as ox eqn:Ex. destruct D;
      try (injection Ex as <-); try (apply Same; reflexivity).
    - exists [], [], []. split; [apply booked_refl|]. split; [|congruence]. cbn.
      destruct H0 as [P _]. rewrite P. cbn. rewrite app_nil_r. reflexivity.
    - exists [], [], []. split; [apply booked_refl|]. split; [|congruence].
      destruct H as (l1 & l2 & -> & ->). cbn [put_in given_back]. rewrite !map_app. cbn [map snd].
      change (old :: map snd l2) with ([old] ++ map snd l2).
      change (v :: map snd l2) with ([v] ++ map snd l2). perm.
    - exists [], [], []. split; [apply booked_refl|]. split; [|congruence].
      destruct H as (l1 & l2 & -> & ->). cbn [put_in given_back]. rewrite !map_app. cbn [map snd].
      change (v :: map snd l2) with ([v] ++ map snd l2). perm.
    - destruct s as [s b], s' as [s' b']. apply drop_booked in H0. exists [], [v], []. split; [exact H0|].
      split; [|congruence]. replace (put_in _ _) with [v] by now destruct p.
      replace (given_back _ _) with (@nil V) by now destruct p. perm.
    - destruct s as [s b], s' as [s' b']. apply drop_booked in H0. exists [], [old], []. split; [exact H0|].
      split; [|congruence]. replace (put_in _ _) with [v] by now destruct p.
      replace (given_back _ _) with (@nil V) by now destruct p.
      destruct H as (l1 & l2 & -> & ->). rewrite !map_app. cbn [map snd].
      change (old :: map snd l2) with ([old] ++ map snd l2).
      change (v :: map snd l2) with ([v] ++ map snd l2). perm.
    - exists [], [], []. split; [apply booked_refl|]. split; [|congruence]. cbn.
      destruct H0 as [P _]. rewrite P. cbn. rewrite app_nil_r. reflexivity.
    - destruct s as [s b], s' as [s' b']. apply drop_booked in H0. exists [], [v], []. split; [exact H0|].
      split; [|congruence]. replace (put_in _ _) with [v] by now destruct p.
      replace (given_back _ _) with (@nil V) by now destruct p. perm.
    - apply retain_booked in H as (dm & dg & B & P). exists dm, dg, []. split; [exact B|].
      split; [|congruence]. replace (put_in _ _) with (@nil V) by now destruct o.
      replace (given_back _ _) with (@nil V) by now destruct o. cbn [app]. rewrite P. perm.
    - assert (Hn : n <> 0 /\ (n = 2 /\ x = Fine \/ n <> 2 /\ x = Panicked)).
      { destruct n as [|[|[|n]]]; cbn in Ex; try discriminate Ex; injection Ex as <-; auto. }
      destruct Hn as [Hn Hx]. apply clears_booked in H as (dg & B & P & Q); [|exact Hn].
      exists [], dg, (map snd leaked). split; [exact B|]. split.
      + replace (put_in _ _) with (@nil V) by now destruct Hx as [[_ ->]|[_ ->]].
        replace (given_back _ _) with (@nil V) by now destruct Hx as [[_ ->]|[_ ->]].
        cbn [app]. rewrite P. perm.
      + intros Hl. unfold may_lose. destruct both; [rewrite H0 in Hl by reflexivity; now destruct Hl|].
        split; [reflexivity|]. split; [|exact Logic.I].
        destruct Hx as [[H3 _]|[_ ->]]; [rewrite (Q H3) in Hl; now destruct Hl|auto].
  Qed.

  Lemma quiet bf n w x (l : list (K * V)) x' n' lk : drops_some (h_drop W) bf n w x l x' n' lk ->
    w = None -> n' = n -> [] = lk.
  Proof.
    assert (Le : forall n w x (l : list (K * V)) x' n' lk, drops_some (h_drop W) bf n w x l x' n' lk -> n' <= n).
    { clear. induction 1; lia. }
    induction 1 as [n w x|n w x k v x1 l x2 n2 lk Hw D H IH|n w x k v x1 l x2 n2 lk Hw D H IH
                   |w x k v x1 l Hw D|n j x k v l x2 n2 lk Hw H IH]; intros Hn En; auto.
    - apply Le in H. lia.
    - discriminate.
  Qed.

  Lemma does_balanced q y E y' E' x : does before pl both W q y E y' E' (Some x) ->
    balanced q x (snd y) (snd y') E E'.
  Proof.
    assert (Same : forall q x E (b : bk), put_in q x = [] -> given_back q x = [] -> balanced q x b b E E).
    { intros q0 x0 E0 b Hp Hg. exists [], [], []. split; [apply booked_refl|]. rewrite Hp, Hg.
      split; [perm|congruence]. }
    assert (Ends : forall n f g x, ends_with (K := K) (V := V) n f g = Some x ->
      n <> 0 /\ (x = f \/ x = g) /\ (n <> 2 -> x = g)).
    { intros [|[|[|n]]] f g x0; cbn; intros [=]; repeat split; auto. congruence. }
    assert (Drops : forall y (o : option (list (K * V))) y' n, drops_map before both W y o y' n -> n <> 0 ->
      exists dg lost, booked (snd y) (snd y') [] dg /\ Permutation (vals o) (dg ++ lost) /\
        (lost <> [] -> both = false /\ n <> 2)).
    { intros y0 [es|] y0' n; cbn.
      - intros (lk & D & Hk) Hn. destruct (drops_booked _ _ _ _ _ _ _ _ D Hn) as (dg & B & P).
        exists dg, (map snd lk). split; [exact B|]. split; [exact P|]. intros Hl.
        split; [destruct both; [rewrite Hk in Hl by reflexivity; now destruct Hl|reflexivity]|].
        intros ->. destruct (quiet _ _ _ _ _ _ _ _ D eq_refl eq_refl). now destruct Hl.
      - intros [-> _] _. exists [], []. split; [apply booked_refl|]. split; [reflexivity|congruence]. }
    intros D. remember (Some x) as ox eqn:Ex. destruct D; 
      try (injection Ex as <-; apply Same; solve [reflexivity|now destruct q]).
    - subst x0.
      destruct (one_balanced _ _ _ _ _ _ _ H H1) as (dm & dg & lost & B & P & Hl).
      exists dm, dg, lost. split; [exact B|]. split; [|exact Hl].
      destruct (held_at a R (var_bound a es R H0)) as (X & P1 & P2). rewrite H0 in P1.
      rewrite P1, (P2 (Some es')). cbn [vals].
      transitivity ((put_in q x ++ dm ++ map snd es) ++ X); [perm|]. rewrite P. perm.
    - destruct (Ends _ _ _ _ Ex) as (Hn & Hx & Hg). destruct (Drops _ _ _ _ H0 Hn) as (dg & lost & B & P & Q).
      exists [], dg, lost. split; [exact B|].
      split; [|intros Hl; destruct (Q Hl) as [-> Hm]; rewrite (Hg Hm); split; [reflexivity|eauto]].
      destruct (held_at a R H) as (X & P1 & P2). rewrite P1, (P2 (Some [])), P. cbn [vals map].
      destruct Hx as [-> | ->]; cbn [put_in given_back]; perm.
    - injection Ex as <-. destruct H3 as (l & p & Cl & _). apply calls_booked in Cl. rewrite Cl.
      apply Same; now destruct r.
    - destruct (Ends _ _ _ _ Ex) as (Hn & Hx & Hg). destruct (Drops _ _ _ _ H2 Hn) as (dg & lost & B & P & Q).
      apply clone_booked in H1. pose proof (booked_trans _ _ _ _ _ _ _ H1 B) as B2.
      eexists _, _, lost. split; [exact B2|].
      split; [|intros Hl; destruct (Q Hl) as [-> Hm]; rewrite (Hg Hm); split; [reflexivity|eauto]].
      destruct (held_at b R H0) as (X & P1 & P2). rewrite P1, (P2 (Some es')), P. cbn [vals].
      rewrite <- (Permutation_rev (map snd es')).
      destruct Hx as [-> | ->]; cbn [put_in given_back]; perm.
    - destruct (Nat.eqb n 1) eqn:En; [|discriminate]. apply Nat.eqb_eq in En. injection Ex as <-.
      apply until_booked in H1. destruct (drops_booked _ _ _ _ _ _ _ _ H3 ltac:(lia)) as (dg & B & P).
      cbn [map] in P. rewrite app_nil_r in P.
      eexists _, _, []. split; [exact (booked_trans _ _ _ _ _ _ _ H1 B)|]. split; [|congruence].
      cbn [put_in given_back]. rewrite <- (Permutation_rev (map snd mk)), <- P, H2. perm.
    - destruct (Ends _ _ _ _ Ex) as (Hn & Hx & Hg). destruct (Drops _ _ _ _ H2 Hn) as (dg & lost & B & P & Q).
      exists [], dg, lost. split; [exact B|].
      split; [|intros Hl; destruct (Q Hl) as [-> Hm]; rewrite (Hg Hm); split; [reflexivity|eauto]].
      destruct (held_at a R (var_bound a es R H)) as (X & P1 & P2). rewrite H in P1.
      assert (Lb : b < length (set_var a None R)) by now rewrite set_var_length'.
      destruct (held_at b _ Lb) as (Y & P3 & P4). rewrite P1, (P4 (Some es)).
      rewrite var_other' in P3 by exact H1. rewrite P2 in P3. cbn [vals app] in *. rewrite P3, P.
      destruct Hx as [-> | ->]; cbn [put_in given_back]; perm.
    - destruct (Ends _ _ _ _ Ex) as (Hn & Hx & Hg). destruct (Drops _ _ _ _ H0 Hn) as (dg & lost & B & P & Q).
      exists [], dg, lost. split; [exact B|].
      split; [|intros Hl; destruct (Q Hl) as [-> Hm]; rewrite (Hg Hm); split; [reflexivity|eauto]].
      destruct (held_at a R (var_bound a es R H)) as (X & P1 & P2). rewrite H in P1.
      rewrite P1, (P2 None), P. cbn [vals].
      destruct Hx as [-> | ->]; cbn [put_in given_back]; perm.
    - destruct (Ends _ _ _ _ Ex) as (Hn & Hx & Hg). destruct (Drops _ _ _ _ H2 Hn) as (dg & lost & B & P & Q).
      exists [], dg, lost. split; [exact B|].
      split; [|intros Hl; destruct (Q Hl) as [-> Hm]; rewrite (Hg Hm); split; [reflexivity|eauto]].
      destruct (held_at a R (var_bound a es R H)) as (X & P1 & P2). rewrite H in P1.
      rewrite P1, (P2 None). cbn [vals] in *. rewrite (deque_values _ _ _ _ H1), P.
      destruct Hx as [-> | ->]; cbn [put_in given_back]; perm.
  Qed.

  Lemma all_balanced l : forall y E y' E' xs, does_all before pl both W l y E y' E' xs true ->
    exists dm dg lost, booked (snd y) (snd y') dm dg /\
      Permutation (all_put_in l xs ++ dm ++ held E) (held E' ++ dg ++ all_given_back l xs ++ lost) /\
      (lost <> [] -> exists q x, In (q, x) (combine l xs) /\ may_lose both q x).
  Proof.
    induction l as [|q l IH]; intros y E y' E' xs D; inversion D; subst; clear D.
    - exists [], [], []. split; [apply booked_refl|]. split; [cbn; rewrite app_nil_r; reflexivity|congruence].
    - match goal with H : does _ _ _ _ _ _ _ _ _ _ |- _ => apply does_balanced in H as (m1 & g1 & l1 & B1 & P1 & L1) end.
      match goal with H : does_all _ _ _ _ _ _ _ _ _ _ _ |- _ => apply IH in H as (m2 & g2 & l2 & B2 & P2 & L2) end.
      exists (m2 ++ m1), (g2 ++ g1), (l1 ++ l2). split; [exact (booked_trans _ _ _ _ _ _ _ B1 B2)|]. split.
      + unfold all_put_in, all_given_back in *. cbn [combine map concat fst snd].
        match goal with |- Permutation ((?p ++ ?ps) ++ (m2 ++ m1) ++ held E) _ =>
          transitivity ((ps ++ m2) ++ (p ++ m1 ++ held E)); [perm|] end.
        rewrite P1.
        match goal with |- Permutation ((?ps ++ m2) ++ (held ?E1 ++ g1 ++ ?gb ++ l1)) _ =>
          transitivity ((ps ++ m2 ++ held E1) ++ (g1 ++ gb ++ l1)); [perm|] end.
        rewrite P2. perm.
      + intros Hl. cbn [combine]. destruct l1 as [|v l1].
        * destruct (L2 Hl) as (q' & x' & Hi & Hm). exists q', x'. split; [now right|exact Hm].
        * eexists _, _. split; [now left|]. apply L1. discriminate.
  Qed.
End Ledger.
