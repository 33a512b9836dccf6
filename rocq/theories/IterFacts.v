(** Facts about running lawful iterators. *)
Require Import List Arith Bool Lia Sorted.
Import ListNotations.
From Verif Require Import Std Traits Api Spec Reach IterLaws.

Section It.
  Context {A : Type} (i : iterator A) (L : it_laws i).

  Lemma drain_rem l : forall s n, il_ok L s -> il_rem L s = l -> length l < n ->
    drain i n s = Some l.
  Proof.
    induction l as [|x l IH]; intros s n Hok E Hn; destruct n as [|n]; try (simpl in Hn; lia); simpl.
    - destruct (il_next i L s Hok) as (s' & En & _). rewrite En, E. reflexivity.
    - destruct (il_next i L s Hok) as (s' & En & Hok' & R). rewrite En, E. simpl.
      rewrite (IH s' n); auto.
      + rewrite R, E. reflexivity.
      + simpl in Hn. lia.
  Qed.

  Lemma yields_rem s : il_ok L s -> yields i s (il_rem L s).
  Proof.
    intros Hok. exists (S (length (il_rem L s))). intros n Hn.
    apply drain_rem; auto; lia.
  Qed.

  Lemma drain_back_rem l b : it_back i = Some b -> forall s n, il_ok L s -> il_rem L s = rev l ->
    length l < n -> drain_back i b n s = Some l.
  Proof.
    intros Hb. induction l as [|x l IH]; intros s n Hok E Hn; destruct n as [|n];
      try (simpl in Hn; lia); simpl.
    - destruct (il_back i L b s Hb Hok) as (s' & En & _). rewrite En, E. reflexivity.
    - destruct (il_back i L b s Hb Hok) as (s' & En & Hok' & R). rewrite En, E.
      unfold last_error. rewrite rev_involutive. simpl.
      rewrite (IH s' n); auto.
      + rewrite R, E. simpl. rewrite removelast_last. reflexivity.
      + simpl in Hn. lia.
  Qed.

  Lemma run_it_rem ds : forall s, il_ok L s -> (In Back ds -> double_ended i = true) ->
    exists s', run_it i ds s = Some (fst (deque ds (il_rem L s)), s') /\
               il_ok L s' /\ il_rem L s' = snd (deque ds (il_rem L s)).
  Proof.
    induction ds as [|d ds IH]; intros s Hok Hb; simpl.
    - eauto.
    - assert (Hb' : In Back ds -> double_ended i = true) by (intros H; apply Hb; right; auto).
      destruct d.
      + destruct (il_next i L s Hok) as (s1 & En & Hok' & R). rewrite En.
        destruct (IH s1 Hok' Hb') as (s2 & E2 & Hok2 & R2). rewrite E2. simpl.
        exists s2. rewrite <- R. destruct (deque ds (il_rem L s1)); auto.
      + specialize (Hb (or_introl eq_refl)). unfold double_ended in Hb.
        destruct (it_back i) as [b|] eqn:Eb; [|discriminate].
        destruct (il_back i L b s Eb Hok) as (s1 & En & Hok' & R). rewrite En.
        destruct (IH s1 Hok' Hb') as (s2 & E2 & Hok2 & R2). rewrite E2. simpl.
        exists s2. rewrite <- R. destruct (deque ds (il_rem L s1)); auto.
  Qed.

  Lemma run_it_back ds : forall s r, run_it i ds s = Some r -> In Back ds -> double_ended i = true.
  Proof.
    unfold double_ended. induction ds as [|d ds IH]; intros s r E; simpl; [intros []|].
    simpl in E. destruct d.
    - destruct (it_next i s) as [x s1]. destruct (run_it i ds s1) eqn:E1; [|discriminate].
      intros [[=]|H]. eauto.
    - destruct (it_back i) as [b|] eqn:Eb; [auto|discriminate].
  Qed.

  Lemma behaves_rem s : il_ok L s -> behaves_as_deque i s (il_rem L s).
  Proof.
    intros Hok. split; [apply yields_rem; auto|].
    intros ds Hb. destruct (run_it_rem ds s Hok Hb) as (s' & E & Hok' & R).
    exists s'. split; auto. rewrite <- R. apply yields_rem; auto.
  Qed.

  Lemma hints_rem s : il_ok L s -> hints_bracket i s.
  Proof.
    intros Hok ds outs s' E.
    destruct (run_it_rem ds s Hok (run_it_back ds s _ E)) as (s2 & E2 & Hok2 & R2).
    rewrite E in E2. injection E2 as _ <-.
    exists (il_rem L s'). split; [apply yields_rem; auto|]. apply (il_hint i L s' Hok2).
  Qed.

  Lemma clones_rem s : il_ok L s -> clones_continue i s (il_rem L s).
  Proof.
    intros Hok. split; [apply behaves_rem; auto|]. intros ds outs s' E.
    destruct (run_it_rem ds s Hok (run_it_back ds s _ E)) as (s2 & E2 & Hok2 & R2).
    rewrite E in E2. injection E2 as _ <-. rewrite (il_clone i L s').
    split; [|reflexivity]. rewrite <- R2. apply behaves_rem; auto.
  Qed.
End It.

Lemma yields_fun {A} (i : iterator A) s l l' : yields i s l -> yields i s l' -> l = l'.
Proof.
  intros [n H] [n' H']. specialize (H (Nat.max n n')). specialize (H' (Nat.max n n')).
  rewrite H in H' by lia. specialize (H' ltac:(lia)). congruence.
Qed.

Lemma strongly_sorted_by {A} (before : A -> A -> Prop) l :
  StronglySorted (fun a b => ~ before b a) l -> sorted_by before l.
Proof.
  induction 1 as [|x l H IH Hx]; simpl; auto. split; auto.
  intros y Hy. rewrite Forall_forall in Hx. apply Hx; auto.
Qed.

Lemma sorted_by_ext {A} (b1 b2 : A -> A -> Prop) l :
  (forall x y, b2 x y -> b1 x y) -> sorted_by b1 l -> sorted_by b2 l.
Proof. intros E. induction l; simpl; auto. intros [H1 H2]. split; auto. intros y Hy H. eapply H1; eauto. Qed.
