(** Proofs about building the same map or set in different ways. *)
Require Import List Arith Bool Permutation.
Import ListNotations.
From Verif Require Import Std Traits Key Api Spec Reach MapCore MapLaws IterFacts MapFacts MapProofs
  SetCore SetLaws SetFacts SetProofs.

Section MapBuild.
  Context {K V : Type} {sp : KeySpec K} {m : MapStorage K V} (L : MapLaws sp m).
  Local Notation reach := (map_reachable m).

  Lemma key_cases (a b : K) : a = b \/ a <> b.
  Proof.
    destruct (ks_eqb sp a b) eqn:E.
    - left. apply (c_keqb _ _ _ (ml_core L)). exact E.
    - right. intros ->. rewrite (proj2 (c_keqb _ _ _ (ml_core L) b b) eq_refl) in E. discriminate.
  Qed.

  Lemma same_get_eq veq a b : reach a -> reach b -> (forall v, veq v v = true) ->
    (forall k, map_get m a k = map_get m b k) -> map_eq m veq a b = true.
  Proof.
    intros Ra Rb Hv E. apply (c19 L); auto. intros k. rewrite E.
    destruct (map_get m b k); simpl; auto.
  Qed.

  Lemma from_perm w w' l l' : NoDup (map fst l) -> Permutation l l' ->
    forall k, map_get m (map_from_iter m w l) k = map_get m (map_from_iter m w' l') k.
  Proof.
    intros N P k.
    assert (N' : NoDup (map fst l'))
      by (eapply Permutation_NoDup; [apply Permutation_map, P|exact N]).
    destruct (c23 L w l) as [_ G]. destruct (c23 L w' l') as [_ G'].
    destruct (map_get m (map_from_iter m w' l') k) as [v|] eqn:E.
    - apply G, nodup_last; auto. apply (Permutation_in _ (Permutation_sym P)).
      apply nodup_last; auto. apply G'; auto.
    - destruct (map_get m (map_from_iter m w l) k) as [v|] eqn:E2; auto.
      apply G, nodup_last in E2; auto. apply (Permutation_in _ P) in E2.
      apply nodup_last in E2; auto. apply G' in E2. congruence.
  Qed.

  Lemma undo_insert st k v : reach st ->
    let '(old, st1) := map_insert m st k v in
    let st2 := match old with
               | Some u => snd (map_insert m st1 k u)
               | None => snd (map_remove m st1 k)
               end in
    reach st2 /\ forall k', map_get m st2 k' = map_get m st k'.
  Proof.
    intros R. destruct (insert_facts L st k v (r_inv L st R)) as (E1 & E2 & E3).
    pose proof (mr_insert m st k v R) as R1.
    destruct (map_insert m st k v) as [old st1]. simpl in *. subst old.
    destruct (map_get m st k) as [u|] eqn:G.
    - split; [apply (mr_insert m st1 k u R1)|].
      destruct (insert_facts L st1 k u (r_inv L st1 R1)) as (_ & F2 & F3).
      intros k'. destruct (key_cases k' k) as [->|n]; [congruence|]. rewrite F3, E3; auto.
    - split; [apply (mr_remove m st1 k R1)|].
      destruct (remove_facts L st1 k (r_inv L st1 R1)) as (_ & F2 & F3).
      intros k'. destruct (key_cases k' k) as [->|n]; [congruence|]. rewrite F3, E3; auto.
  Qed.

  Lemma undo_remove st k : reach st ->
    let '(old, st1) := map_remove m st k in
    let st2 := match old with
               | Some u => snd (map_insert m st1 k u)
               | None => st1
               end in
    reach st2 /\ forall k', map_get m st2 k' = map_get m st k'.
  Proof.
    intros R. destruct (remove_facts L st k (r_inv L st R)) as (E1 & E2 & E3).
    pose proof (mr_remove m st k R) as R1.
    destruct (map_remove m st k) as [old st1]. simpl in *. subst old.
    destruct (map_get m st k) as [u|] eqn:G.
    - split; [apply (mr_insert m st1 k u R1)|].
      destruct (insert_facts L st1 k u (r_inv L st1 R1)) as (_ & F2 & F3).
      intros k'. destruct (key_cases k' k) as [->|n]; [congruence|]. rewrite F3, E3; auto.
    - split; [exact R1|].
      intros k'. destruct (key_cases k' k) as [->|n]; [congruence|]. rewrite E3; auto.
  Qed.
End MapBuild.

Section SetBuild.
  Context {T : Type} {sp : KeySpec T} {m : SetStorage T} (L : SetLaws sp m).

  Lemma s_from_same w w' l l' : (forall k, In k l <-> In k l') ->
    set_eq m (set_from_iter m w l) (set_from_iter m w' l') = true.
  Proof.
    intros E. destruct (s_c23 L w l) as [R G]. destruct (s_c23 L w' l') as [R' G'].
    apply (s_c32 L); auto. intros k. apply bool_ext. rewrite G, G'. apply E.
  Qed.

  Lemma s_rebuild w st l : set_reachable m st -> yields (ss_Iter m) (set_iter m st) l ->
    set_eq m (set_from_iter m w l) st = true.
  Proof.
    intros R Y. destruct (s_c23 L w l) as [R' G].
    destruct (s_c30 L st R) as (l' & Y' & _ & [_ El] & _).
    rewrite (yields_fun _ _ _ _ Y Y') in *. apply (s_c32 L); auto.
    intros k. apply bool_ext. rewrite G, El. reflexivity.
  Qed.
End SetBuild.
