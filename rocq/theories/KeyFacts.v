(** Facts about key types used by the property files. *)
Require Import List Arith NArith ZArith Bool Lia.
Import ListNotations.
From Verif Require Import Std Traits Key Api Spec KeyLaws MapCore MapLaws MapProofs SetCore
  Reach SetHistory SetLaws SetFacts SetProofs.

Lemma spec_total t : hash_free t = true ->
  forall x y, x = y \/ ks_before (key_spec t) x y \/ ks_before (key_spec t) y x.
Proof.
  intros F x y. destruct (proj1 key_before_total t F x y) as [H|[H|H]]; auto;
    apply (proj1 spec_before t) in H; auto.
Qed.

Lemma sibling_leaf :
  (forall t k x, sibling t k = Some x -> leaf_of t k = LBool) /\
  (forall vs k x, siblings vs k = Some x -> leaves_of vs k = LBool).
Proof.
  apply kty_mut; simpl; intros; try discriminate; auto.
  - destruct k as [k|]; [|discriminate]. destruct (sibling t k) as [y|] eqn:E; [|discriminate]. exact (H k y E).
  - exact (H k x H0).
  - destruct k as [[]|k]; [discriminate|]. destruct (siblings r k) as [y|] eqn:E; [|discriminate]. exact (H k y E).
  - destruct k as [k|k].
    + destruct (sibling t k) as [y|] eqn:E; [|discriminate]. exact (H k y E).
    + destruct (siblings r k) as [y|] eqn:E; [|discriminate]. exact (H0 k y E).
Qed.

Lemma no_bool_sib t k : leaf_of t k <> LBool -> ks_sib (key_spec t) k = None.
Proof.
  intros H. rewrite (proj1 spec_sib t). destruct (sibling t k) eqn:E; auto.
  apply (proj1 sibling_leaf) in E. contradiction.
Qed.

Lemma hash_free_units : forall vs, all_units vs = true -> hash_free_variants vs = true.
Proof. induction vs; simpl; auto; discriminate. Qed.

Lemma leaves_units : forall vs k, all_units vs = true -> leaves_of vs k = LVariant.
Proof. induction vs; simpl; auto; [|discriminate]. intros [[]|k] H; auto. Qed.

Lemma spec_exact_leaf {T} (lf lf' : T -> leaf) (sb sb' : T -> option T) p o x q :
  (forall k, lf k = lf' k) -> (forall k, sb k = sb' k) ->
  spec_exact lf sb p o x q -> spec_exact lf' sb' p o x q.
Proof.
  intros E1 E2. destruct o; simpl; auto.
  - rewrite E1. auto.
  - rewrite E2. auto.
  - intros [(b & -> & H) H2]. split; auto. exists b. split; auto. rewrite H.
    split; intros G k'; rewrite (G k'), E1; reflexivity.
  - intros (l & log & l' & oc & H0 & H1 & H2 & H3 & H4). exists l, log, l', oc.
    split; auto. split; [intros k; rewrite <- E1; auto|]. split; auto. split; auto.
    destruct oc; auto. destruct H4 as [H4 H5]. split; auto. intros k. rewrite <- E1. auto.
Qed.

Lemma spec_all_mono {T} (s1 s2 : (T -> bool) -> sop T -> sobs T -> (T -> bool) -> Prop) q :
  (forall p o x q, s1 p o x q -> s2 p o x q) ->
  forall ops p xs, spec_all s1 p ops xs q -> spec_all s2 p ops xs q.
Proof.
  intros E. induction ops as [|o ops IH]; intros p [|x xs]; simpl; auto.
  intros (p1 & H1 & H2). exists p1. auto.
Qed.
