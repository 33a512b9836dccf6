(** The theorems of C70 for storages that the derive macro gives. *)
Require Import List Bool String ZArith Lia.
Import ListNotations.
From Verif Require Import Std Traits Api Spec Reach Key KeyLaws KeyFacts MapCore MapLaws AnyCodeSpec AnyRetains ClearSpec DropSpec
  ProgramMain SetCore SetLaws SetFacts SetProofs IterFacts EffectProofs SrcParse SrcRun SrcSpec SrcFiles
  SrcFront SrcFrontMap SrcFrontEntry SrcFrontWhole SrcFrontLoop SrcFrontSound SrcFrontSetSpec SrcFrontSet SrcFrontSetLoop.

Section Derived.
  Context {V S : Type} (t : kty) (ki : KeyImpl (key t)) (U : user_fns (key t) V S) (E : entry_fns (key t) V S).
  Hypothesis D : derive t = Some ki.
  Notation m := (ki_map ki V).
  Notation L := (derive_map_laws t ki V D).

  Lemma derived_ext : forall (f g : retain_fn S (key t) V) s st,
    (forall s k v, f s k v = g s k v) -> ms_retain m f s st = ms_retain m g s st.
  Proof. exact (fun f g s st e => proj1 (proj1 derive_retains t ki D) V S f g s st e). Qed.
  Lemma derived_set_ext : forall (f g : set_retain_fn S (key t)) s st,
    (forall s k, f s k = g s k) -> ss_retain (ki_set ki) f s st = ss_retain (ki_set ki) g s st.
  Proof. exact (fun f g s st e => proj2 (proj1 derive_retains t ki D) S f g s st e). Qed.
  Lemma derived_good w l s : Forall good (fst (fst (answers (fmap_req m U E) l s (map_new m w)))).
  Proof.
    exact (new_freqs_fine m L U E (placed t) (@m_clears t ki D V)
      (fun X f => proj1 derive_clones t ki D V X f) w l s).
  Qed.

  Lemma c70_map w l s :
    told_by (map_file m None (program map_text)) U (front_req m (program map_text) U E) w l s =
    Some (fst (answers (fmap_req m U E) l s (map_new m w))).
  Proof. rewrite map_read. apply front_told; [exact derived_ext|apply derived_good]. Qed.
  Lemma c70_map_eq w1 w2 l1 l2 s :
    compare_new (map_file m None (program map_text)) U (front_req m (program map_text) U E) w1 w2 l1 l2 s =
    Some (compared (fmap_req m U E) (map_compare U m) (map_new m w1) (map_new m w2) l1 l2 s).
  Proof.
    rewrite map_read. apply front_compared; [exact derived_ext|].
    assert (H := derived_good w1 l1 s).
    destruct (answers (fmap_req m U E) l1 s (map_new m w1)) as [[r1 s1] a]. split; [exact H|apply derived_good].
  Qed.
  Lemma c70_sound w l s : exists xs s',
    told_by (map_file m None (program map_text)) U (front_req m (program map_text) U E) w l s = Some (xs, s') /\
    ~ In Bad xs.
  Proof.
    rewrite c70_map. assert (H := derived_good w l s).
    destruct (answers (fmap_req m U E) l s (map_new m w)) as [[xs s'] a]. exists xs, s'. split; [reflexivity|].
    intros B. exact (proj1 (Forall_forall _ _) H Bad B eq_refl).
  Qed.
End Derived.

Lemma says_run {K} (m : SetStorage K) fuel k : forall x o x',
  inter_run m fuel k x = Some (o, x') -> inter_says m fuel (repeat INext k) x = Some (map (@IsElem K) o, x').
Proof.
  induction k as [|k IH]; intros x o x' H; cbn [inter_run repeat inter_says] in *.
  - injection H as <- <-. reflexivity.
  - destruct (inter_next m fuel x) as [[e x1]|]; [|discriminate].
    destruct (inter_run m fuel k x1) as [[o2 x2]|] eqn:Er; [|discriminate]. injection H as <- <-.
    rewrite (IH _ _ _ Er). reflexivity.
Qed.

Lemma c70_inter_elements t ki (a b : ss_St (ki_set ki)) : derive t = Some ki ->
  set_reachable (ki_set ki) a -> set_reachable (ki_set ki) b ->
  exists l,
    elements (fun k => set_contains (ki_set ki) a k && set_contains (ki_set ki) b k) l /\
    sorted_by (key_before t) l /\
    forall V S (U : user_fns (key t) V S) (g : V -> key t -> V) init s k,
    returns (fun n => text_inter (ki_set ki) (program set_text) U n (repeat INext k) g init s
                        (set_val (ki_set ki) a) (set_val (ki_set ki) b))
      (map (@IsElem (key t)) (fst (deque (repeat Spec.Front k) l)), fold_left g (snd (deque (repeat Spec.Front k) l)) init).
Proof.
  intros E Ra Rb.
  destruct (s_c31 (derive_set_laws t ki E) a b Ra Rb) as (l & H1 & H2 & _ & _ & H3).
  exists l. split; [exact H1|].
  split; [exact (sorted_by_ext _ _ _ (fun a b => proj2 (proj1 spec_before t a b)) H2)|].
  intros V S U g init s k. destruct (H3 k) as (x' & (n1 & R1) & _ & _ & _ & R2).
  destruct (R2 V g init) as (n2 & R3).
  exists (40 + 3 * (n1 + n2)). intros n Hn. rewrite set_read.
  apply (inter_ok (ki_set ki) U (n1 + n2)); [|exact Hn].
  unfold model_inter. rewrite (says_run _ _ _ _ _ _ (R1 (n1 + n2) ltac:(lia))), (R3 (n1 + n2)) by lia. reflexivity.
Qed.
