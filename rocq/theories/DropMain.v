(** Dropping maps of a derived key type: the lemmas behind C66. *)
Require Import List Arith Bool Lia Permutation Sorted.
Import ListNotations.
From Verif Require Import Std Traits Key Spec KeyLaws Api Reach IterLaws IterFacts MapCore MapLaws MapFacts MapProofs
  EffectSpec DropSpec Sources DropProofs.

Section Main.
  Context (t : kty) (ki : KeyImpl (key t)) (V S : Type) (dr : drop_fn S V).
  Notation m := (ki_map ki V).

  Lemma d_before a b : ks_before (key_spec t) a b <-> key_before t a b.
  Proof. exact (proj1 spec_before t a b). Qed.

  Lemma c66_map st s k s' n p : derive t = Some ki -> map_reachable m st ->
    map_drop m (counted dr) (s, Datatypes.S k) st = ((s', n), p) ->
    exists l lk, yields (ms_Iter m) (map_iter m st) l /\
      drops_some dr (key_before t) (Datatypes.S k) None s l s' n lk.
  Proof.
    intros E R H. pose (L := derive_map_laws t ki V E). destruct (c06 L st R) as (l & Y & _).
    destruct (whole_drop L _ d_before dr st l s k s' n p R Y H) as [lk D]. eauto.
  Qed.

  Lemma c66_into_iter st ds o it s k s' n p : derive t = Some ki -> map_reachable m st ->
    run_it (ms_IntoIter m) ds (map_into_iter m st) = Some (o, it) ->
    it_drop (ms_IntoIter m) (counted (fun s e => dr s (snd e))) (s, Datatypes.S k) it = ((s', n), p) ->
    exists l lk, yields (ms_Iter m) (map_iter m st) l /\ o = fst (deque ds l) /\
      drops_some dr (key_before t) (Datatypes.S k) None s (snd (deque ds l)) s' n lk.
  Proof.
    intros E R Er H. pose (L := derive_map_laws t ki V E). destruct (c06 L st R) as (l & Y & _).
    destruct (into_drop L _ d_before dr ds st l o it s k s' n p R Y Er H) as [Ho [lk D]]. eauto.
  Qed.

  Lemma c66_all_dropped st ds o it s k s' n p : derive t = Some ki -> map_reachable m st ->
    run_it (ms_IntoIter m) ds (map_into_iter m st) = Some (o, it) ->
    it_drop (ms_IntoIter m) (counted (fun s e => dr s (snd e))) (s, Datatypes.S k) it = ((s', n), p) ->
    n = Datatypes.S k \/ hash_free t = true ->
    exists l, yields (ms_Iter m) (map_iter m st) l /\
      drops_some dr (key_before t) (Datatypes.S k) None s (snd (deque ds l)) s' n [].
  Proof.
    intros E R Er H Hn. pose (L := derive_map_laws t ki V E). destruct (c06 L st R) as (l & Y & _ & So).
    destruct (into_drop L _ d_before dr ds st l o it s k s' n p R Y Er H) as [_ [lk D]].
    exists l. split; [exact Y|]. enough (lk = []) as -> by exact D.
    destruct Hn as [->|Hf]; [exact (drops_quiet _ _ _ _ _ _ _ _ _ D eq_refl eq_refl)|].
    eapply drops_sorted; [exact D| |easy]. apply deque_sorted. apply (ordered t Hf).
    - rewrite (es_is L st l R Y), map_map. exact (c_nodup_k _ _ _ (ml_core L) st (r_inv L st R)).
    - revert So. apply sorted_by_ext. intros a b. apply d_before.
  Qed.

  Lemma c66_clone (f : clone_fn S V) st s s' n o : derive t = Some ki -> map_reachable m st ->
    map_clone_undo m (beside f) (counted dr) (s, 1) st = ((s', n), o) ->
    exists l, yields (ms_Iter m) (map_iter m st) l /\
    match o with
    | Some st' => n = 1 /\ exists l', clone_values f s l = (s', Some l') /\
        map_reachable m st' /\ yields (ms_Iter m) (map_iter m st') l'
    | None => exists s1 made order, clones_until f s l s1 made /\ Permutation order made /\
        drops_some dr (key_before t) 1 None s1 order s' n []
    end.
  Proof.
    intros E R H. destruct (c06 (derive_map_laws t ki V E) st R) as (l & Y & _).
    exists l. split; [exact Y|]. exact (clone_undone E f dr s st l s' n o R Y H).
  Qed.
End Main.
