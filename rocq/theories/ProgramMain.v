(** Programs over several maps of one derived key type. *)
Require Import List Arith Bool Lia Permutation.
Import ListNotations.
From Verif Require Import Std Traits Key Spec Api Reach KeyLaws EffectSpec EqSpec IterLaws IterFacts MapCore MapLaws
  MapProofs EffectProofs EqProofs IterProofs DropSpec DropProofs ClearSpec ClearProofs Sources Program ProgramSpec ProgramProofs ProgramLedger.

Section Main.
  Context {t : kty} {ki : KeyImpl (key t)} (E : derive t = Some ki) {V S : Type}.
  Notation m := (ki_map ki V).
  Notation L := (derive_map_laws t ki V E).

  Lemma m_before a b : ks_before (key_spec t) a b <-> key_before t a b.
  Proof. exact (proj1 spec_before t a b). Qed.
  Lemma m_clears D (dr : drop_fn D V) :
    clears_at (placed t) dr (fun k => k) (fun d st => ms_clear_drop m dr d st) (fun f s st => ms_retain m f s st).
  Proof. exact (proj1 derive_at t ki E V D dr _ (placed t) (fun k => k) (fun a b => eq_refl)). Qed.
  Lemma m_end1 : double_ended (ms_Iter m) = hash_free t.
  Proof. destruct (proj1 derive_ends t ki E) as [H _]. now destruct (H V) as (H1 & _). Qed.
  Lemma m_end2 : double_ended (ms_IntoIter m) = hash_free t.
  Proof. destruct (proj1 derive_ends t ki E) as [H _]. now destruct (H V) as (_ & _ & _ & _ & _ & H1). Qed.
  Lemma m_eq X (f : eq_fn X V) x a b x' r :
    map_reachable m a -> map_reachable m b -> map_eq_with m f x a b = (x', r) ->
    compared f (map_get m a) (map_get m b) x x' r.
  Proof. intros Ra Rb H. exact (c58 t ki V X f x a b x' r E Ra Rb H). Qed.

  Lemma c64 (U : helpers S (key t) V) vars l s s' R xs e :
    exec_all m U l s (repeat None vars) = (s', R, xs, e) ->
    exists M, does_all (key_before t) (placed t) (hash_free t) U l s (repeat None vars) s' M xs e /\
      Forall2 (osees m) R M.
  Proof.
    intros H. exact (all_ok m U _ L _ _ _ m_before m_clears (proj1 free_places t) (@clone_undone t ki E V) (ordered t) m_end1 m_end2 m_eq l s _ _ s' R xs e
      (rel_start m vars) H).
  Qed.

  Lemma held_none n : held (K := key t) (V := V) (repeat None n) = [].
  Proof. induction n; cbn; auto. Qed.

  Lemma c64_ledger (U : helpers S (key t) V) vars l s s' b R xs :
    exec_all m (with_book U) l (s, MkBook [] []) (repeat None vars) = ((s', b), R, xs, true) ->
    exists M lost, Forall2 (osees m) R M /\
      Permutation (all_put_in l xs ++ made b) (held M ++ all_given_back l xs ++ gone b ++ lost) /\
      (lost <> [] -> exists q x, In (q, x) (combine l xs) /\ may_lose (hash_free t) q x).
  Proof.
    intros H.
    destruct (all_ok m (with_book U) _ L _ _ _ m_before m_clears (proj1 free_places t) (@clone_undone t ki E V) (ordered t) m_end1 m_end2 m_eq l _ _ _ _ R xs true
      (rel_start m vars) H) as (M & D & F).
    apply all_balanced in D as (dm & dg & lost & [B1 B2] & P & Hl). cbn in B1, B2.
    rewrite app_nil_r in B1, B2. rewrite B1, B2, held_none, app_nil_r in *.
    exists M, lost. split; [exact F|]. split; [|exact Hl]. rewrite P. perm.
  Qed.

  Lemma c64_nothing_left (U : helpers S (key t) V) vars l s s' b R xs :
    exec_all m (with_book U) l (s, MkBook [] []) (repeat None vars) = ((s', b), R, xs, true) ->
    (forall a, var a R = None) ->
    (forall q x, In (q, x) (combine l xs) -> ~ may_lose (hash_free t) q x) ->
    Permutation (all_put_in l xs ++ made b) (all_given_back l xs ++ gone b).
  Proof.
    intros H HR Hl. destruct (c64_ledger U vars l s s' b R xs H) as (M & lost & F & P & Q).
    assert (held M = []) as E0.
    { clear -F HR. induction F as [|x y R M Hx F IH]; [reflexivity|].
      specialize (HR 0) as H0. cbn in H0. subst x. destruct y; [contradiction|].
      cbn. apply IH. intros a. exact (HR (Datatypes.S a)). }
    rewrite E0 in P. destruct lost as [|v lost].
    - now rewrite app_nil_r in P.
    - destruct Q as (q & x & Hi & Hm); [discriminate|]. destruct (Hl q x Hi Hm).
  Qed.
End Main.
