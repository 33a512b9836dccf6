(** Comparing maps whose values have an equality with effects (C58). *)
Require Import List Bool Arith Lia.
Import ListNotations.
From Verif Require Import Std Spec OptionBucket Hashbrown Traits MapStorages SetStorages DeriveUnit DeriveAny Key Api
  IterLaws MapCore MapLaws HashLaws OptLaws UnitLaws AnyLaws KeyLaws KeyFacts Reach MapFacts MapProofs EqSpec.

Definition compares {X K V} (f : eq_fn X V) (c : X -> X * option bool) (a b : K -> option V) : Prop :=
  forall x, compared f a b x (fst (c x)) (snd (c x)).

Lemma compares_ext {X K V} (f : eq_fn X V) c c' (a b a' b' : K -> option V) :
  (forall x, c x = c' x) -> (forall k, a k = a' k) -> (forall k, b k = b' k) ->
  compares f c a b -> compares f c' a' b'.
Proof.
  intros Ec Ea Eb H x. rewrite <- Ec. destruct (H x) as (l & q & C & N & I & M).
  exists l, q. split; [exact C|]. split; [exact N|]. split.
  - intros k v w Hk. rewrite <- Ea, <- Eb. auto.
  - destruct q as [[|]|]; auto. destruct M as [[R M]|[R (k & v & M)]].
    + left. split; [exact R|]. intros k. rewrite <- Ea, <- Eb. apply M.
    + right. split; [exact R|]. exists k, v. rewrite <- Ea, <- Eb. exact M.
Qed.

Lemma cell_compares {X V} (f : eq_fn X V) (o p : option V) :
  compares f (fun x => eq_cell f x o p) (fun _ : unit => o) (fun _ => p).
Proof.
  intros x. destruct o as [v|], p as [w|]; simpl.
  - destruct (f x v w) as [x' r] eqn:E. simpl.
    exists [(tt, v, w)], r. split; [|split; [|split]].
    + destruct r as [[|]|].
      * eapply calls_more; [exact E|constructor].
      * eapply calls_last; [exact E|discriminate].
      * eapply calls_last; [exact E|discriminate].
    + simpl. constructor; [intros []|constructor].
    + intros k v' w' [[= <- <- <-]|[]]. auto.
    + destruct r as [[|]|]; auto. left. split; auto. intros []. right. simpl. eauto.
  - exists [], (Some true). split; [constructor|]. split; [constructor|]. split; [intros ? ? ? []|].
    right. split; auto. exists tt, v. auto.
  - exists [], (Some true). split; [constructor|]. split; [constructor|]. split; [intros ? ? ? []|].
    right. split; auto. exists tt, w. auto.
  - exists [], (Some true). split; [constructor|]. split; [constructor|]. split; [intros ? ? ? []|].
    left. auto.
Qed.

(** The key of each call renamed. *)
Definition rename {K K' V} (g : K -> K') (l : list (K * V * V)) : list (K' * V * V) :=
  map (fun e => (g (fst (fst e)), snd (fst e), snd e)) l.

Lemma rename_keys {K K' V} (g : K -> K') (l : list (K * V * V)) :
  map (fun e => fst (fst e)) (rename g l) = map g (map (fun e => fst (fst e)) l).
Proof. unfold rename. rewrite !map_map. reflexivity. Qed.

Lemma rename_in {K K' V} (g : K -> K') (l : list (K * V * V)) k v w :
  In (k, v, w) (rename g l) <-> exists k', k = g k' /\ In (k', v, w) l.
Proof.
  unfold rename. rewrite in_map_iff. split.
  - intros ([[k' v'] w'] & [= <- <- <-] & H). eauto.
  - intros (k' & -> & H). exists (k', v, w). auto.
Qed.

Lemma rename_calls {X K K' V} (f : eq_fn X V) (g : K -> K') x l x' q :
  calls f x l x' q -> calls f x (rename g l) x' q.
Proof.
  induction 1; simpl.
  - constructor.
  - eapply calls_last; eauto.
  - eapply calls_more; eauto.
Qed.

Lemma calls_app {X K V} (f : eq_fn X V) x (l : list (K * V * V)) x1 l2 x2 q :
  calls f x l x1 (Some true) -> calls f x1 l2 x2 q -> calls f x (l ++ l2) x2 q.
Proof.
  intros H. remember (Some true) as r. induction H; subst; simpl; intros H2; auto.
  - congruence.
  - eapply calls_more; eauto.
Qed.

Lemma iso_compares {X K K' V} (f : eq_fn X V) c (a b : K' -> option V) (g : K -> K') (h : K' -> K) :
  (forall k, h (g k) = k) -> (forall k, g (h k) = k) ->
  compares f c (fun k => a (g k)) (fun k => b (g k)) -> compares f c a b.
Proof.
  intros G1 G2 H x. destruct (H x) as (l & q & C & N & I & M).
  exists (rename g l), q. split; [apply rename_calls; exact C|]. split; [|split].
  - rewrite rename_keys. apply NoDup_map_inj; [|exact N].
    intros k k' E. rewrite <- (G1 k), <- (G1 k'), E. reflexivity.
  - intros k v w Hk. apply rename_in in Hk as (k' & -> & Hk). auto.
  - destruct q as [[|]|]; auto. destruct M as [[R M]|[R (k & v & M)]].
    + left. split; [exact R|]. intros k. destruct (M (h k)) as [Hk|(v & w & Hk)].
      * rewrite G2 in Hk. auto.
      * right. exists v, w. apply rename_in. exists (h k). auto.
    + right. split; [exact R|]. eauto.
Qed.

Lemma seq_compares {X KA KB V} (f : eq_fn X V) ca cb (a b : KA + KB -> option V) :
  compares f ca (fun k => a (inl k)) (fun k => b (inl k)) ->
  compares f cb (fun k => a (inr k)) (fun k => b (inr k)) ->
  compares f (fun x => eq_and (ca x) cb) a b.
Proof.
  intros HA HB x. destruct (HA x) as (l & q & C & N & I & M).
  destruct (ca x) as [x1 r1] eqn:Ea. simpl in C, M.
  assert (Q : q = Some true \/ r1 = q /\ q <> Some true).
  { destruct q as [[|]|]; auto; right; split; auto; discriminate. }
  destruct Q as [-> | [-> Q]].
  - destruct M as [[-> M]|[-> (k & v & M)]].
    + unfold eq_and. destruct (HB x1) as (l2 & q2 & C2 & N2 & I2 & M2).
      destruct (cb x1) as [x2 r2]. simpl in C2, M2 |- *.
      exists (rename inl l ++ rename inr l2), q2. split; [|split; [|split]].
      * eapply calls_app; apply rename_calls; eauto.
      * rewrite map_app, !rename_keys. apply NoDup_app_disj.
        -- apply NoDup_map_inj; [congruence|exact N].
        -- apply NoDup_map_inj; [congruence|exact N2].
        -- intros k K1 K2. apply in_map_iff in K1 as (k1 & <- & _).
           apply in_map_iff in K2 as (k2 & K2 & _). discriminate.
      * intros k v w Hk. apply in_app_or in Hk as [Hk|Hk];
          apply rename_in in Hk as (k' & -> & Hk); auto.
      * destruct q2 as [[|]|]; auto. destruct M2 as [[-> M2]|[-> (k & v & M2)]].
        -- left. split; auto. intros [k|k].
           ++ destruct (M k) as [Hk|(v & w & Hk)]; [auto|]. right. exists v, w.
              apply in_or_app. left. apply rename_in. eauto.
           ++ destruct (M2 k) as [Hk|(v & w & Hk)]; [auto|]. right. exists v, w.
              apply in_or_app. right. apply rename_in. eauto.
        -- right. split; auto. eauto.
    + simpl. exists (rename inl l), (Some true). split; [apply rename_calls; exact C|].
      split; [rewrite rename_keys; apply NoDup_map_inj; [congruence|exact N]|]. split.
      * intros k' v' w Hk. apply rename_in in Hk as (k2 & -> & Hk). auto.
      * right. split; auto. eauto.
  - assert (E : eq_and (x1, q) cb = (x1, q)) by (destruct q as [[|]|]; auto; congruence).
    rewrite E. simpl. exists (rename inl l), q. split; [apply rename_calls; exact C|].
    split; [rewrite rename_keys; apply NoDup_map_inj; [congruence|exact N]|]. split.
    + intros k' v' w Hk. apply rename_in in Hk as (k2 & -> & Hk). auto.
    + destruct q as [[|]|]; auto; congruence.
Qed.

Lemma void_compares {X K V} (f : eq_fn X V) (a b : K -> option V) :
  (forall k : K, False) -> compares f (fun x => (x, Some true)) a b.
Proof.
  intros H x. exists [], (Some true). split; [constructor|]. split; [constructor|].
  split; [intros ? ? ? []|]. left. split; auto. intros k. destruct (H k).
Qed.

Section Hash.
  Context {X K V : Type} (eqb : K -> K -> bool) (Heq : forall a b, eqb a b = true <-> a = b)
    (f : eq_fn X V).

  Lemma entries_compared (t : list (K * V)) : forall l x, NoDup (map fst l) ->
    exists log q,
      calls f x log (fst (h_eq_entries eqb f x l t)) q /\
      NoDup (map (fun e => fst (fst e)) log) /\
      (forall k v w, In (k, v, w) log -> In (k, v) l /\ h_get eqb k t = Some w) /\
      match q with
      | Some true =>
          (snd (h_eq_entries eqb f x l t) = Some true /\
           forall k v, In (k, v) l -> exists w, In (k, v, w) log) \/
          (snd (h_eq_entries eqb f x l t) = Some false /\
           exists k v, In (k, v) l /\ h_get eqb k t = None)
      | _ => snd (h_eq_entries eqb f x l t) = q
      end.
  Proof.
    induction l as [|[k v] l IH]; intros x N; simpl.
    - exists [], (Some true). split; [constructor|]. split; [constructor|].
      split; [intros ? ? ? []|]. left. split; auto. intros ? ? [].
    - inversion N as [|? ? N1 N2]; subst. destruct (h_get eqb k t) as [w|] eqn:E.
      + destruct (f x v w) as [x1 [[|]|]] eqn:Ef; simpl.
        * destruct (IH x1 N2) as (log & q & C & Nl & I & M).
          exists ((k, v, w) :: log), q. split; [eapply calls_more; eauto|]. split; [|split].
          -- simpl. constructor; auto. intros Hk. apply in_map_iff in Hk as ([[k' v'] w'] & Hk & Hi).
             simpl in Hk. subst k'. apply N1. apply I in Hi as [Hi _].
             apply in_map_iff. exists (k, v'). auto.
          -- intros k' v' w' [[= <- <- <-]|Hi]; auto. apply I in Hi as [? ?]. auto.
          -- destruct q as [[|]|]; auto. destruct M as [[R M]|[R (k' & v' & Hi & Hn)]].
             ++ left. split; auto. intros k' v' [[= <- <-]|Hi]; [exists w; simpl; auto|].
                destruct (M _ _ Hi) as (w' & Hw). exists w'. simpl. auto.
             ++ right. split; auto. exists k', v'. auto.
        * exists [(k, v, w)], (Some false). split; [eapply calls_last; eauto; discriminate|].
          split; [simpl; constructor; [intros []|constructor]|]. split; auto.
          intros k' v' w' [[= <- <- <-]|[]]; auto.
        * exists [(k, v, w)], None. split; [eapply calls_last; eauto; discriminate|].
          split; [simpl; constructor; [intros []|constructor]|]. split; auto.
          intros k' v' w' [[= <- <- <-]|[]]; auto.
      + exists [], (Some true). split; [constructor|]. split; [constructor|].
        split; [intros ? ? ? []|]. right. split; auto. exists k, v. auto.
  Qed.

  (** A longer list has a key that a shorter one lacks. *)
  Lemma longer (s l : list (K * V)) : NoDup (map fst l) -> length s < length l ->
    exists k v, h_get eqb k l = Some v /\ h_get eqb k s = None.
  Proof.
    intros N H.
    destruct (forallb (fun e => is_some (h_get eqb (fst e) s)) l) eqn:E.
    - assert (I : incl (map fst l) (map fst s)).
      { intros k Hk. apply in_map_iff in Hk as ([k' v] & <- & Hk).
        rewrite forallb_forall in E. specialize (E _ Hk). simpl in E |- *.
        destruct (h_get eqb k' s) eqn:G; [|discriminate]. eapply (h_get_in eqb Heq); eauto. }
      pose proof (NoDup_incl_length N I) as L. rewrite !map_length in L. lia.
    - apply not_true_iff_false in E. rewrite forallb_forall in E.
      assert (D : exists e, In e l /\ h_get eqb (fst e) s = None).
      { clear N H. induction l as [|e l IH].
        - destruct E. intros ? [].
        - destruct (h_get eqb (fst e) s) eqn:G.
          + destruct IH as (e' & H1 & H2).
            * intros A. apply E. intros y [<-|Hy]; [rewrite G; reflexivity|auto].
            * exists e'. simpl. auto.
          + exists e. simpl. auto. }
      destruct D as ([k v] & Hi & Hn). exists k, v. split; [|exact Hn].
      apply (h_in_get eqb Heq); auto.
  Qed.

  Lemma hash_compares (a b : list (K * V)) : NoDup (map fst a) -> NoDup (map fst b) ->
    compares f (fun x => h_eq_with eqb f x a b) (fun k => h_get eqb k a) (fun k => h_get eqb k b).
  Proof.
    intros Na Nb x. unfold h_eq_with. destruct (Nat.eqb (length a) (length b)) eqn:El.
    - apply Nat.eqb_eq in El. destruct (entries_compared b a x Na) as (log & q & C & N & I & M).
      exists log, q. split; [exact C|]. split; [exact N|]. split.
      + intros k v w H. apply I in H as [H1 H2]. split; [|exact H2].
        apply (h_in_get eqb Heq); auto.
      + destruct q as [[|]|]; auto. destruct M as [[R M]|[R (k & v & Hi & Hn)]].
        * left. split; [exact R|]. intros k.
          assert (J : incl (map fst b) (map fst a)).
          { apply NoDup_length_incl; [exact Na|rewrite !map_length; lia|].
            intros k' Hk. apply in_map_iff in Hk as ([k2 v] & <- & Hk).
            destruct (M _ _ Hk) as (w & Hw). apply I in Hw as [_ Hw]. simpl.
            eapply (h_get_in eqb Heq); eauto. }
          destruct (h_get eqb k a) as [v|] eqn:Ga.
          -- right. assert (Hi : In k (map fst a)) by (eapply (h_get_in eqb Heq); eauto).
             apply in_map_iff in Hi as ([k' v'] & E & Hi). simpl in E. subst k'.
             destruct (M _ _ Hi) as (w & Hw). eauto.
          -- left. split; auto. apply (h_get_none eqb Heq). intros Hk.
             apply (h_get_none eqb Heq) in Ga. apply Ga, J, Hk.
        * right. split; [exact R|]. exists k, v. left. split; [|exact Hn].
          apply (h_in_get eqb Heq); auto.
    - apply Nat.eqb_neq in El. exists [], (Some true). simpl.
      split; [constructor|]. split; [constructor|]. split; [intros ? ? ? []|]. right. split; auto.
      destruct (Nat.lt_ge_cases (length a) (length b)) as [Hl|Hl].
      + destruct (longer a b Nb Hl) as (k & v & H1 & H2). exists k, v. auto.
      + destruct (longer b a Na) as (k & v & H1 & H2); [lia|]. exists k, v. auto.
  Qed.
End Hash.

Lemma arr_compares {X V R} (f : eq_fn X V) (u : units R) (a b : arr (option V) u) :
  compares f (fun x => arr_eq_with f u x a b) (arr_get u a) (arr_get u b).
Proof.
  induction u as [|R u IH].
  - apply void_compares. intros [].
  - apply (seq_compares f (fun x => eq_cell f x (fst a) (fst b)) (fun x => arr_eq_with f u x (snd a) (snd b))).
    + apply (compares_ext f (fun x => eq_cell f x (fst a) (fst b)) _ (fun _ => fst a) (fun _ => fst b));
        auto using cell_compares.
    + apply IH.
Qed.

(** Laws of a key type whose storage compares as it should. *)
Record EqLaws {K} (ki : KeyImpl K) : Type := MkEqLaws {
  el_spec : KeySpec K;
  el_map : forall V, MapLaws el_spec (ki_map ki V);
  el_eq : forall V X (f : eq_fn X V) a b,
    c_inv (ml_core (el_map V)) a -> c_inv (ml_core (el_map V)) b ->
    compares f (fun x => ms_eq_with (ki_map ki V) f x a b) (ms_get (ki_map ki V) a) (ms_get (ki_map ki V) b)
}.
Arguments MkEqLaws {K ki}.
Arguments el_spec {K ki}.
Arguments el_map {K ki}.
Arguments el_eq {K ki}.

Definition elspec K (ki : KeyImpl K) (L : EqLaws ki) : KeySpec K := el_spec L.
Definition elmap V K (ki : KeyImpl K) (L : EqLaws ki) : MapLaws (elspec K ki L) (ki_map ki V) := el_map L V.

Lemma any_compares {R} (fs : fields R) (L : flaws (fun K ki => EqLaws ki) fs) V X (f : eq_fn X V) :
  forall a b, c_inv (ml_core (any_laws elspec V (elmap V) fs L)) a ->
    c_inv (ml_core (any_laws elspec V (elmap V) fs L)) b ->
    compares f (fun x => any_eq_with V f fs x a b) (any_get V fs a) (any_get V fs b).
Proof.
  cbn [ml_core any_laws]. induction fs as [|R fs IH|K R ki fs IH]; intros a b Ha Hb.
  - apply void_compares. intros [].
  - apply (proj1 (any_inv_unit _ _ _ _ _ _)) in Ha, Hb.
    apply (seq_compares f (fun x => eq_cell f x (fst a) (fst b)) (fun x => any_eq_with V f fs x (snd a) (snd b))).
    + apply (compares_ext f (fun x => eq_cell f x (fst a) (fst b)) _ (fun _ => fst a) (fun _ => fst b));
        auto using cell_compares; intros []; reflexivity.
    + exact (IH L _ _ Ha Hb).
  - destruct L as [p L]. apply (proj1 (any_inv_tuple _ _ _ _ _ _ _)) in Ha as [Ha1 Ha2], Hb as [Hb1 Hb2].
    apply (seq_compares f (fun x => ms_eq_with (ki_map ki V) f x (fst a) (fst b))
                          (fun x => any_eq_with V f fs x (snd a) (snd b))).
    + exact (el_eq p V X f _ _ Ha1 Hb1).
    + exact (IH L _ _ Ha2 Hb2).
Qed.

Definition unit_eq_laws {R} (u : units R) ss : EqLaws (MkKeyImpl (unit_map_storage u) ss).
Proof.
  refine (MkEqLaws (ki := MkKeyImpl _ _) (units_spec u) (fun V => unit_laws u) _).
  intros V X f a b _ _. exact (arr_compares f u (um_data a) (um_data b)).
Defined.

Definition derive_eq_laws : forall t ki, derive t = Some ki -> EqLaws ki.
Proof.
  apply (kty_rec' (fun t => forall ki, derive t = Some ki -> EqLaws ki)
           (fun vs => forall fs, derive_fields vs = Some fs -> flaws (fun K ki => EqLaws ki) fs)).
  - intros ki [= <-].
    refine (MkEqLaws (ki := MkKeyImpl bool_map_storage bool_set_storage) bool_spec bool_laws _).
    intros V X f a b _ _.
    apply (iso_compares f _ _ _ (fun s : unit + unit => match s with inl _ => true | inr _ => false end)
             (fun k : bool => if k then inl tt else inr tt)).
    + intros [[]|[]]; reflexivity.
    + intros []; reflexivity.
    + apply (seq_compares f (fun x => eq_cell f x (bm_t a) (bm_t b)) (fun x => eq_cell f x (bm_f a) (bm_f b)));
        apply cell_compares.
  - intros ki [= <-].
    refine (MkEqLaws (ki := MkKeyImpl single_map_storage single_set_storage) unit_spec single_laws _).
    intros V X f a b _ _. apply cell_compares.
  - intros p ki [= <-].
    refine (MkEqLaws (ki := MkKeyImpl _ _) (hash_spec (prim_eqb p)) (fun V => hash_laws_ _ (prim_eqb_eq p)) _).
    intros V X f a b Ha Hb. exact (hash_compares _ (prim_eqb_eq p) f _ _ Ha Hb).
  - intros t IH ki E. apply option_map_inv in E as (ki' & E & ->).
    pose (L := IH ki' E).
    refine (MkEqLaws (ki := MkKeyImpl _ _) (opt_spec (el_spec L)) (fun V => opt_laws_ _ _ (el_map L V)) _).
    intros V X f a b Ha Hb. apply opt_inv in Ha, Hb.
    apply (iso_compares f _ _ _ (fun s : unit + key t => match s with inl _ => None | inr k => Some k end)
             (fun k : option (key t) => match k with None => inl tt | Some k => inr k end)).
    + intros [[]|k]; reflexivity.
    + intros [k|]; reflexivity.
    + apply (seq_compares f (fun x => eq_cell f x (om_none _ a) (om_none _ b))
               (fun x => ms_eq_with (ki_map ki' V) f x (om_some _ a) (om_some _ b))).
      * apply cell_compares.
      * exact (el_eq L V X f _ _ Ha Hb).
  - intros bitset vs IH ki E. simpl in E. destruct (as_units vs) as [u|] eqn:Eu.
    + unfold derive_unit in E. destruct bitset.
      * destruct (determine_bits _) as [w|]; [|discriminate].
        assert (E' : MkKeyImpl (unit_map_storage u) (bit_set_storage u w) = ki)
          by (simpl in E; congruence).
        subst ki. apply unit_eq_laws.
      * assert (E' : MkKeyImpl (unit_map_storage u) (unit_set_storage u) = ki)
          by (simpl in E; congruence).
        subst ki. apply unit_eq_laws.
    + apply option_map_inv in E as (fs & E & ->). pose (L := IH fs E).
      refine (MkEqLaws (ki := derive_any fs) (fspec elspec fs L)
                (fun V => any_laws elspec V (elmap V) fs L) _).
      intros V X f a b Ha Hb. exact (any_compares fs L V X f a b Ha Hb).
  - intros fs [= <-]. exact tt.
  - intros r IH fs E. apply option_map_inv in E as (fs' & E & ->). exact (IH fs' E).
  - intros t IHt r IHr fs E. simpl in E.
    destruct (derive t) as [ki|] eqn:Et; [|discriminate].
    destruct (derive_fields r) as [fs'|] eqn:Er; [|discriminate].
    injection E as <-. exact (IHt ki eq_refl, IHr fs' eq_refl).
Defined.

Lemma c58 t ki V X (f : eq_fn X V) x a b x' r :
  derive t = Some ki -> map_reachable (ki_map ki V) a -> map_reachable (ki_map ki V) b ->
  map_eq_with (ki_map ki V) f x a b = (x', r) ->
  compared f (map_get (ki_map ki V) a) (map_get (ki_map ki V) b) x x' r.
Proof.
  intros E Ra Rb H. pose (L := derive_eq_laws t ki E).
  pose proof (el_eq L V X f a b (r_inv (el_map L V) a Ra) (r_inv (el_map L V) b Rb) x) as C.
  unfold map_eq_with in H. cbv beta in C. rewrite H in C. exact C.
Qed.

Lemma pure_calls {X K V} (veq : V -> V -> bool) (x : X) (l : list (K * V * V)) x' q :
  calls (fun x v w => (x, Some (veq v w))) x l x' q ->
  x' = x /\ ((q = Some true /\ forall k v w, In (k, v, w) l -> veq v w = true) \/
             (q = Some false /\ exists k v w, In (k, v, w) l /\ veq v w = false)).
Proof.
  induction 1 as [x|x k v w x' r E Hr|x k v w x1 l x' r E H IH].
  - split; [reflexivity|]. left. split; [reflexivity|]. intros ? ? ? [].
  - injection E as <- <-. split; [reflexivity|]. right. destruct (veq v w) eqn:E; [congruence|].
    split; auto. exists k, v, w. simpl. auto.
  - injection E as <- E. destruct IH as [-> [[-> IH]|[-> (k' & v' & w' & IH & F)]]]; (split; [reflexivity|]).
    + left. split; [reflexivity|]. intros k' v' w' [[= <- <- <-]|Hi]; eauto.
    + right. split; auto. exists k', v', w'. simpl. auto.
Qed.

Lemma c58_pure t ki V X (veq : V -> V -> bool) (x : X) a b :
  derive t = Some ki -> map_reachable (ki_map ki V) a -> map_reachable (ki_map ki V) b ->
  map_eq_with (ki_map ki V) (fun x v w => (x, Some (veq v w))) x a b =
  (x, Some (map_eq (ki_map ki V) veq a b)).
Proof.
  intros E Ra Rb.
  pose proof (c19 (derive_map_laws t ki V E) veq a b Ra Rb) as Q.
  destruct (map_eq_with _ _ x a b) as [x' r] eqn:H.
  destruct (c58 t ki V X _ x a b x' r E Ra Rb H) as (l & q & C & N & I & M).
  apply pure_calls in C as [-> [[-> C]|[-> (k & v & w & Hi & F)]]].
  - destruct M as [[-> M]|[-> (k & v & M)]].
    + rewrite (proj2 Q); auto. intros k. destruct (M k) as [[-> ->]|(v & w & Hi)]; simpl; auto.
      destruct (I _ _ _ Hi) as [-> ->]. simpl. eauto.
    + destruct (map_eq (ki_map ki V) veq a b); auto. pose proof (proj1 Q eq_refl k) as F.
      destruct M as [[H1 H2]|[H1 H2]]; rewrite H1, H2 in F; destruct F.
  - subst r. destruct (map_eq (ki_map ki V) veq a b); auto. pose proof (proj1 Q eq_refl k) as G.
    destruct (I _ _ _ Hi) as [H1 H2]. rewrite H1, H2 in G. simpl in G. congruence.
Qed.
