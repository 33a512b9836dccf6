(** Exactly which values [clear] drops, leaks and keeps: [clear] is a run of [retain]
    with a closure that looks where keys are stored. *)
Require Import List Arith Bool Lia.
Import ListNotations.
From Verif Require Import Std Traits OptionBucket Hashbrown MapStorages SetStorages DeriveUnit
  DeriveAny Key Api Spec Reach MapCore MapLaws KeyLaws MapFacts MapProofs
  IterLaws IterFacts EffectSpec EffectProofs DropSpec ClearSpec.

Section Fn.
  Context {T D V : Type} (pl : T -> T -> spot) (dr : drop_fn D V).

  (** The second part of the state: the key whose destructor unwound. *)
  Definition clr_fn : retain_fn (D * option T) T V := fun s k v =>
    let '(d, w) := s in
    match w with
    | None => let '(d1, p) := dr d v in ((d1, if p then Some k else None), v, Discard)
    | Some j =>
        match pl j k with
        | Elsewhere => (s, v, Keep)
        | OneTable => (s, v, Discard)
        | OneArray => let '(d1, _) := dr d v in ((d1, w), v, Discard)
        end
    end.

  Definition clears_at {K St} (inj : K -> T) (clear : D -> St -> D * St * outcome)
    (retain : retain_fn (D * option T) K V -> D * option T -> St -> (D * option T) * St * outcome) : Prop :=
    (forall d st d' st' oc, clear d st = (d', st', oc) ->
       exists w, oc = oc_of (is_some w) /\ (forall j, w = Some j -> exists k, j = inj k) /\
         retain (fun s k v => clr_fn s (inj k) v) (d, None) st = ((d', w), st', Done)) /\
    (forall d st j, (forall k, pl j (inj k) = Elsewhere) ->
       retain (fun s k v => clr_fn s (inj k) v) (d, Some j) st = ((d, Some j), st, Done)).

  Lemma cell_at {K} (k : K) (inj : K -> T) :
    clears_at inj (drop_cell dr) (fun f s st => retain_cell f s k st).
  Proof.
    split.
    - intros d [v|] d' st' oc; simpl.
      + destruct (dr d v) as [d1 []] eqn:E; intros [= <- <- <-].
        * exists (Some (inj k)). split; [reflexivity|]. split; [|reflexivity]. intros j [= <-]. eauto.
        * exists None. repeat split; discriminate.
      + intros [= <- <- <-]. exists None. repeat split; discriminate.
    - intros d [v|] j Hj; simpl; [now rewrite Hj|reflexivity].
  Qed.

  Lemma seq_at {KA KB K SA SB} (ia : KA -> T) (ib : KB -> T) (i : K -> T) ca ra cb rb
    (R : D * option T -> SA * SB -> (D * option T) * (SA * SB) * outcome) :
    clears_at (St := SA) ia ca ra -> clears_at (St := SB) ib cb rb ->
    (forall a b, pl (ia a) (ib b) = Elsewhere) ->
    (forall a, exists k, ia a = i k) -> (forall b, exists k, ib b = i k) ->
    (forall s st, R s st = seq_retain (ra (fun s k v => clr_fn s (ia k) v)) (rb (fun s k v => clr_fn s (ib k) v)) s st) ->
    clears_at i (seq_clear ca cb) (fun _ => R).
  Proof.
    intros [A1 A2] [B1 B2] Hab Ha Hb HR. split.
    - intros d [a b] d' st' oc. rewrite HR. unfold seq_clear, seq_retain. simpl.
      destruct (ca d a) as [[d1 a1] o1] eqn:E. destruct (A1 _ _ _ _ _ E) as (w & -> & Hw & Ra).
      rewrite Ra. destruct w as [j|]; simpl.
      + intros [= <- <- <-]. exists (Some j). destruct (Hw j eq_refl) as [ka ->].
        rewrite B2 by (intros kb; apply Hab). split; [reflexivity|]. split; [|reflexivity].
        intros j [= <-]. exact (Ha ka).
      + destruct (cb d1 b) as [[d2 b2] o2] eqn:E2. intros [= <- <- <-].
        destruct (B1 _ _ _ _ _ E2) as (w & -> & Hw2 & Rb). rewrite Rb. exists w.
        split; [reflexivity|]. split; [|reflexivity]. intros j Hj. destruct (Hw2 j Hj) as [kb ->]. exact (Hb kb).
    - intros d [a b] j Hj. rewrite HR. unfold seq_retain. simpl.
      rewrite A2; [rewrite B2; [reflexivity|]|]; intros k.
      + destruct (Hb k) as [k' ->]. apply Hj.
      + destruct (Ha k) as [k' ->]. apply Hj.
  Qed.

  Lemma iso_at {K SA SB} (i : K -> T) ca ra cb rb (to : SB -> SA) (from : SA -> SB) :
    clears_at (St := SA) i ca ra -> (forall b, from (to b) = b) ->
    (forall d st, cb d st = let '(d', a, o) := ca d (to st) in (d', from a, o)) ->
    (forall x st, rb (fun s k v => clr_fn s (i k) v) x st =
       let '(x', a, o) := ra (fun s k v => clr_fn s (i k) v) x (to st) in (x', from a, o)) ->
    clears_at (St := SB) i cb rb.
  Proof.
    intros [A1 A2] F C R. split.
    - intros d st d' st' oc. rewrite C. destruct (ca d (to st)) as [[d1 a] o] eqn:E.
      intros [= <- <- <-]. destruct (A1 _ _ _ _ _ E) as (w & -> & Hw & N).
      exists w. split; [reflexivity|]. split; [exact Hw|]. now rewrite R, N.
    - intros d st j Hj. now rewrite R, A2, F.
  Qed.

  Lemma hash_at {K} (i : K -> T) : (forall a b, pl (i a) (i b) = OneTable) ->
    clears_at (St := htable K V) i (fun d t => h_clear_drop dr d t) (fun f s t => h_retain f s t).
  Proof.
    intros Hi. split.
    - intros d [w l] d' st' oc. unfold h_clear_drop, h_retain. simpl.
      destruct (h_drop_entries dr d l) as [d1 o] eqn:E. intros [= <- <- <-].
      enough (H : exists w, o = oc_of (is_some w) /\ (forall j, w = Some j -> exists k, j = i k) /\
        h_retain_entries (fun s k v => clr_fn s (i k) v) (d, None) l = ((d1, w), [], Done)).
      { destruct H as (x & Ho & Hx & ->). exists x. auto. }
      clear w. revert d d1 o E. induction l as [|[k v] l IH]; intros d d1 o; simpl.
      + intros [= <- <-]. exists None. repeat split; discriminate.
      + destruct (dr d v) as [d2 []].
        * intros [= <- <-]. exists (Some (i k)). split; [reflexivity|]. split; [intros j [= <-]; eauto|].
          clear -Hi. induction l as [|[k' v'] l IH]; simpl; [reflexivity|]. now rewrite Hi.
        * intros E'. destruct (IH _ _ _ E') as (w & -> & Hw & ->). exists w. auto.
    - intros d [w l] j Hj. unfold h_retain. simpl.
      enough (h_retain_entries (fun s k v => clr_fn s (i k) v) (d, Some j) l = ((d, Some j), l, Done)) as ->
        by reflexivity.
      induction l as [|[k v] l IH]; simpl; [reflexivity|]. now rewrite Hj, IH.
  Qed.

  Lemma arr_at {K R} (u : units R) (i : K -> T) : (forall a b, pl (i a) (i b) = OneArray) ->
    forall inj : R -> K,
    clears_at i (fun d a => let '(d', o) := arr_drop dr u d a in (d', arr_init u None, o))
      (fun f s a => arr_retain f u inj s a).
  Proof.
    intros Hi inj.
    assert (Rest : forall R (u : units R) (inj : R -> K) j d a d' o, arr_drop dr u d a = (d', o) ->
      arr_retain (fun s k v => clr_fn s (i k) v) u inj (d, Some (i j)) a
        = ((d', Some (i j)), arr_init u None, Done)).
    { clear u inj R. intros R u. induction u as [|R u IH]; intros inj j d a d' o; simpl.
      - intros [= <- <-]. now destruct a.
      - destruct a as [[v|] a]; simpl.
        + rewrite Hi. destruct (dr d v) as [d1 p]. destruct (arr_drop dr u d1 a) as [d2 o2] eqn:E.
          intros [= <- <-]. now rewrite (IH (fun k => inj (inr k)) _ _ _ _ _ E).
        + destruct (arr_drop dr u d a) as [d2 o2] eqn:E.
          intros [= <- <-]. now rewrite (IH (fun k => inj (inr k)) _ _ _ _ _ E). }
    split.
    - intros d a d' st' oc. destruct (arr_drop dr u d a) as [d1 o] eqn:E. intros [= <- <- <-].
      revert inj d a d1 o E. induction u as [|R u IH]; intros inj d a d1 o; simpl.
      + intros [= <- <-]. exists None. destruct a. repeat split; discriminate.
      + destruct a as [[v|] a]; simpl.
        * destruct (dr d v) as [d2 []] eqn:E; destruct (arr_drop dr u d2 a) as [d3 o3] eqn:E3;
            intros [= <- <-].
          -- exists (Some (i (inj (inl tt)))). rewrite (Rest _ _ (fun k => inj (inr k)) _ _ _ _ _ E3).
             split; [reflexivity|]. split; [|reflexivity]. intros j [= <-]. eauto.
          -- destruct (IH (fun k => inj (inr k)) _ _ _ _ E3) as (w & -> & Hw & ->).
             exists w. auto.
        * destruct (arr_drop dr u d a) as [d3 o3] eqn:E3; intros [= <- <-].
          destruct (IH (fun k => inj (inr k)) _ _ _ _ E3) as (w & -> & Hw & ->).
          exists w. auto.
    - intros d a j Hj. revert inj a. induction u as [|R u IH]; intros inj a; simpl; [reflexivity|].
      destruct a as [[v|] a]; simpl; rewrite ?Hj, (IH (fun k => inj (inr k))); reflexivity.
  Qed.
End Fn.

Definition ki_at {K} (pl : K -> K -> spot) (ki : KeyImpl K) : Prop :=
  forall V D (dr : drop_fn D V) T (plT : T -> T -> spot) (i : K -> T),
  (forall a b, plT (i a) (i b) = pl a b) ->
  clears_at plT dr i (fun d st => ms_clear_drop (ki_map ki V) dr d st)
    (fun f s st => ms_retain (ki_map ki V) f s st).

Definition fields_at {R} (pl : R -> R -> spot) (fs : fields R) : Prop :=
  forall V D (dr : drop_fn D V) T (plT : T -> T -> spot) (i : R -> T),
  (forall a b, plT (i a) (i b) = pl a b) ->
  clears_at plT dr i (fun d st => any_clear_drop V dr fs d st)
    (fun _ s st => any_retain V (clr_fn plT dr) fs i s st).

Lemma any_retain_inj {S V K T} (f : retain_fn S T V) (i : K -> T) {R} (fs : fields R) :
  forall (j : R -> K) s st,
  any_retain V (fun s k v => f s (i k) v) fs j s st = any_retain V f fs (fun k => i (j k)) s st.
Proof.
  induction fs as [|R fs IH|K' R ki fs IH]; intros j s st; [reflexivity| |].
  - destruct st as [o st]. cbn [any_retain fst snd].
    change (retain_cell (fun s k v => f s (i k) v) s (j (inl tt)) o) with (retain_cell (fun s k v => f s k v) s (i (j (inl tt))) o).
    change (retain_cell (fun s k v => f s k v) s (i (j (inl tt))) o) with (retain_cell f s (i (j (inl tt))) o).
    destruct (retain_cell f s (i (j (inl tt))) o) as [[s1 o1] []]; auto.
    now rewrite (IH (fun k => j (inr k))).
  - destruct st as [o st]. cbn [any_retain fst snd]. destruct (ms_retain _ _ s o) as [[s1 o1] []]; auto.
    now rewrite (IH (fun k => j (inr k))).
Qed.

Lemma triple {A B C} (z : A * B * C) : z = let '(a, b, c) := z in (a, b, c).
Proof. now destruct z as [[a b] c]. Qed.

Lemma derive_at :
  (forall t ki, derive t = Some ki -> ki_at (placed t) ki) /\
  (forall vs fs, derive_fields vs = Some fs -> fields_at (placed_in vs) fs).
Proof.
  apply kty_mut.
  - intros ki [= <-] V D dr T pl i Hi.
    pose proof (cell_at pl dr true i) as A. pose proof (cell_at pl dr false i) as B.
    pose proof (seq_at pl dr (fun _ : unit => i true) (fun _ : unit => i false) i _ (fun f s st => retain_cell f s tt st) _
      (fun f s st => retain_cell f s tt st)
      (seq_retain (fun s st => retain_cell (fun s k v => clr_fn pl dr s (i k) v) s true st)
                  (fun s st => retain_cell (fun s k v => clr_fn pl dr s (i k) v) s false st))
      (cell_at pl dr tt (fun _ => i true)) (cell_at pl dr tt (fun _ => i false))
      (fun _ _ => Hi true false) (fun _ => ex_intro _ true eq_refl) (fun _ => ex_intro _ false eq_refl)) as H.
    refine (iso_at pl dr i _ _ _ _ (fun st => (bm_t st, bm_f st))
              (fun p => MkBoolMap (fst p) (snd p)) (H _) _ _ _).
    + reflexivity.
    + intros [t f]. reflexivity.
    + intros d [t f]. simpl. unfold bm_clear_drop, seq_clear. simpl.
      destruct (drop_cell dr d t) as [[d1 t1] []]; auto.
      destruct (drop_cell dr d1 f) as [[? ?] ?]. reflexivity.
    + intros x [t f]. simpl. unfold bm_retain, seq_retain. simpl.
      destruct (retain_cell _ x true t) as [[x1 t1] []]; auto.
      destruct (retain_cell _ x1 false f) as [[? ?] ?]. reflexivity.
  - intros ki [= <-] V D dr T pl i Hi.
    refine (iso_at pl dr i _ _ _ _ sm_inner MkSingleMap (cell_at pl dr tt i) _ _ _); auto.
    intros [o]. reflexivity.
  - intros p ki [= <-] V D dr T pl i Hi. now apply hash_at.
  - intros t IH ki E. simpl in E. destruct (derive t) as [ki'|]; [|discriminate].
    injection E as <-. intros V D dr T pl i Hi.
    pose proof (IH ki' eq_refl V D dr T pl (fun k => i (Some k)) (fun a b => Hi (Some a) (Some b))) as A.
    pose proof (seq_at pl dr _ (fun _ : unit => i None) i _ _ _ (fun f s st => retain_cell f s tt st)
      (seq_retain (fun s st => ms_retain (ki_map ki' V) (fun s k v => clr_fn pl dr s (i (Some k)) v) s st)
                  (fun s st => retain_cell (fun s k v => clr_fn pl dr s (i k) v) s None st))
      A (cell_at pl dr tt (fun _ => i None))
      (fun a _ => Hi (Some a) None) (fun a => ex_intro _ (Some a) eq_refl) (fun _ => ex_intro _ None eq_refl)) as H.
    refine (iso_at pl dr i _ _ _ _ (fun st => (om_some _ st, om_none _ st))
              (fun p => MkOptMap _ (fst p) (snd p)) (H _) _ _ _).
    + reflexivity.
    + intros [s n]. reflexivity.
    + intros d [s n]. simpl. unfold om_clear_drop, seq_clear. simpl.
      destruct (ms_clear_drop _ dr d s) as [[d1 t1] []]; auto.
      destruct (drop_cell dr d1 n) as [[? ?] ?]. reflexivity.
    + intros x [s n]. simpl. unfold om_retain, seq_retain. simpl.
      destruct (ms_retain _ _ x s) as [[x1 t1] []]; auto.
      destruct (retain_cell _ x1 None n) as [[? ?] ?]. reflexivity.
  - intros bitset vs IH ki E. simpl in E. destruct (as_units vs) as [u|] eqn:Eu.
    + assert (U : all_units vs = true).
      { clear -Eu. induction vs as [|vs IH|t vs IH]; simpl in *; try discriminate; auto.
        destruct (as_units vs); [|discriminate]. eauto. }
      assert (H : forall V D (dr : drop_fn D V) T (plT : T -> T -> spot) (i : keys vs -> T),
        (forall a b, plT (i a) (i b) = OneArray) ->
        clears_at plT dr i (fun d st => ms_clear_drop (unit_map_storage u V) dr d st)
          (fun f s st => ms_retain (unit_map_storage u V) f s st)).
      { intros V D dr T pl i Hi.
        refine (iso_at pl dr i _ _ _ _ um_data MkUnitMap (arr_at pl dr u i Hi (fun k => k)) _ _ _).
        - intros [a]. reflexivity.
        - intros d [a]. simpl. destruct (arr_drop dr u d a). reflexivity.
        - intros x [a]. reflexivity. }
      unfold derive_unit in E. intros V D dr T pl i Hi. simpl in Hi. rewrite U in Hi. destruct bitset.
      * destruct (determine_bits _) as [w|]; [|discriminate].
        assert (E' : MkKeyImpl (unit_map_storage u) (bit_set_storage u w) = ki)
          by (simpl in E; congruence).
        subst ki. now apply H.
      * assert (E' : MkKeyImpl (unit_map_storage u) (unit_set_storage u) = ki)
          by (simpl in E; congruence).
        subst ki. now apply H.
    + assert (U : all_units vs = false).
      { clear -Eu. induction vs as [|vs IH|t vs IH]; simpl in *; try discriminate; auto.
        destruct (as_units vs); [discriminate|]. auto. }
      destruct (derive_fields vs) as [fs|] eqn:Ef; [|discriminate]. injection E as <-.
      intros V D dr T pl i Hi. simpl in Hi. rewrite U in Hi.
      destruct (IH fs eq_refl V D dr T pl i Hi) as [A B]. split.
      * intros d st d' st' oc Hc. destruct (A d st d' st' oc Hc) as (w & Ho & Hw & Hr). exists w.
        split; [exact Ho|]. split; [exact Hw|]. refine (eq_trans _ Hr). apply any_retain_inj.
      * intros d st j Hj. refine (eq_trans _ (B d st j Hj)). apply any_retain_inj.
  - intros fs [= <-] V D dr T pl i Hi. split.
    + intros d st d' st' oc [= <- <- <-]. exists None. repeat split; discriminate.
    + reflexivity.
  - intros r IH fs E. simpl in E. destruct (derive_fields r) as [fs'|]; [|discriminate].
    injection E as <-. intros V D dr T pl i Hi.
    pose proof (IH fs' eq_refl V D dr T pl (fun k => i (inr k)) (fun a b => Hi (inr a) (inr b))) as B.
    refine (iso_at pl dr i _ _ _ _ (fun st => st) (fun st => st)
      (seq_at pl dr (fun _ : unit => i (inl tt)) _ i _ (fun f s st => retain_cell f s tt st) _ _
        (fun s st => any_retain V (clr_fn pl dr) (FUnit fs') i s st)
        (cell_at pl dr tt (fun _ => i (inl tt))) B _ _ _ _) _ _ _); auto.
    + intros a b. exact (Hi (inl tt) (inr b)).
    + intros a. now exists (inl tt).
    + intros b. now exists (inr b).
    + intros d [o st]. unfold seq_clear. simpl.
      destruct (drop_cell dr d o) as [[d1 o1] []]; auto.
      destruct (any_clear_drop V dr fs' d1 st) as [[? ?] ?]. reflexivity.
    + intros x st. apply triple.
  - intros t IHt r IHr fs E. simpl in E.
    destruct (derive t) as [ki|]; [|discriminate].
    destruct (derive_fields r) as [fs'|]; [|discriminate]. injection E as <-.
    intros V D dr T pl i Hi.
    pose proof (IHt ki eq_refl V D dr T pl (fun k => i (inl k)) (fun a b => Hi (inl a) (inl b))) as A.
    pose proof (IHr fs' eq_refl V D dr T pl (fun k => i (inr k)) (fun a b => Hi (inr a) (inr b))) as B.
    refine (iso_at pl dr i _ _ _ _ (fun st => st) (fun st => st)
      (seq_at pl dr _ _ i _ _ _ _
        (fun s st => any_retain V (clr_fn pl dr) (FTuple ki fs') i s st) A B _ _ _ _) _ _ _); auto.
    + intros a b. exact (Hi (inl a) (inr b)).
    + intros a. now exists (inl a).
    + intros b. now exists (inr b).
    + intros d [o st]. unfold seq_clear. simpl.
      destruct (ms_clear_drop _ dr d o) as [[d1 o1] []]; auto.
      destruct (any_clear_drop V dr fs' d1 st) as [[? ?] ?]. reflexivity.
    + intros x st. apply triple.
Qed.

(** * On lists *)

Section Lists.
  Context {D K V : Type} (pl : K -> K -> spot) (dr : drop_fn D V).

  Lemma after_list j : forall l d,
    retain_list (clr_fn pl dr) (d, Some j) l =
    ((fst (drop_values dr d (map snd (filter (in_array pl j) l))), Some j),
     filter (elsewhere pl j) l, Done).
  Proof.
    induction l as [|[k v] l IH]; intros d; [reflexivity|]. cbn [retain_list clr_fn filter].
    unfold in_array at 1, elsewhere at 1. cbn [fst]. destruct (pl j k).
    - cbn [map snd drop_values]. destruct (dr d v) as [d1 p]. rewrite IH.
      now destruct (drop_values dr d1 _) as [d2 o].
    - now rewrite IH.
    - now rewrite IH.
  Qed.

  Lemma run_clears : forall l d d' w kept,
    retain_list (clr_fn pl dr) (d, None) l = ((d', w), kept, Done) ->
    exists leaked, clears_to dr pl d l d' kept leaked (oc_of (is_some w)).
  Proof.
    induction l as [|[k v] l IH]; intros d d' w kept; cbn [retain_list clr_fn].
    - intros [= <- <- <-]. exists []. constructor.
    - destruct (dr d v) as [d1 []] eqn:E.
      + rewrite after_list. intros [= <- <- <-]. destruct (drop_values dr d1 _) as [d2 o] eqn:E2.
        eexists. eapply ClPanic; eauto.
      + intros H. destruct (IH _ _ _ _ H) as [lk C]. exists lk. eapply ClOk; eauto.
  Qed.
End Lists.

Section Clear.
  Context {K V : Type} {sp : KeySpec K} {m : MapStorage K V} (L : MapLaws sp m).

  Lemma c51_exact pl D (dr : drop_fn D V) d st d' st' oc :
    clears_at pl dr (fun k => k) (fun d st => ms_clear_drop m dr d st) (fun f s st => ms_retain m f s st) ->
    map_reachable m st -> map_clear_drop m dr d st = (d', st', oc) ->
    exists l kept leaked,
      yields (ms_Iter m) (map_iter m st) l /\
      clears_to dr pl d l d' kept leaked oc /\
      yields (ms_Iter m) (map_iter m st') kept /\ lists (map_get m st') kept /\
      map_reachable m st'.
  Proof.
    intros [H _] R E. destruct (H _ _ _ _ _ E) as (w & -> & _ & N).
    destruct (c12 L _ (clr_fn pl dr) (d, None) st R) as (l & s' & l' & o & st2 & Y & El & E2 & Y' & Hl).
    unfold map_retain in E2. change (fun s k v => clr_fn pl dr s k v) with (clr_fn pl dr) in N.
    rewrite N in E2. injection E2 as <- <- <-.
    destruct (run_clears _ _ _ _ _ _ _ El) as [lk C].
    pose proof (mr_retain m _ (clr_fn pl dr) (d, None) st R) as R'.
    unfold map_retain in R'. rewrite N in R'.
    exists l, l', lk. auto.
  Qed.
End Clear.

(** Without hash tables, no two keys are in one. *)
Lemma free_places :
  (forall t, hash_free t = true -> forall a b, placed t a b <> OneTable) /\
  (forall vs, hash_free_variants vs = true -> forall a b, placed_in vs a b <> OneTable).
Proof.
  apply kty_mut; simpl; try discriminate.
  - intros t IH H [a|] [b|]; auto; discriminate.
  - intros bs vs IH H a b. destruct (all_units vs); [discriminate|auto].
  - intros r IH H [a|a] [b|b]; auto; discriminate.
  - intros t IHt r IHr H [a|a] [b|b]; apply andb_true_iff in H as [Ht Hr]; auto; discriminate.
Qed.
