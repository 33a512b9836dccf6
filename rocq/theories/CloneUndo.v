(** Clones that are dropped again because a later one unwound. *)
Require Import List Arith Bool Lia Permutation.
Import ListNotations.
From Verif Require Import Std Traits OptionBucket Hashbrown MapStorages SetStorages DeriveUnit
  DeriveAny Key Api Spec Reach MapCore MapLaws KeyLaws StateSpec StateProofs IterLaws DropLaws.

(** [sinks dr leaky w d l d' p lk]: the items [l] are dropped one after the other, each
    once, whether or not a destructor unwinds; [p] tells whether one did.  If [leaky],
    the items [lk] may be left out: each comes directly after an item whose destructor
    unwound, or after another one left out ([w]: that was so before the first). *)
Inductive sinks {D A : Type} (dr : drop_fn D A) (leaky : bool)
  : bool -> D -> list A -> D -> bool -> list A -> Prop :=
| SiNil w d : sinks dr leaky w d [] d false []
| SiDrop w d x d1 p r d2 q lk : dr d x = (d1, p) -> sinks dr leaky p d1 r d2 q lk ->
    sinks dr leaky w d (x :: r) d2 (p || q) lk
| SiLeak d x r d2 q lk : leaky = true -> sinks dr leaky true d r d2 q lk ->
    sinks dr leaky true d (x :: r) d2 q (x :: lk).

Section Sinks.
  Context {D A : Type} (dr : drop_fn D A).

  Lemma sinks_weak leaky d l d' p lk : sinks dr leaky false d l d' p lk ->
    forall w, sinks dr leaky w d l d' p lk.
  Proof.
    intros H w. inversion H; subst; [constructor|econstructor; eassumption].
  Qed.

  Lemma sinks_more (x y : bool) w d l d' p lk : (x = true -> y = true) ->
    sinks dr x w d l d' p lk -> sinks dr y w d l d' p lk.
  Proof. intros Hi H. induction H; [constructor|econstructor; eassumption|constructor; auto]. Qed.

  Lemma sinks_app leaky w d a d1 p lk : sinks dr leaky w d a d1 p lk ->
    forall b d2 q lk2, sinks dr leaky false d1 b d2 q lk2 ->
    sinks dr leaky w d (a ++ b) d2 (p || q) (lk ++ lk2).
  Proof.
    intros H. induction H as [w d|w d x d1 p r d2 q lk E H IH|d x r d2 q lk Hl H IH]; intros b d3 q2 lk2 Hb.
    - now apply sinks_weak.
    - rewrite <- orb_assoc. cbn. econstructor; [exact E|]. apply IH, Hb.
    - cbn. constructor; auto.
  Qed.

  Lemma sinks_quiet leaky w d l d' lk : sinks dr leaky w d l d' false lk -> w = false -> lk = [].
  Proof.
    intros H. remember false as p eqn:Ep in H. revert Ep.
    induction H as [w d|w d x d1 p r d2 q lk E H IH|d x r d2 q lk Hl H IH]; intros Ep Hw; [reflexivity| |discriminate].
    apply orb_false_iff in Ep. destruct Ep as [Ep Eq]. now apply IH.
  Qed.

  Lemma sinks_tight w d l d' p lk : sinks dr false w d l d' p lk -> lk = [].
  Proof. intros H. remember false as x eqn:E. induction H; auto. congruence. Qed.

  Lemma opt_sinks leaky d o : 
    sinks dr leaky false d (olist o) (fst (opt_drop dr d o)) (snd (opt_drop dr d o)) [].
  Proof.
    destruct o as [x|]; cbn; [|constructor]. destruct (dr d x) as [d1 p] eqn:E. cbn.
    rewrite <- (orb_false_r p). econstructor; [exact E|constructor].
  Qed.

  Lemma then_sinks leaky w d a b (x : D * bool) (g : D -> D * bool) lk lk2 :
    sinks dr leaky w d a (fst x) (snd x) lk ->
    sinks dr leaky false (fst x) b (fst (g (fst x))) (snd (g (fst x))) lk2 ->
    sinks dr leaky w d (a ++ b) (fst (then_drop x g)) (snd (then_drop x g)) (lk ++ lk2).
  Proof.
    destruct x as [d1 p]. cbn. destruct (g d1) as [d2 q]. cbn. intros H1 H2.
    now apply (sinks_app _ _ _ _ _ _ _ H1).
  Qed.

  Lemma slice_sinks leaky items : forall d, sinks dr leaky false d (cat_options items)
    (fst (slice_drop (opt_drop dr) d items)) (snd (slice_drop (opt_drop dr) d items)) [].
  Proof.
    induction items as [|o r IH]; intros d; cbn; [constructor|].
    pose proof (then_sinks leaky false d (olist o) (cat_options r) (opt_drop dr d o)
                  (fun d1 => slice_drop (opt_drop dr) d1 r) [] []) as T.
    destruct o as [x|]; cbn [olist app cat_options] in *; apply T; auto.
    - apply (opt_sinks leaky d (Some x)).
    - apply (opt_sinks leaky d None).
  Qed.

  Lemma table_sinks l : forall d, exists lk,
    sinks dr true false d l (fst (table_drop dr d l)) (snd (table_drop dr d l)) lk.
  Proof.
    assert (Lk : forall l d, sinks dr true true d l d false l).
    { clear. induction l; intros d; constructor; auto. }
    induction l as [|x l IH]; intros d; cbn; [eexists; constructor|].
    destruct (dr d x) as [d1 []] eqn:E; cbn.
    - exists l. exact (SiDrop dr true false d x d1 true l d1 false l E (Lk l d1)).
    - destruct (IH d1) as [lk H]. exists lk.
      exact (SiDrop dr true false d x d1 false l _ _ lk E H).
  Qed.
End Sinks.

Lemma sinks_map {D A B} (f : A -> B) (dr : drop_fn D B) leaky w d l d' p lk :
  sinks (fun d x => dr d (f x)) leaky w d l d' p lk ->
  sinks dr leaky w d (map f l) d' p (map f lk).
Proof. intros H. induction H; cbn; [constructor|econstructor; eassumption|now constructor]. Qed.

(** The clones made of the values [l], and whether one unwound. *)
Fixpoint vclone {S V} (f : clone_fn S V) (s : S) (l : list V) : S * list V * bool :=
  match l with
  | [] => (s, [], false)
  | v :: r =>
      match f s v with
      | (s1, None) => (s1, [], true)
      | (s1, Some v1) => let '(s2, m, b) := vclone f s1 r in (s2, v1 :: m, b)
      end
  end.

Lemma vclone_app {S V} (f : clone_fn S V) a : forall b s,
  vclone f s (a ++ b) =
  match vclone f s a with
  | (s1, m1, true) => (s1, m1, true)
  | (s1, m1, false) => let '(s2, m2, p) := vclone f s1 b in (s2, m1 ++ m2, p)
  end.
Proof.
  induction a as [|v a IH]; intros b s; cbn.
  - now destruct (vclone f s b) as [[? ?] ?].
  - destruct (f s v) as [s1 [v1|]]; [|reflexivity]. rewrite IH.
    destruct (vclone f s1 a) as [[s2 m2] []]; [reflexivity|].
    now destruct (vclone f s2 b) as [[? ?] ?].
Qed.

(** A type with the values in it, its [clone], and its destructor. *)
Definition undoes {V St} (vals : St -> list V)
  (cw : forall X, clone_fn X V -> X -> St -> X * option St)
  (cu : forall X, clone_fn X V -> drop_fn X V -> X -> St -> X * option St)
  (dp : forall D, drop_fn D V -> D -> St -> D * bool) : Prop :=
  (forall D (dr : drop_fn D V) d st, exists lk,
     sinks dr true false d (vals st) (fst (dp D dr d st)) (snd (dp D dr d st)) lk) /\
  (forall X (f : clone_fn X V) (dr : drop_fn X V) x st,
     match vclone f x (vals st) with
     | (x1, made, false) => exists st', cw X f x st = (x1, Some st') /\
         cu X f dr x st = (x1, Some st') /\ vals st' = made
     | (x1, made, true) => cw X f x st = (x1, None) /\
         exists x2 order p lk, cu X f dr x st = (x2, None) /\ Permutation order made /\
           sinks dr true false x1 order x2 p lk
     end).

Definition cell_cw {V} X (f : clone_fn X V) (x : X) (o : option V) := clone_cell f x o.

Lemma cell_undoes V : undoes (V := V) (olist (A := V)) (fun X => clone_cell)
  (fun X f _ => clone_cell f) (fun D => opt_drop).
Proof.
  split.
  - intros D dr d o. exists []. apply opt_sinks.
  - intros X f dr x [v|]; cbn; [|eauto].
    destruct (f x v) as [x1 [v1|]]; cbn; [eauto|].
    split; [reflexivity|]. exists x1, [], false, []. repeat split; constructor.
Qed.

Definition seq_cu {V SA SB}
  (ca : forall X, clone_fn X V -> drop_fn X V -> X -> SA -> X * option SA)
  (da : forall D, drop_fn D V -> D -> SA -> D * bool)
  (cb : forall X, clone_fn X V -> drop_fn X V -> X -> SB -> X * option SB)
  X (f : clone_fn X V) (dr : drop_fn X V) (x : X) (st : SA * SB) : X * option (SA * SB) :=
  match ca X f dr x (fst st) with
  | (x1, None) => (x1, None)
  | (x1, Some a1) =>
      match cb X f dr x1 (snd st) with
      | (x2, None) => (fst (da X dr x2 a1), None)
      | (x2, Some b2) => (x2, Some (a1, b2))
      end
  end.
Definition seq_cw {V SA SB}
  (ca : forall X, clone_fn X V -> X -> SA -> X * option SA)
  (cb : forall X, clone_fn X V -> X -> SB -> X * option SB)
  X (f : clone_fn X V) (x : X) (st : SA * SB) : X * option (SA * SB) :=
  match ca X f x (fst st) with
  | (x1, None) => (x1, None)
  | (x1, Some a1) => let '(x2, b2) := cb X f x1 (snd st) in (x2, option_map (pair a1) b2)
  end.

Lemma seq_undoes {V SA SB} (va : SA -> list V) wa ca da (vb : SB -> list V) wb cb db :
  undoes va wa ca da -> undoes vb wb cb db ->
  undoes (fun st => va (fst st) ++ vb (snd st)) (seq_cw wa wb) (seq_cu ca da cb)
    (fun D dr d st => then_drop (da D dr d (fst st)) (fun d1 => db D dr d1 (snd st))).
Proof.
  intros [A1 A2] [B1 B2]. split.
  - intros D dr d [a b]. cbn [fst snd]. destruct (A1 D dr d a) as [lk Ha].
    destruct (B1 D dr (fst (da D dr d a)) b) as [lk2 Hb].
    exists (lk ++ lk2). exact (then_sinks dr _ _ _ _ _ _ (fun d1 => db D dr d1 b) _ _ Ha Hb).
  - intros X f dr x [a b]. cbn [fst snd]. unfold seq_cw, seq_cu. cbn [fst snd].
    rewrite vclone_app. specialize (A2 X f dr x a).
    destruct (vclone f x (va a)) as [[x1 m1] []].
    + destruct A2 as (-> & x2 & order & p & lk & -> & P & F). split; [reflexivity|]. eauto 8.
    + destruct A2 as (a1 & -> & -> & Ea). specialize (B2 X f dr x1 b).
      destruct (vclone f x1 (vb b)) as [[x2 m2] []].
      * destruct B2 as (-> & x3 & order & p & lk & -> & P & F). split; [reflexivity|].
        destruct (A1 X dr x3 a1) as [lk2 G].
        exists (fst (da X dr x3 a1)), (order ++ va a1), (p || snd (da X dr x3 a1)), (lk ++ lk2).
        split; [reflexivity|]. split.
        -- rewrite P, Ea. apply Permutation_app_comm.
        -- exact (sinks_app dr _ _ _ _ _ _ _ F _ _ _ _ G).
      * destruct B2 as (b1 & -> & -> & Eb). exists (a1, b1). cbn. subst. auto.
Qed.

Lemma iso_undoes {V SA SB} (va : SA -> list V) wa ca da (vb : SB -> list V) wb cb db
  (to : SB -> SA) (from : SA -> SB) :
  undoes va wa ca da ->
  (forall a, to (from a) = a) ->
  (forall st, vb st = va (to st)) ->
  (forall X f x st, wb X f x st = let '(x', a) := wa X f x (to st) in (x', option_map from a)) ->
  (forall X f dr x st, cb X f dr x st = let '(x', a) := ca X f dr x (to st) in (x', option_map from a)) ->
  (forall D dr d st, db D dr d st = da D dr d (to st)) ->
  undoes vb wb cb db.
Proof.
  intros [A1 A2] T Hv W C Hd. split.
  - intros D dr d st. rewrite Hv, Hd. apply A1.
  - intros X f dr x st. rewrite Hv, W, C. specialize (A2 X f dr x (to st)).
    destruct (vclone f x (va (to st))) as [[x1 m1] []].
    + destruct A2 as (-> & x2 & order & p & lk & -> & P & F). cbn. eauto 8.
    + destruct A2 as (a1 & -> & -> & Ea). exists (from a1). cbn. rewrite Hv, T. auto.
Qed.

Lemma hash_undoes K V : undoes (V := V) (St := htable K V) (fun t => map snd (ht_entries t))
  (fun X => h_clone_with) (fun X => h_clone_undo) (fun D => h_drop_table).
Proof.
  split.
  - intros D dr d t. destruct (table_sinks (fun d e => dr d (snd e)) (ht_entries t) d) as [lk H].
    exists (map snd lk). apply sinks_map. exact H.
  - intros X f dr x [w l]. unfold h_clone_with, h_clone_undo. cbn [ht_entries ht_orders].
    assert (H : forall x, match vclone f x (map snd l) with
      | (x1, made, false) => exists l', h_clone_entries f x l = (x1, Some l') /\
          h_clone_made f x l = (x1, l', Some l') /\ map snd l' = made
      | (x1, made, true) => h_clone_entries f x l = (x1, None) /\
          exists l', h_clone_made f x l = (x1, l', None) /\ map snd l' = made
      end).
    { clear x. induction l as [|[k v] l IH]; intros x; cbn; [eauto|].
      destruct (f x v) as [x1 [v1|]]; [|eauto]. specialize (IH x1).
      destruct (vclone f x1 (map snd l)) as [[x2 m] []].
      - destruct IH as (-> & l' & -> & <-). cbn. eauto.
      - destruct IH as (l' & -> & -> & <-). cbn. eauto. }
    specialize (H x). destruct (vclone f x (map snd l)) as [[x1 m] []].
    + destruct H as (-> & l' & -> & <-). split; [reflexivity|].
      destruct (table_sinks (fun s e => dr s (snd e)) l' x1) as [lk F].
      exists (fst (table_drop (fun s e => dr s (snd e)) x1 l')), (map snd l'),
        (snd (table_drop (fun s e => dr s (snd e)) x1 l')), (map snd lk).
      split; [reflexivity|]. split; [reflexivity|]. apply sinks_map, F.
    + destruct H as (l' & -> & -> & <-). exists (MkTable w l'). auto.
Qed.

Lemma arr_undoes {V R} (u : units R) : undoes (V := V) (fun a => cat_options (arr_elems u a))
  (fun X f => arr_clone_with f u) (fun X f dr => arr_clone_undo f dr u)
  (fun D dr d a => let '(d1, o) := arr_drop dr u d a in
                   (d1, match o with Unwound => true | Done => false end)).
Proof.
  split.
  - intros D dr d a. exists [].
    assert (E : (let '(d1, o) := arr_drop dr u d a in
                 (d1, match o with Unwound => true | Done => false end)) =
                slice_drop (opt_drop dr) d (arr_elems u a)).
    { revert d a. induction u as [|R u' IH]; intros d a; [reflexivity|].
      cbn. destruct (fst a) as [v|]; cbn.
      - destruct (dr d v) as [d1 []]; cbn; rewrite <- (IH d1 (snd a));
          destruct (arr_drop dr u' d1 (snd a)) as [d2 []]; reflexivity.
      - rewrite <- (IH d (snd a)). destruct (arr_drop dr u' d (snd a)) as [d2 []]; reflexivity. }
    rewrite E. apply slice_sinks.
  - intros X f dr x a. unfold arr_clone_undo.
    assert (H : forall x, match vclone f x (cat_options (arr_elems u a)) with
      | (x1, made, false) => exists a', arr_clone_with f u x a = (x1, Some a') /\
          arr_clone_made f u x a = (x1, arr_elems u a', Some a') /\ cat_options (arr_elems u a') = made
      | (x1, made, true) => arr_clone_with f u x a = (x1, None) /\
          exists l', arr_clone_made f u x a = (x1, l', None) /\ cat_options l' = made
      end).
    { clear x. induction u as [|R u' IH]; intros x; cbn; [eauto|].
      destruct (fst a) as [v|]; cbn.
      - destruct (f x v) as [x1 [v1|]]; cbn; [|eauto]. specialize (IH (snd a) x1).
        destruct (vclone f x1 (cat_options (arr_elems u' (snd a)))) as [[x2 m] []].
        + destruct IH as (-> & l' & -> & <-). cbn. eauto.
        + destruct IH as (a' & -> & -> & <-). exists (Some v1, a'). auto.
      - specialize (IH (snd a) x).
        destruct (vclone f x (cat_options (arr_elems u' (snd a)))) as [[x2 m] []].
        + destruct IH as (-> & l' & -> & <-). cbn. split; [reflexivity|].
          exists (None :: l'). auto.
        + destruct IH as (a' & -> & -> & <-). exists (None, a'). auto. }
    specialize (H x). destruct (vclone f x (cat_options (arr_elems u a))) as [[x1 m] []].
    + destruct H as (-> & l' & -> & <-). split; [reflexivity|].
      exists (fst (slice_drop (opt_drop dr) x1 l')), (cat_options l'),
        (snd (slice_drop (opt_drop dr) x1 l')), [].
      split; [reflexivity|]. split; [reflexivity|]. apply slice_sinks.
    + destruct H as (a' & -> & -> & <-). eauto.
Qed.

Definition ki_undoes {K} (ki : KeyImpl K) : Prop := forall V, exists vals : ms_St (ki_map ki V) -> list V,
  undoes vals (fun X f x st => ms_clone_with (ki_map ki V) f x st)
    (fun X f dr x st => ms_clone_undo (ki_map ki V) f dr x st)
    (fun D dr d st => ms_drop (ki_map ki V) dr d st).

Lemma any_undoes {R} (fs : fields R) V : fields_canon (fun K ki => ki_undoes ki) fs ->
  exists vals, undoes (V := V) (St := any_map V fs) vals (fun X f => any_clone_with V f fs)
    (fun X f dr => any_clone_undo V f dr fs) (fun D dr => any_drop V dr fs).
Proof.
  induction fs as [|R fs IH|K R ki fs IH]; cbn [fields_canon]; intros P.
  - exists (fun _ => []). split; cbn.
    + intros. exists []. constructor.
    + eauto.
  - destruct (IH P) as [vals H].
    exists (fun st : option V * any_map V fs => olist (fst st) ++ vals (snd st)).
    pose proof (seq_undoes _ _ _ _ _ _ _ _ (cell_undoes V) H) as N.
    refine (iso_undoes _ _ _ _ _ _ _ _ (fun st => st) (fun st => st) N _ _ _ _ _); auto.
    + intros X f x [o st]. unfold seq_cw. cbn. destruct (clone_cell f x o) as [x1 [o1|]]; auto.
      destruct (any_clone_with V f fs x1 st) as [x2 [r|]]; reflexivity.
    + intros X f dr x [o st]. unfold seq_cu. cbn. destruct (clone_cell f x o) as [x1 [o1|]]; auto.
      destruct (any_clone_undo V f dr fs x1 st) as [x2 [r|]]; reflexivity.
  - destruct P as [Q P]. destruct (IH P) as [vals H], (Q V) as [va Ha].
    exists (fun st : ms_St (ki_map ki V) * any_map V fs => va (fst st) ++ vals (snd st)).
    pose proof (seq_undoes _ _ _ _ _ _ _ _ Ha H) as N.
    refine (iso_undoes _ _ _ _ _ _ _ _ (fun st => st) (fun st => st) N _ _ _ _ _); auto.
    + intros X f x [o st]. unfold seq_cw. cbn. destruct (ms_clone_with _ f x o) as [x1 [o1|]]; auto.
      destruct (any_clone_with V f fs x1 st) as [x2 [r|]]; reflexivity.
    + intros X f dr x [o st]. unfold seq_cu. cbn. destruct (ms_clone_undo _ f dr x o) as [x1 [o1|]]; auto.
      destruct (any_clone_undo V f dr fs x1 st) as [x2 [r|]]; reflexivity.
Qed.

Lemma derive_undoes :
  (forall t ki, derive t = Some ki -> ki_undoes ki) /\
  (forall vs fs, derive_fields vs = Some fs -> fields_canon (fun K ki => ki_undoes ki) fs).
Proof.
  apply kty_mut.
  - intros ki [= <-] V. exists (fun st => olist (bm_t st) ++ olist (bm_f st)).
    pose proof (seq_undoes _ _ _ _ _ _ _ _ (cell_undoes V) (cell_undoes V)) as H.
    refine (iso_undoes _ _ _ _ _ _ _ _ (fun st => (bm_t st, bm_f st))
              (fun p => MkBoolMap (fst p) (snd p)) H _ _ _ _ _); auto.
    + now intros [].
    + intros X f x [a b]. cbn. unfold bm_clone_with, seq_cw. cbn.
      destruct (clone_cell f x a) as [x1 [a1|]]; auto.
      destruct (clone_cell f x1 b) as [x2 [b2|]]; reflexivity.
    + intros X f dr x [a b]. cbn. unfold bm_clone_undo, seq_cu. cbn.
      destruct (clone_cell f x a) as [x1 [a1|]]; auto.
      destruct (clone_cell f x1 b) as [x2 [b2|]]; reflexivity.
  - intros ki [= <-] V. exists (fun st => olist (sm_inner st)).
    refine (iso_undoes _ _ _ _ _ _ _ _ sm_inner MkSingleMap (cell_undoes V) _ _ _ _ _); auto.
  - intros p ki [= <-] V. exists (fun t => map snd (ht_entries t)). apply hash_undoes.
  - intros t IH ki E. simpl in E. destruct (derive t) as [ki'|]; [|discriminate].
    injection E as <-. intros V. destruct (IH ki' eq_refl V) as [va Ha].
    exists (fun st : opt_map (ki_map ki' V) => va (om_some _ st) ++ olist (om_none _ st)).
    pose proof (seq_undoes _ _ _ _ _ _ _ _ Ha (cell_undoes V)) as H.
    refine (iso_undoes _ _ _ _ _ _ _ _ (fun st => (om_some _ st, om_none _ st))
              (fun p => MkOptMap _ (fst p) (snd p)) H _ _ _ _ _); auto.
    + now intros [].
    + intros X f x [a b]. cbn. unfold om_clone_with, seq_cw. cbn.
      destruct (ms_clone_with _ f x a) as [x1 [a1|]]; auto.
      destruct (clone_cell f x1 b) as [x2 [b2|]]; reflexivity.
    + intros X f dr x [a b]. cbn. unfold om_clone_undo, seq_cu. cbn.
      destruct (ms_clone_undo _ f dr x a) as [x1 [a1|]]; auto.
      destruct (clone_cell f x1 b) as [x2 [b2|]]; reflexivity.
  - intros bitset vs IH ki E. simpl in E. destruct (as_units vs) as [u|] eqn:Eu.
    + assert (U : forall V, exists vals : ms_St (unit_map_storage u V) -> list V,
        undoes vals (fun X f x st => ms_clone_with (unit_map_storage u V) f x st)
          (fun X f dr x st => ms_clone_undo (unit_map_storage u V) f dr x st)
          (fun D dr d st => ms_drop (unit_map_storage u V) dr d st)).
      { intros V. exists (fun st : unit_map u => cat_options (arr_elems u (um_data st))).
        refine (iso_undoes _ _ _ _ _ _ _ _ um_data MkUnitMap (arr_undoes u) _ _ _ _ _); auto. }
      unfold derive_unit in E. destruct bitset.
      * destruct (determine_bits _) as [w|]; [|discriminate].
        assert (E' : MkKeyImpl (unit_map_storage u) (bit_set_storage u w) = ki)
          by (simpl in E; congruence).
        subst ki. exact U.
      * assert (E' : MkKeyImpl (unit_map_storage u) (unit_set_storage u) = ki)
          by (simpl in E; congruence).
        subst ki. exact U.
    + destruct (derive_fields vs) as [fs|] eqn:Ef; [|discriminate]. injection E as <-.
      specialize (IH fs eq_refl). intros V. exact (any_undoes fs V IH).
  - intros fs [= <-]. exact Logic.I.
  - intros r IH fs E. simpl in E. destruct (derive_fields r) as [fs'|]; [|discriminate].
    injection E as <-. exact (IH fs' eq_refl).
  - intros t IHt r IHr fs E. simpl in E.
    destruct (derive t) as [ki|]; [|discriminate].
    destruct (derive_fields r) as [fs'|]; [|discriminate]. injection E as <-. simpl. auto.
Qed.
