(** Destructors run by [clear] and calls of [V::clone]: both are certain runs of
    [retain]. *)
Require Import List Arith Bool Lia.
Import ListNotations.
From Verif Require Import Std Traits OptionBucket Hashbrown MapStorages SetStorages DeriveUnit
  DeriveAny Key Api Spec Reach MapCore MapLaws KeyLaws MapFacts MapProofs StateSpec StateProofs
  IterLaws IterFacts EffectSpec.

Inductive fate := Dropped | Leaked | Kept.

(** A closure for [retain] that treats the entries as the list of fates says. *)
Definition fate_fn {D K V} (dr : drop_fn D V) : retain_fn (D * bool * list fate) K V :=
  fun s _ v =>
    let '(d, p, fs) := s in
    match fs with
    | Dropped :: r => let '(d', q) := dr d v in ((d', p || q, r), v, Discard)
    | Leaked :: r => ((d, p, r), v, Discard)
    | Kept :: r => ((d, p, r), v, Keep)
    | [] => ((d, p, []), v, Keep)
    end.

Definition shape (lf : bool) (fs : list fate) (q : bool) : Prop :=
  exists a b c, fs = repeat Dropped a ++ repeat Leaked b ++ repeat Kept c /\
    (q = false -> b = 0 /\ c = 0) /\ (lf = true -> b = 0).

Lemma shape_seq lf fs fs' q : shape lf fs false -> shape lf fs' q -> shape lf (fs ++ fs') q.
Proof.
  intros (a & b & c & -> & H & _) (a' & b' & c' & -> & H' & L').
  destruct (H eq_refl) as [-> ->]. exists (a + a'), b', c'. simpl.
  rewrite app_nil_r, app_assoc, repeat_app. auto.
Qed.

Lemma shape_stop lf fs n : shape lf fs true -> shape lf (fs ++ repeat Kept n) true.
Proof.
  intros (a & b & c & -> & _ & L). exists a, b, (c + n).
  rewrite <- !app_assoc, <- repeat_app. split; [reflexivity|]. split; [discriminate|auto].
Qed.

Lemma shape_nil lf : shape lf [] false.
Proof. exists 0, 0, 0. auto. Qed.

Lemma shape_drops lf n q : shape lf (repeat Dropped n) q.
Proof. exists n, 0, 0. simpl. rewrite app_nil_r. auto. Qed.

Definition oc_of (q : bool) : outcome := if q then Unwound else Done.

(** [clear] with destructors, as a run of [retain]; abstracted over the storage. *)
Definition clears {D K V S} (lf : bool) (dr : drop_fn D V)
  (clear : D -> S -> D * S * outcome)
  (retain : retain_fn (D * bool * list fate) K V -> D * bool * list fate -> S ->
            (D * bool * list fate) * S * outcome) (cleared : S -> S) : Prop :=
  (forall d st d' st' oc, clear d st = (d', st', oc) ->
     exists fs q, shape lf fs q /\ oc = oc_of q /\ (q = false -> st' = cleared st) /\
       forall p rest, retain (fate_fn dr) (d, p, fs ++ rest) st = ((d', p || q, rest), st', Done)) /\
  (forall st, exists n, forall d p rest,
     retain (fate_fn dr) (d, p, repeat Kept n ++ rest) st = ((d, p, rest), st, Done)).

Lemma cell_clears lf {D K V} (dr : drop_fn D V) (k : K) :
  clears lf dr (drop_cell dr) (fun f s st => retain_cell f s k st) (fun _ => None).
Proof.
  split.
  - intros d [v|] d' st' oc; simpl.
    + destruct (dr d v) as [d1 q] eqn:E. intros [= <- <- <-]. exists [Dropped], q.
      split; [apply (shape_drops lf 1)|]. split; [reflexivity|]. split; [reflexivity|]. intros p rest. reflexivity.
    + intros [= <- <- <-]. exists [], false. split; [apply shape_nil|]. split; [reflexivity|]. split; [reflexivity|].
      intros p rest. simpl. rewrite orb_false_r. reflexivity.
  - intros [v|]; [exists 1|exists 0]; reflexivity.
Qed.

(** One storage after the other, as statements of one function body. *)
Definition seq_clear {D SA SB} (ca : D -> SA -> D * SA * outcome) (cb : D -> SB -> D * SB * outcome)
  (d : D) (st : SA * SB) : D * (SA * SB) * outcome :=
  match ca d (fst st) with
  | (d1, a1, Unwound) => (d1, (a1, snd st), Unwound)
  | (d1, a1, Done) => let '(d2, b2, o) := cb d1 (snd st) in (d2, (a1, b2), o)
  end.

Definition seq_retain {X SA SB} (ra : X -> SA -> X * SA * outcome) (rb : X -> SB -> X * SB * outcome)
  (x : X) (st : SA * SB) : X * (SA * SB) * outcome :=
  match ra x (fst st) with
  | (x1, a1, Unwound) => (x1, (a1, snd st), Unwound)
  | (x1, a1, Done) => let '(x2, b2, o) := rb x1 (snd st) in (x2, (a1, b2), o)
  end.

Lemma seq_clears lf {D KA KB K V SA SB} (dr : drop_fn D V) ca ra ka cb rb kb :
  clears (K := KA) (S := SA) lf dr ca ra ka -> clears (K := KB) (S := SB) lf dr cb rb kb ->
  clears (K := K) lf dr (seq_clear ca cb)
    (fun _ => seq_retain (ra (fate_fn dr)) (rb (fate_fn dr))) (fun st => (ka (fst st), kb (snd st))).
Proof.
  intros [A1 A2] [B1 B2]. split.
  - intros d [a b] d' st' oc. unfold seq_clear, seq_retain. simpl.
    destruct (ca d a) as [[d1 a1] o1] eqn:E. destruct (A1 _ _ _ _ _ E) as (fs & q & Sh & -> & C & R).
    destruct q; simpl.
    + intros [= <- <- <-]. destruct (B2 b) as (n & N).
      exists (fs ++ repeat Kept n), true. split; [apply shape_stop; auto|]. split; [reflexivity|].
      split; [discriminate|]. intros p rest. rewrite <- app_assoc, R, N. reflexivity.
    + destruct (cb d1 b) as [[d2 b2] o2] eqn:E2. intros [= <- <- <-].
      destruct (B1 _ _ _ _ _ E2) as (fs' & q' & Sh' & -> & C' & R').
      exists (fs ++ fs'), q'. split; [apply shape_seq; auto|]. split; [reflexivity|]. split.
      * intros ->. rewrite C, C' by reflexivity. reflexivity.
      * intros p rest. rewrite <- app_assoc, R, R', orb_false_r. reflexivity.
  - intros [a b]. destruct (A2 a) as (n & N). destruct (B2 b) as (n' & N').
    exists (n + n'). intros d p rest. unfold seq_retain. simpl.
    rewrite repeat_app, <- app_assoc, N, N'. reflexivity.
Qed.

(** Change of representation. *)
Lemma iso_clears lf {D KA KB V SA SB} (dr : drop_fn D V) ca ra ka cb rb kb
  (to : SB -> SA) (from : SA -> SB) :
  clears (K := KA) (S := SA) lf dr ca ra ka ->
  (forall b, from (to b) = b) ->
  (forall d st, cb d st = let '(d', a, o) := ca d (to st) in (d', from a, o)) ->
  (forall x st, rb (fate_fn dr) x st =
     let '(x', a, o) := ra (fate_fn dr) x (to st) in (x', from a, o)) ->
  (forall st, kb st = from (ka (to st))) ->
  clears (K := KB) (S := SB) lf dr cb rb kb.
Proof.
  intros [A1 A2] F C R K. split.
  - intros d st d' st' oc. rewrite C. destruct (ca d (to st)) as [[d1 a] o] eqn:E.
    intros [= <- <- <-]. destruct (A1 _ _ _ _ _ E) as (fs & q & Sh & -> & Q & N).
    exists fs, q. repeat split; auto.
    + intros H. rewrite K, (Q H). reflexivity.
    + intros p rest. rewrite R, N. reflexivity.
  - intros st. destruct (A2 (to st)) as (n & N). exists n. intros d p rest.
    rewrite R, N, F. reflexivity.
Qed.

Lemma hash_clears {D K V} (dr : drop_fn D V) :
  clears (K := K) (S := htable K V) false dr (fun d t => h_clear_drop dr d t)
    (fun f s t => h_retain f s t) (fun t => MkTable (ht_orders t) []).
Proof.
  split.
  - intros d [w l] d' st' oc. unfold h_clear_drop, h_retain. simpl.
    destruct (h_drop_entries dr d l) as [d1 o] eqn:E. intros [= <- <- <-].
    assert (LK : forall (l : list (K * V)) d p rest,
              h_retain_entries (fate_fn dr) (d, p, repeat Leaked (length l) ++ rest) l =
              ((d, p, rest), [], Done)).
    { clear. induction l as [|[k v] l IH]; intros d p rest; simpl; auto. }
    assert (H : exists fs q, shape false fs q /\ o = oc_of q /\ forall p rest,
              h_retain_entries (fate_fn dr) (d, p, fs ++ rest) l = ((d1, p || q, rest), [], Done)).
    { clear w. revert d d1 o E. induction l as [|[k v] l IH]; intros d d1 o; simpl.
      - intros [= <- <-]. exists [], false. split; [apply shape_nil|]. split; auto.
        intros. rewrite orb_false_r. reflexivity.
      - destruct (dr d v) as [d2 q] eqn:E. destruct q.
        + intros [= <- <-]. exists (Dropped :: repeat Leaked (length l)), true.
          split; [exists 1, (length l), 0; simpl; rewrite app_nil_r; repeat split; discriminate|].
          split; auto. intros p rest. simpl. try rewrite E. apply LK.
        + intros E'. destruct (IH _ _ _ E') as (fs & q & Sh & -> & R).
          exists (Dropped :: fs), q. split; [apply (shape_seq false [Dropped]); auto; apply (shape_drops false 1)|].
          split; auto. intros p rest. simpl. try rewrite E. rewrite R, orb_false_r. reflexivity. }
    destruct H as (fs & q & Sh & -> & R). exists fs, q. repeat split; auto.
    intros p rest. rewrite R. reflexivity.
  - intros [w l]. exists (length l). intros d p rest. unfold h_retain. simpl.
    assert (H : h_retain_entries (fate_fn dr) (d, p, repeat Kept (length l) ++ rest) l =
                ((d, p, rest), l, Done)).
    { induction l as [|[k v] l IH]; simpl; auto. rewrite IH. reflexivity. }
    rewrite H. reflexivity.
Qed.

Lemma arr_clears lf {D K V R} (dr : drop_fn D V) (u : units R) : forall inj : R -> K,
  clears lf dr (fun d a => let '(d', o) := arr_drop dr u d a in (d', arr_init u None, o))
    (fun f s a => arr_retain f u inj s a) (fun _ => arr_init u None).
Proof.
  intros inj. split.
  - intros d a d' st' oc. destruct (arr_drop dr u d a) as [d1 o] eqn:E. intros [= <- <- <-].
    assert (H : exists n q, o = oc_of q /\ forall p rest,
              arr_retain (fate_fn dr) u inj (d, p, repeat Dropped n ++ rest) a =
              ((d1, p || q, rest), arr_init u None, Done)).
    { revert inj d a d1 o E. induction u as [|R u IH]; intros inj d a d1 o; simpl.
      - intros [= <- <-]. exists 0, false. split; auto. intros p rest.
        rewrite orb_false_r. destruct a. reflexivity.
      - destruct a as [[v|] a]; simpl.
        + destruct (dr d v) as [d2 q] eqn:E. destruct (arr_drop dr u d2 a) as [d3 o3] eqn:E3.
          intros [= <- <-]. destruct (IH (fun k => inj (inr k)) _ _ _ _ E3) as (n & q' & -> & H).
          exists (S n), (q || q'). split; [destruct q; reflexivity|]. intros p rest. simpl.
          try rewrite E. rewrite H, orb_assoc. reflexivity.
        + destruct (arr_drop dr u d a) as [d3 o3] eqn:E3. intros [= <- <-].
          destruct (IH (fun k => inj (inr k)) _ _ _ _ E3) as (n & q' & -> & H).
          exists n, q'. split; auto. intros p rest. simpl. rewrite H. reflexivity. }
    destruct H as (n & q & -> & HR). exists (repeat Dropped n), q. repeat split; auto.
    apply shape_drops.
  - revert inj. induction u as [|R u IH]; intros inj a; simpl.
    + exists 0. reflexivity.
    + destruct a as [[v|] a]; destruct (IH (fun k => inj (inr k)) a) as (n & N).
      * exists (S n). intros d p rest. simpl. rewrite N. reflexivity.
      * exists n. intros d p rest. simpl. rewrite N. reflexivity.
Qed.

Definition ki_clears (lf : bool) {K} (ki : KeyImpl K) : Prop :=
  forall V D (dr : drop_fn D V),
  clears lf dr (fun d st => ms_clear_drop (ki_map ki V) dr d st)
    (fun f s st => ms_retain (ki_map ki V) f s st) (ms_clear (ki_map ki V)).

Lemma any_clears lf {R} (fs : fields R) V D (dr : drop_fn D V) {T} : forall inj : R -> T,
  fields_canon (fun K ki => ki_clears lf ki) fs ->
  clears lf dr (fun d st => any_clear_drop V dr fs d st)
    (fun f s st => any_retain V f fs inj s st) (any_clear V fs).
Proof.
  induction fs as [|R fs IH|K R ki fs IH]; simpl; intros inj P.
  - split.
    + intros d st d' st' oc [= <- <- <-]. exists [], false. split; [apply shape_nil|].
      split; [reflexivity|]. split; [reflexivity|]. intros. rewrite orb_false_r. reflexivity.
    + intros st. exists 0. reflexivity.
  - specialize (IH (fun k => inj (inr k)) P).
    pose proof (seq_clears lf (K := T) dr _ _ _ _ _ _ (cell_clears lf dr (inj (inl tt))) IH) as H.
    refine (iso_clears lf dr _ _ _ _ _ _ (fun st => st) (fun st => st) H _ _ _ _); auto.
    + intros d [o st]. unfold seq_clear. simpl.
      destruct (drop_cell dr d o) as [[d1 o1] []]; auto.
      destruct (any_clear_drop V dr fs d1 st) as [[? ?] ?]. reflexivity.
    + intros x [o st]. unfold seq_retain. simpl.
      destruct (retain_cell _ x _ o) as [[x1 o1] []]; auto.
      destruct (any_retain V _ fs _ x1 st) as [[? ?] ?]. reflexivity.
  - destruct P as [Q P]. specialize (IH (fun k => inj (inr k)) P).
    pose proof (seq_clears lf (K := T) dr _ _ _ _ _ _ (Q V D dr) IH) as H.
    refine (iso_clears lf dr _ _ _ _ _ _ (fun st => st) (fun st => st) H _ _ _ _); auto.
    + intros d [o st]. unfold seq_clear. simpl.
      destruct (ms_clear_drop _ dr d o) as [[d1 o1] []]; auto.
      destruct (any_clear_drop V dr fs d1 st) as [[? ?] ?]. reflexivity.
    + intros x [o st]. unfold seq_retain. simpl.
      change (fun (s : D * bool * list fate) (k : K) (v : V) => fate_fn dr s (inj (inl k)) v)
        with (@fate_fn D K V dr).
      destruct (ms_retain _ _ x o) as [[x1 o1] []]; auto.
      destruct (any_retain V _ fs _ x1 st) as [[? ?] ?]. reflexivity.
Qed.

Lemma derive_clears lf :
  (forall t ki, derive t = Some ki -> (lf = true -> hash_free t = true) -> ki_clears lf ki) /\
  (forall vs fs, derive_fields vs = Some fs -> (lf = true -> hash_free_variants vs = true) ->
     fields_canon (fun K ki => ki_clears lf ki) fs).
Proof.
  apply kty_mut.
  - intros ki [= <-] _ V D dr.
    pose proof (seq_clears lf (K := bool) dr _ _ _ _ _ _ (cell_clears lf dr true) (cell_clears lf dr false)) as H.
    refine (iso_clears lf dr _ _ _ _ _ _ (fun st => (bm_t st, bm_f st))
              (fun p => MkBoolMap (fst p) (snd p)) H _ _ _ _).
    + intros [t f]. reflexivity.
    + intros d [t f]. simpl. unfold bm_clear_drop, seq_clear. simpl.
      destruct (drop_cell dr d t) as [[d1 t1] []]; auto.
      destruct (drop_cell dr d1 f) as [[? ?] ?]. reflexivity.
    + intros x [t f]. simpl. unfold bm_retain, seq_retain. simpl.
      destruct (retain_cell _ x true t) as [[x1 t1] []]; auto.
      destruct (retain_cell _ x1 false f) as [[? ?] ?]. reflexivity.
    + reflexivity.
  - intros ki [= <-] _ V D dr.
    refine (iso_clears lf dr _ _ _ _ _ _ sm_inner MkSingleMap (cell_clears lf dr tt) _ _ _ _); auto.
    intros [o]. reflexivity.
  - intros p ki [= <-] F V D dr. destruct lf; [specialize (F eq_refl); discriminate|].
    apply (hash_clears dr).
  - intros t IH ki E F. simpl in E. destruct (derive t) as [ki'|]; [|discriminate].
    injection E as <-. intros V D dr. specialize (IH ki' eq_refl F V D dr).
    pose proof (seq_clears lf (K := option (key t)) dr _ _ _ _ _ _ IH (cell_clears lf dr None (K := option (key t)))) as H.
    refine (iso_clears lf dr _ _ _ _ _ _ (fun st => (om_some _ st, om_none _ st))
              (fun p => MkOptMap _ (fst p) (snd p)) H _ _ _ _).
    + intros [s n]. reflexivity.
    + intros d [s n]. simpl. unfold om_clear_drop, seq_clear. simpl.
      destruct (ms_clear_drop _ dr d s) as [[d1 t1] []]; auto.
      destruct (drop_cell dr d1 n) as [[? ?] ?]. reflexivity.
    + intros x [s n]. simpl. unfold om_retain, seq_retain. simpl.
      change (fun (s : D * bool * list fate) (k : key t) (v : V) => fate_fn dr s (Some k) v)
        with (@fate_fn D (key t) V dr).
      destruct (ms_retain _ _ x s) as [[x1 t1] []]; auto.
      destruct (retain_cell _ x1 None n) as [[? ?] ?]. reflexivity.
    + reflexivity.
  - intros bitset vs IH ki E F. simpl in E. destruct (as_units vs) as [u|] eqn:Eu.
    + assert (U : forall V D (dr : drop_fn D V),
        clears lf dr (fun d st => ms_clear_drop (unit_map_storage u V) dr d st)
          (fun f s st => ms_retain (unit_map_storage u V) f s st) (ms_clear (unit_map_storage u V))).
      { intros V D dr.
        refine (iso_clears lf dr _ _ _ _ _ _ um_data MkUnitMap
                  (arr_clears lf dr u (fun k => k)) _ _ _ _).
        - intros [a]. reflexivity.
        - intros d [a]. simpl. destruct (arr_drop dr u d a). reflexivity.
        - intros x [a]. reflexivity.
        - reflexivity. }
      unfold derive_unit in E. destruct bitset.
      * destruct (determine_bits _) as [w|]; [|discriminate].
        assert (E' : MkKeyImpl (unit_map_storage u) (bit_set_storage u w) = ki)
          by (simpl in E; congruence).
        subst ki. exact U.
      * assert (E' : MkKeyImpl (unit_map_storage u) (unit_set_storage u) = ki)
          by (simpl in E; congruence).
        subst ki. exact U.
    + destruct (derive_fields vs) as [fs|] eqn:Ef; [|discriminate]. injection E as <-.
      specialize (IH fs eq_refl F). intros V D dr.
      exact (any_clears lf fs V D dr (fun k => k) IH).
  - intros fs [= <-] _. exact I.
  - intros r IH fs E F. simpl in E. destruct (derive_fields r) as [fs'|]; [|discriminate].
    injection E as <-. exact (IH fs' eq_refl F).
  - intros t IHt r IHr fs E F. simpl in E.
    destruct (derive t) as [ki|]; [|discriminate].
    destruct (derive_fields r) as [fs'|]; [|discriminate]. injection E as <-. simpl in *.
    split.
    + apply IHt; auto. intros H. apply F, andb_true_iff in H. tauto.
    + apply IHr; auto. intros H. apply F, andb_true_iff in H. tauto.
Qed.

(** * Reading a run of [retain] with fates *)

Section Runs.
  Context {D K V : Type} (dr : drop_fn D V).
  Implicit Types l : list (K * V).

  Lemma run_len l : forall d p fs d' p' fs' l' oc,
    retain_list (fate_fn dr) (d, p, fs) l = ((d', p', fs'), l', oc) ->
    length fs' = length fs - length l.
  Proof.
    induction l as [|[k v] l IH]; intros d p fs d' p' fs' l' oc; simpl.
    - intros [= <- <- <- <- <-]. lia.
    - destruct fs as [|[] r]; simpl.
      + destruct (retain_list _ _ l) as [[[[d2 p2] f2] l2] o2] eqn:E. intros [= <- <- <- <- <-].
        rewrite (IH _ _ _ _ _ _ _ _ E). simpl. reflexivity.
      + destruct (dr d v) as [d1 q]. intros E. rewrite (IH _ _ _ _ _ _ _ _ E). reflexivity.
      + intros E. rewrite (IH _ _ _ _ _ _ _ _ E). reflexivity.
      + destruct (retain_list _ _ l) as [[[[d2 p2] f2] l2] o2] eqn:E. intros [= <- <- <- <- <-].
        rewrite (IH _ _ _ _ _ _ _ _ E). simpl. reflexivity.
  Qed.

  Lemma run_drops l : forall d p rest,
    retain_list (fate_fn dr) (d, p, repeat Dropped (length l) ++ rest) l =
    let '(d', o) := drop_values dr d (map snd l) in
    ((d', p || match o with Unwound => true | Done => false end, rest), [], Done).
  Proof.
    induction l as [|[k v] l IH]; intros d p rest; simpl.
    - rewrite orb_false_r. reflexivity.
    - destruct (dr d v) as [d1 q]. rewrite IH.
      destruct (drop_values dr d1 (map snd l)) as [d2 o]. rewrite <- orb_assoc.
      destruct q; reflexivity.
  Qed.

  Lemma run_leaks l : forall d p rest,
    retain_list (fate_fn dr) (d, p, repeat Leaked (length l) ++ rest) l = ((d, p, rest), [], Done).
  Proof. induction l as [|[k v] l IH]; intros d p rest; simpl; auto. Qed.

  Lemma run_keeps l : forall d p rest,
    retain_list (fate_fn dr) (d, p, repeat Kept (length l) ++ rest) l = ((d, p, rest), l, Done).
  Proof.
    induction l as [|[k v] l IH]; intros d p rest; simpl; auto. rewrite IH. reflexivity.
  Qed.

  Lemma run_split l a b c : length l = a + b + c ->
    exists x y z, l = x ++ y ++ z /\ length x = a /\ length y = b /\ length z = c.
  Proof.
    intros H. exists (firstn a l), (firstn b (skipn a l)), (skipn b (skipn a l)).
    rewrite !firstn_skipn, !firstn_length, !skipn_length. repeat split; lia.
  Qed.
End Runs.

Section Clear.
  Context {K V : Type} {sp : KeySpec K} {m : MapStorage K V} (L : MapLaws sp m).

  Lemma c51 lf D (dr : drop_fn D V) d st d' st' oc :
    clears lf dr (fun d st => ms_clear_drop m dr d st) (fun f s st => ms_retain m f s st)
      (ms_clear m) ->
    map_reachable m st ->
    map_clear_drop m dr d st = (d', st', oc) ->
    exists dropped leaked kept,
      yields (ms_Iter m) (map_iter m st) (dropped ++ leaked ++ kept) /\
      drop_values dr d (map snd dropped) = (d', oc) /\
      yields (ms_Iter m) (map_iter m st') kept /\ lists (map_get m st') kept /\
      (oc = Done -> leaked = [] /\ kept = [] /\ st' = map_clear m st) /\
      (lf = true -> leaked = []) /\
      map_reachable m st'.
  Proof.
    intros [H _] R E. destruct (H _ _ _ _ _ E) as (fs & q & Sh & -> & Q & N).
    destruct (c12 L _ (fate_fn dr) (d, false, fs ++ [Dropped]) st R)
      as (l & s' & l' & o & st2 & Y & El & E2 & Y' & Hl).
    unfold map_retain in E2. rewrite N in E2. injection E2 as <- <- <-.
    assert (R' : map_reachable m st').
    { pose proof (mr_retain m _ (fate_fn dr) (d, false, fs ++ [Dropped]) st R) as R'.
      unfold map_retain in R'. rewrite N in R'. exact R'. }
    pose proof (run_len dr l _ _ _ _ _ _ _ _ El) as Len. simpl in Len.
    rewrite app_length in Len. simpl in Len.
    destruct Sh as (a & b & c & -> & S1 & S2).
    rewrite !app_length, !repeat_length in Len.
    destruct (run_split l a b c) as (x & y & z & -> & <- & <- & <-); [lia|].
    rewrite retain_list_app, <- !app_assoc, run_drops in El.
    destruct (drop_values dr d (map snd x)) as [d1 o1] eqn:Ed.
    rewrite retain_list_app, run_leaks, run_keeps in El. simpl in El.
    injection El as <- Eq <-.
    exists x, y, z. split; [exact Y|]. split; [destruct o1, q; auto; discriminate|].
    split; [exact Y'|]. split; [exact Hl|]. split; [|split].
    - destruct q; [discriminate|]. intros _. destruct (S1 eq_refl) as [Hy Hz].
      apply length_zero_iff_nil in Hy, Hz. auto.
    - intros Hlf. apply length_zero_iff_nil. auto.
    - exact R'.
  Qed.
End Clear.

(** * Clone *)

(** A closure for [retain] that replaces every value by its clone. *)
Definition clone_here {S K V} (f : clone_fn S V) : retain_fn S K V :=
  fun s _ v =>
    match f s v with
    | (s', Some v') => (s', v', Keep)
    | (s', None) => (s', v, Unwind)
    end.

Lemma clone_here_eq {S K V} (f : clone_fn S V) s (k : K) v :
  clone_here f s k v =
  match f s v with (s', Some v') => (s', v', Keep) | (s', None) => (s', v, Unwind) end.
Proof. reflexivity. Qed.

Definition pure_clone {S V} (cl : V -> V) : clone_fn S V := fun s v => (s, Some (cl v)).

Definition clones {X K V S} (f : clone_fn X V) (clone : X -> S -> X * option S)
  (retain : retain_fn X K V -> X -> S -> X * S * outcome) (cloned : (V -> V) -> S -> S) : Prop :=
  (forall x st, match clone x st with
     | (x', Some st') => retain (clone_here f) x st = (x', st', Done)
     | (x', None) => exists st', retain (clone_here f) x st = (x', st', Unwound)
     end) /\
  (forall cl, (forall x v, f x v = pure_clone cl x v) ->
     forall x st, clone x st = (x, Some (cloned cl st))).

Lemma cell_clones {X K V} (f : clone_fn X V) (k : K) :
  clones f (clone_cell f) (fun g x st => retain_cell g x k st) (fun cl => option_map cl).
Proof.
  split.
  - intros x [v|]; simpl; auto. unfold clone_here. destruct (f x v) as [x' [v'|]]; simpl; eauto.
  - intros cl E x [v|]; simpl; auto. rewrite E. reflexivity.
Qed.

Definition seq_clone {X SA SB} (ca : X -> SA -> X * option SA) (cb : X -> SB -> X * option SB)
  (x : X) (st : SA * SB) : X * option (SA * SB) :=
  match ca x (fst st) with
  | (x1, None) => (x1, None)
  | (x1, Some a1) => let '(x2, b2) := cb x1 (snd st) in (x2, option_map (pair a1) b2)
  end.

Lemma seq_clones {X KA KB K V SA SB} (f : clone_fn X V) ca ra ka cb rb kb :
  clones (K := KA) (S := SA) f ca ra ka -> clones (K := KB) (S := SB) f cb rb kb ->
  clones (K := K) f (seq_clone ca cb)
    (fun _ => seq_retain (ra (clone_here f)) (rb (clone_here f)))
    (fun cl st => (ka cl (fst st), kb cl (snd st))).
Proof.
  intros [A1 A2] [B1 B2]. split.
  - intros x [a b]. unfold seq_clone, seq_retain. simpl. specialize (A1 x a).
    destruct (ca x a) as [x1 [a1|]].
    + rewrite A1. specialize (B1 x1 b). destruct (cb x1 b) as [x2 [b2|]]; simpl.
      * rewrite B1. reflexivity.
      * destruct B1 as (b2 & ->). eauto.
    + destruct A1 as (a1 & ->). eauto.
  - intros cl E x [a b]. unfold seq_clone. simpl.
    rewrite (A2 cl E), (B2 cl E). reflexivity.
Qed.

Lemma iso_clones {X KA KB V SA SB} (f : clone_fn X V) ca ra ka cb rb kb
  (to : SB -> SA) (from : SA -> SB) :
  clones (K := KA) (S := SA) f ca ra ka ->
  (forall x st, cb x st = let '(x', a) := ca x (to st) in (x', option_map from a)) ->
  (forall x st, rb (clone_here f) x st =
     let '(x', a, o) := ra (clone_here f) x (to st) in (x', from a, o)) ->
  (forall cl st, kb cl st = from (ka cl (to st))) ->
  clones (K := KB) (S := SB) f cb rb kb.
Proof.
  intros [A1 A2] C R K. split.
  - intros x st. rewrite C, R. specialize (A1 x (to st)).
    destruct (ca x (to st)) as [x1 [a1|]]; simpl.
    + rewrite A1. reflexivity.
    + destruct A1 as (a1 & ->). eauto.
  - intros cl E x st. rewrite C, (A2 cl E), K. reflexivity.
Qed.

Lemma hash_clones {X K V} (f : clone_fn X V) :
  clones (K := K) (S := htable K V) f (fun x t => h_clone_with f x t)
    (fun g x t => h_retain g x t)
    (fun cl t => MkTable (ht_orders t) (map (fun e => (fst e, cl (snd e))) (ht_entries t))).
Proof.
  split.
  - intros x [w l]. unfold h_clone_with, h_retain. simpl.
    assert (H : match h_clone_entries f x l with
                | (x', Some l') => h_retain_entries (clone_here f) x l = (x', l', Done)
                | (x', None) => exists l', h_retain_entries (clone_here f) x l = (x', l', Unwound)
                end).
    { revert x. induction l as [|[k v] l IH]; intros x; simpl; auto.
      rewrite !clone_here_eq. destruct (f x v) as [x1 [v1|]]; eauto.
      specialize (IH x1). destruct (h_clone_entries f x1 l) as [x2 [l2|]]; simpl.
      - rewrite IH. reflexivity.
      - destruct IH as (l2 & ->). eauto. }
    destruct (h_clone_entries f x l) as [x' [l'|]]; simpl.
    + rewrite H. reflexivity.
    + destruct H as (l' & ->). eauto.
  - intros cl E x [w l]. unfold h_clone_with. simpl.
    assert (H : h_clone_entries f x l = (x, Some (map (fun e => (fst e, cl (snd e))) l))).
    { induction l as [|[k v] l IH]; simpl; auto. rewrite E. simpl. rewrite IH. reflexivity. }
    rewrite H. reflexivity.
Qed.

Lemma arr_clones {X K V R} (f : clone_fn X V) (u : units R) : forall inj : R -> K,
  clones f (fun x a => arr_clone_with f u x a) (fun g x a => arr_retain g u inj x a)
    (fun cl => arr_map (option_map cl) u).
Proof.
  induction u as [|R u IH]; intros inj.
  - split; simpl; auto. intros cl E x []. reflexivity.
  - pose proof (seq_clones (K := K) f _ _ _ _ _ _ (cell_clones f (inj (inl tt)))
                  (IH (fun k => inj (inr k)))) as H.
    refine (iso_clones f _ _ _ _ _ _ (fun st => st) (fun st => st) H _ _ _); auto.
    + intros x [o a]. unfold seq_clone. simpl.
      destruct (clone_cell f x o) as [x1 [o1|]]; auto.
      destruct (arr_clone_with f u x1 a) as [x2 [r|]]; reflexivity.
    + intros x [o a]. unfold seq_retain. simpl.
      destruct (retain_cell _ x _ o) as [[x1 o1] []]; auto.
      destruct (arr_retain _ u _ x1 a) as [[? ?] ?]. reflexivity.
Qed.

Definition ki_clones {K} (ki : KeyImpl K) : Prop :=
  forall V X (f : clone_fn X V),
  clones f (fun x st => ms_clone_with (ki_map ki V) f x st)
    (fun g x st => ms_retain (ki_map ki V) g x st) (ms_clone (ki_map ki V)).

Lemma any_clones {R} (fs : fields R) V X (f : clone_fn X V) {T} : forall inj : R -> T,
  fields_canon (fun K ki => ki_clones ki) fs ->
  clones f (fun x st => any_clone_with V f fs x st)
    (fun g x st => any_retain V g fs inj x st) (fun cl => any_clone V cl fs).
Proof.
  induction fs as [|R fs IH|K R ki fs IH]; simpl; intros inj P.
  - split; auto.
  - specialize (IH (fun k => inj (inr k)) P).
    pose proof (seq_clones (K := T) f _ _ _ _ _ _ (cell_clones f (inj (inl tt))) IH) as H.
    refine (iso_clones f _ _ _ _ _ _ (fun st => st) (fun st => st) H _ _ _); auto.
    + intros x [o st]. unfold seq_clone. simpl.
      destruct (clone_cell f x o) as [x1 [o1|]]; auto.
      destruct (any_clone_with V f fs x1 st) as [x2 [r|]]; reflexivity.
    + intros x [o st]. unfold seq_retain. simpl.
      destruct (retain_cell _ x _ o) as [[x1 o1] []]; auto.
      destruct (any_retain V _ fs _ x1 st) as [[? ?] ?]. reflexivity.
  - destruct P as [Q P]. specialize (IH (fun k => inj (inr k)) P).
    pose proof (seq_clones (K := T) f _ _ _ _ _ _ (Q V X f) IH) as H.
    refine (iso_clones f _ _ _ _ _ _ (fun st => st) (fun st => st) H _ _ _); auto.
    + intros x [o st]. unfold seq_clone. simpl.
      destruct (ms_clone_with _ f x o) as [x1 [o1|]]; auto.
      destruct (any_clone_with V f fs x1 st) as [x2 [r|]]; reflexivity.
    + intros x [o st]. unfold seq_retain. simpl.
      change (fun (s : X) (k : K) (v : V) => clone_here f s (inj (inl k)) v)
        with (@clone_here X K V f).
      destruct (ms_retain _ _ x o) as [[x1 o1] []]; auto.
      destruct (any_retain V _ fs _ x1 st) as [[? ?] ?]. reflexivity.
Qed.

Lemma derive_clones :
  (forall t ki, derive t = Some ki -> ki_clones ki) /\
  (forall vs fs, derive_fields vs = Some fs -> fields_canon (fun K ki => ki_clones ki) fs).
Proof.
  apply kty_mut.
  - intros ki [= <-] V X f.
    pose proof (seq_clones (K := bool) f _ _ _ _ _ _ (cell_clones f true) (cell_clones f false)) as H.
    refine (iso_clones f _ _ _ _ _ _ (fun st => (bm_t st, bm_f st))
              (fun p => MkBoolMap (fst p) (snd p)) H _ _ _).
    + intros x [a b]. simpl. unfold bm_clone_with, seq_clone. simpl.
      destruct (clone_cell f x a) as [x1 [a1|]]; auto.
      destruct (clone_cell f x1 b) as [x2 [b2|]]; reflexivity.
    + intros x [a b]. simpl. unfold bm_retain, seq_retain. simpl.
      destruct (retain_cell _ x true a) as [[x1 t1] []]; auto.
      destruct (retain_cell _ x1 false b) as [[? ?] ?]. reflexivity.
    + reflexivity.
  - intros ki [= <-] V X f.
    refine (iso_clones f _ _ _ _ _ _ sm_inner MkSingleMap (cell_clones f tt) _ _ _); auto.
  - intros p ki [= <-] V X f. apply (hash_clones f).
  - intros t IH ki E. simpl in E. destruct (derive t) as [ki'|]; [|discriminate].
    injection E as <-. intros V X f. specialize (IH ki' eq_refl V X f).
    pose proof (seq_clones (K := option (key t)) f _ _ _ _ _ _ IH
                  (cell_clones f (None : option (key t)))) as H.
    refine (iso_clones f _ _ _ _ _ _ (fun st => (om_some _ st, om_none _ st))
              (fun p => MkOptMap _ (fst p) (snd p)) H _ _ _).
    + intros x [s n]. simpl. unfold om_clone_with, seq_clone. simpl.
      destruct (ms_clone_with _ f x s) as [x1 [a1|]]; auto.
      destruct (clone_cell f x1 n) as [x2 [b2|]]; reflexivity.
    + intros x [s n]. simpl. unfold om_retain, seq_retain. simpl.
      change (fun (s : X) (k : key t) (v : V) => clone_here f s (Some k) v)
        with (@clone_here X (key t) V f).
      destruct (ms_retain _ _ x s) as [[x1 t1] []]; auto.
      destruct (retain_cell _ x1 None n) as [[? ?] ?]. reflexivity.
    + reflexivity.
  - intros bitset vs IH ki E. simpl in E. destruct (as_units vs) as [u|] eqn:Eu.
    + assert (U : forall V X (f : clone_fn X V),
        clones f (fun x st => ms_clone_with (unit_map_storage u V) f x st)
          (fun g x st => ms_retain (unit_map_storage u V) g x st) (ms_clone (unit_map_storage u V))).
      { intros V X f.
        refine (iso_clones f _ _ _ _ _ _ um_data MkUnitMap (arr_clones f u (fun k => k)) _ _ _).
        - intros x [a]. simpl. destruct (arr_clone_with f u x a) as [x1 [r|]]; reflexivity.
        - intros x [a]. reflexivity.
        - reflexivity. }
      unfold derive_unit in E. destruct bitset.
      * destruct (determine_bits _) as [w|]; [|discriminate].
        assert (E' : MkKeyImpl (unit_map_storage u) (bit_set_storage u w) = ki)
          by (simpl in E; congruence).
        subst ki. exact U.
      * assert (E' : MkKeyImpl (unit_map_storage u) (unit_set_storage u) = ki)
          by (simpl in E; congruence).
        subst ki. exact U.
    + destruct (derive_fields vs) as [fs|] eqn:Ef; [|discriminate]. injection E as <-.
      specialize (IH fs eq_refl). intros V X f.
      exact (any_clones fs V X f (fun k => k) IH).
  - intros fs [= <-]. exact I.
  - intros r IH fs E. simpl in E. destruct (derive_fields r) as [fs'|]; [|discriminate].
    injection E as <-. exact (IH fs' eq_refl).
  - intros t IHt r IHr fs E. simpl in E.
    destruct (derive t) as [ki|]; [|discriminate].
    destruct (derive_fields r) as [fs'|]; [|discriminate]. injection E as <-. simpl. auto.
Qed.

Lemma run_clones {X K V} (f : clone_fn X V) (l : list (K * V)) : forall x,
  match clone_values f x l with
  | (x', Some l') => retain_list (clone_here f) x l = (x', l', Done)
  | (x', None) => exists l', retain_list (clone_here f) x l = (x', l', Unwound)
  end.
Proof.
  induction l as [|[k v] l IH]; intros x; simpl; auto.
  rewrite !clone_here_eq. destruct (f x v) as [x1 [v1|]]; eauto.
  specialize (IH x1). destruct (clone_values f x1 l) as [x2 [l2|]].
  - rewrite IH. reflexivity.
  - destruct IH as (l2 & ->). eauto.
Qed.

Section Clone.
  Context {K V : Type} {sp : KeySpec K} {m : MapStorage K V} (L : MapLaws sp m).

  Lemma c52 X (f : clone_fn X V) x st x' r :
    clones f (fun x st => ms_clone_with m f x st) (fun g x st => ms_retain m g x st)
      (ms_clone m) ->
    map_reachable m st ->
    map_clone_with m f x st = (x', r) ->
    exists l, yields (ms_Iter m) (map_iter m st) l /\
      match r with
      | Some st' => exists l', clone_values f x l = (x', Some l') /\
          yields (ms_Iter m) (map_iter m st') l' /\ lists (map_get m st') l' /\
          map_reachable m st'
      | None => clone_values f x l = (x', None)
      end.
  Proof.
    intros [H _] R E. unfold map_clone_with in E. specialize (H x st). rewrite E in H.
    destruct (c12 L _ (clone_here f) x st R) as (l & s' & l' & o & st2 & Y & El & E2 & Y' & Hl).
    unfold map_retain in E2. exists l. split; [exact Y|].
    pose proof (run_clones f l x) as N. destruct r as [st'|].
    - rewrite H in E2. injection E2 as <- <- <-.
      destruct (clone_values f x l) as [x2 [l2|]].
      + rewrite El in N. injection N as <- <-. exists l'.
        split; [reflexivity|]. split; [exact Y'|]. split; [exact Hl|].
        pose proof (mr_retain m _ (clone_here f) x st R) as R'.
        unfold map_retain in R'. rewrite H in R'. exact R'.
      + destruct N as (l2 & N). rewrite El in N. discriminate.
    - destruct H as (st' & H). rewrite H in E2. injection E2 as <- <- <-.
      destruct (clone_values f x l) as [x2 [l2|]].
      + rewrite El in N. discriminate.
      + destruct N as (l2 & N). rewrite El in N. injection N as <- _. reflexivity.
  Qed.
End Clone.
