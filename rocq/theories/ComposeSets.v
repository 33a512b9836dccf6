(** Options and enums with tuple variants act as sets when their parts do. *)
Require Import List Arith NArith ZArith Bool Lia Permutation.
Import ListNotations.
From Verif Require Import Std Traits MapStorages SetStorages DeriveAny Key Api Spec Reach
  History SetHistory ComposeSpec IterLaws IterFacts MapCore MapLaws SetCore SetLaws AnyLaws AnySetLaws SetFacts SetProofs KeyLaws KeyFacts ComposeProofs.

(** The contract, call by call. *)
Record sfacts {T} (full : bool) (m : SetStorage T) (I : ss_St m -> Prop) (st : ss_St m) : Prop := MkSfacts {
  sf_insert : forall k, let '(b, st') := ss_insert m st k in
    I st' /\ adds (ss_contains m st) k (ss_contains m st') /\
    (full = true -> b = negb (ss_contains m st k));
  sf_remove : forall k, let '(b, st') := ss_remove m st k in
    I st' /\ drops (ss_contains m st) k (ss_contains m st') /\
    (full = true -> b = ss_contains m st k);
  sf_len : exists l, elements (ss_contains m st) l /\ ss_len m st = length l;
  sf_empty : full = true -> (ss_is_empty m st = true <-> forall k, ss_contains m st k = false);
  sf_clear : I (ss_clear m st) /\ forall k, ss_contains m (ss_clear m st) k = false;
  sf_iter : exists l, elements (ss_contains m st) l /\ gives (ss_Iter m) (ss_iter m st) l;
  sf_retain : forall (X : Type) (f : set_retain_fn X T) (x : X),
    exists l x' st' l' oc, ss_retain m f x st = (x', st', oc) /\ I st' /\
      elements (ss_contains m st) l /\ retain_elems f x l = (x', l', oc) /\
      match oc with
      | Done => elements (ss_contains m st') l'
      | Unwound =>
          (forall k, ss_contains m st' k = true -> ss_contains m st k = true) /\
          (forall k, In k l' -> ss_contains m st' k = true)
      end;
  sf_into : exists l, elements (ss_contains m st) l /\ gives (ss_IntoIter m) (ss_into_iter m st) l
}.

Lemma same_refl {T} (p : T -> bool) : same_set p p.
Proof. intros x. reflexivity. Qed.

Lemma sfacts_acts {T} full (m : SetStorage T) (I : ss_St m -> Prop) :
  (forall w, I (ss_empty m w) /\ forall k, ss_contains m (ss_empty m w) k = false) ->
  (forall st, I st -> sfacts full m I st) -> acts_as_set full m.
Proof.
  intros N F. exists I. split; [exact N|]. split; [|split].
  - intros st o Hi. destruct (F st Hi) as [Fi Fr Fl Fe Fc Ft Fre Fin]. destruct o; simpl.
    + specialize (Fi k). unfold set_insert. destruct (ss_insert m st k) as [b st'] eqn:E.
      destruct Fi as (H1 & H2 & H3). exists (QBool b), st', 0.
      split; [auto|]. split; [exact H1|]. destruct full; [split; [f_equal; auto|]|]; exact H2.
    + specialize (Fr k). unfold set_remove. destruct (ss_remove m st k) as [b st'] eqn:E.
      destruct Fr as (H1 & H2 & H3). exists (QBool b), st', 0.
      split; [auto|]. split; [exact H1|]. destruct full; [split; [f_equal; auto|]|]; exact H2.
    + do 2 eexists. exists 0. split; [reflexivity|]. split; [exact Hi|].
      destruct full; (split; [reflexivity|apply same_refl]).
    + destruct Fl as (l & L & E). do 2 eexists. exists 0. split; [reflexivity|]. split; [exact Hi|].
      unfold set_len. rewrite E. destruct full; (split; [eauto|apply same_refl]).
    + do 2 eexists. exists 0. split; [reflexivity|]. split; [exact Hi|].
      destruct full; [split|]; try apply same_refl. eexists. split; [reflexivity|]. apply Fe. reflexivity.
    + do 2 eexists. exists 0. split; [reflexivity|]. split; [apply Fc|].
      destruct full; (split; [reflexivity|apply Fc]).
    + destruct (Fre _ (slogged f) []) as (l & x' & st' & l' & oc & E & H1 & H2 & H3 & H4).
      exists (QRetain x' oc), st', 0. split; [|split; [exact H1|]].
      * intros n _. unfold set_retain. rewrite E. reflexivity.
      * assert (G : exists l log l' o, elements (ss_contains m st) l /\
                  retain_elems (slogged f) [] l = (log, l', o) /\
                  QRetain x' oc = QRetain log o /\
                  match o with
                  | Done => elements (ss_contains m st') l'
                  | Unwound => (forall k, ss_contains m st' k = true -> ss_contains m st k = true) /\
                               (forall k, In k l' -> ss_contains m st' k = true)
                  end) by (exists l, x', l', oc; auto).
        destruct full; exact G.
    + destruct Ft as (l & L & G). apply gives_yields in G as [n0 G].
      exists (QList l), st, n0. split; [|split; [exact Hi|]].
      * intros n Hn. unfold set_iter. rewrite G by lia. reflexivity.
      * destruct full; (split; [eauto|apply same_refl]).
  - intros st X f x Hi. exact (sf_retain _ _ _ _ (F st Hi) X f x).
  - intros st Hi. destruct (sf_into _ _ _ _ (F st Hi)) as (l & L & G). exists l.
    split; [exact L|]. apply gives_yields. exact G.
Qed.

Lemma acts_sfacts {T} full (m : SetStorage T) : acts_as_set full m ->
  exists I : ss_St m -> Prop,
    (forall w, I (ss_empty m w) /\ forall k, ss_contains m (ss_empty m w) k = false) /\
    (forall st, I st -> sfacts full m I st).
Proof.
  intros (I & N & S & R & G). exists I. split; [exact N|]. intros st Hi.
  constructor.
  - intros k. destruct (S st (SInsert k) Hi) as (x & st' & n & E & H1 & H2).
    specialize (E n ltac:(lia)). simpl in E. unfold set_insert in E.
    destruct (ss_insert m st k) as [b st1]. injection E as <- <-.
    split; [exact H1|]. destruct full.
    + destruct H2 as [H2 H3]. split; [exact H3|]. intros _. injection H2. auto.
    + split; [exact H2|discriminate].
  - intros k. destruct (S st (SRemove k) Hi) as (x & st' & n & E & H1 & H2).
    specialize (E n ltac:(lia)). simpl in E. unfold set_remove in E.
    destruct (ss_remove m st k) as [b st1]. injection E as <- <-.
    split; [exact H1|]. destruct full.
    + destruct H2 as [H2 H3]. split; [exact H3|]. intros _. injection H2. auto.
    + split; [exact H2|discriminate].
  - destruct (S st SLen Hi) as (x & st' & n & E & H1 & H2).
    specialize (E n ltac:(lia)). simpl in E. injection E as <- <-.
    assert (H3 : exists l, elements (ss_contains m st) l /\ QNat (T := T) (set_len m st) = QNat (length l))
      by (destruct full; apply H2).
    destruct H3 as (l & L & E). exists l. split; [exact L|]. injection E. auto.
  - intros ->. destruct (S st SIsEmpty Hi) as (x & st' & n & E & H1 & ((b & E' & H2) & _)).
    specialize (E n ltac:(lia)). simpl in E. injection E as <- <-. injection E' as <-. exact H2.
  - destruct (S st SClear Hi) as (x & st' & n & E & H1 & H2).
    specialize (E n ltac:(lia)). simpl in E. injection E as <- <-.
    split; [exact H1|]. destruct full; apply H2.
  - destruct (S st SIter Hi) as (x & st' & n & E & H1 & H2).
    specialize (E n ltac:(lia)). simpl in E.
    destruct (drain (ss_Iter m) n (set_iter m st)) as [l|] eqn:D; injection E as <- <-.
    + assert (H3 : exists l0, elements (ss_contains m st) l0 /\ QList l = QList l0)
        by (destruct full; apply H2).
      destruct H3 as (l0 & L & E). injection E as <-. exists l. split; [exact L|].
      exact (drain_gives _ _ _ _ D).
    + exfalso. destruct full; destruct H2 as [(l & _ & E) _]; discriminate E.
  - intros X f x. exact (R st X f x Hi).
  - destruct (G st Hi) as (l & L & Y). exists l. split; [exact L|]. apply yields_gives. exact Y.
Qed.

(** * One flag *)

(** The place of [None] in an option set ([inv]) or of a unit variant: what
    [insert] returns and what [is_empty] expects differ. *)
Definition flag_storage (inv : bool) : SetStorage unit := {|
  ss_St := bool;
  ss_Iter := flag_it tt;
  ss_IntoIter := flag_it tt;
  ss_empty := fun _ => false;
  ss_len := usize_from;
  ss_is_empty := fun b => if inv then b else negb b;
  ss_insert := fun b _ => (if inv then b else negb b, true);
  ss_contains := fun b _ => b;
  ss_remove := fun b _ => (b, false);
  ss_retain := fun X f x b => retain_flag f x tt b;
  ss_clear := fun _ => false;
  ss_iter := fun b => b;
  ss_into_iter := fun b => b;
  ss_clone := fun b => b;
  ss_eq := Bool.eqb;
  ss_hash := None;
  ss_partial_cmp := None;
  ss_cmp := None;
  ss_raw := None
|}.

Lemma flag_gives {A} (x : A) b : gives (flag_it x) b (if b then [x] else []).
Proof.
  assert (N : gives (flag_it x) false []) by (apply (gv_nil (flag_it x) false false); reflexivity).
  destruct b; [|exact N]. apply (gv_cons (flag_it x) true x false); [reflexivity|exact N].
Qed.

Lemma then_gives {A} (x : A) b : gives (opt_it A) (then_some b x) (if b then [x] else []).
Proof. destruct b; [exact (opt_gives (Some x))|exact (opt_gives (@None A))]. Qed.

Lemma flag_elements (b : bool) : elements (fun _ : unit => b) (if b then [tt] else []).
Proof.
  destruct b; split.
  - repeat constructor. intros [].
  - intros []. simpl. tauto.
  - constructor.
  - intros x. simpl. intuition discriminate.
Qed.

Lemma flag_facts full inv b : (full = true -> inv = false) ->
  sfacts full (flag_storage inv) (fun _ => True) b.
Proof.
  intros F. constructor; simpl.
  - intros []. split; [exact Logic.I|]. split.
    + split; [reflexivity|]. intros []; intros C; exfalso; auto.
    + intros H. rewrite (F H). reflexivity.
  - intros []. split; [exact Logic.I|]. split.
    + split; [reflexivity|]. intros []; intros C; exfalso; auto.
    + reflexivity.
  - exists (if b then [tt] else []). split; [apply flag_elements|]. destruct b; reflexivity.
  - intros H. rewrite (F H). destruct b; simpl; split; auto; try discriminate.
    intros G. discriminate (G tt).
  - auto.
  - exists (if b then [tt] else []). split; [apply flag_elements|apply (flag_gives tt)].
  - intros X f x. destruct b; simpl.
    + exists [tt]. simpl. destruct (f x tt) as [x1 []].
      * exists x1, true, [tt], Done. repeat split; auto; try exact (flag_elements true);
          try apply (flag_elements true).
      * exists x1, false, [], Done. repeat split; auto; try apply (flag_elements true);
          try apply (flag_elements false).
      * exists x1, true, [tt], Unwound. repeat split; auto; apply (flag_elements true).
      * exists x1, false, [], Done. repeat split; auto; try apply (flag_elements true);
          try apply (flag_elements false).
    + exists [], x, false, [], Done. repeat split; auto; apply (flag_elements false).
  - exists (if b then [tt] else []). split; [apply flag_elements|apply (flag_gives tt)].
Qed.

(** * Two parts *)

Section SetJoin.
  Context {T A B : Type} (full : bool) {m : SetStorage T} {ma : SetStorage A} {mb : SetStorage B}
    {ja : A -> T} {jb : B -> T} {pa : ss_St m -> ss_St ma} {pb : ss_St m -> ss_St mb}.
  Hypothesis part : forall k, (exists a, k = ja a) \/ (exists b, k = jb b).
  Hypothesis disj : forall a b, ja a <> jb b.
  Hypothesis inj_a : forall a a', ja a = ja a' -> a = a'.
  Hypothesis inj_b : forall b b', jb b = jb b' -> b = b'.
  Context (Ia : ss_St ma -> Prop) (Ib : ss_St mb -> Prop) (I : ss_St m -> Prop).
  Hypothesis HI : forall st, I st <-> Ia (pa st) /\ Ib (pb st).
  Hypothesis Hca : forall st a, ss_contains m st (ja a) = ss_contains ma (pa st) a.
  Hypothesis Hcb : forall st b, ss_contains m st (jb b) = ss_contains mb (pb st) b.
  Hypothesis Hia : forall st a, exists st',
    ss_insert m st (ja a) = (fst (ss_insert ma (pa st) a), st') /\
    pa st' = snd (ss_insert ma (pa st) a) /\ pb st' = pb st.
  Hypothesis Hib : forall st b, exists st',
    ss_insert m st (jb b) = (fst (ss_insert mb (pb st) b), st') /\
    pa st' = pa st /\ pb st' = snd (ss_insert mb (pb st) b).
  Hypothesis Hra : forall st a, exists st',
    ss_remove m st (ja a) = (fst (ss_remove ma (pa st) a), st') /\
    pa st' = snd (ss_remove ma (pa st) a) /\ pb st' = pb st.
  Hypothesis Hrb : forall st b, exists st',
    ss_remove m st (jb b) = (fst (ss_remove mb (pb st) b), st') /\
    pa st' = pa st /\ pb st' = snd (ss_remove mb (pb st) b).
  Hypothesis Hlen : forall st, ss_len m st = ss_len ma (pa st) + ss_len mb (pb st).
  Hypothesis Hempty : forall st,
    ss_is_empty m st = ss_is_empty ma (pa st) && ss_is_empty mb (pb st).
  Hypothesis Hclear : forall st,
    pa (ss_clear m st) = ss_clear ma (pa st) /\ pb (ss_clear m st) = ss_clear mb (pb st).
  Hypothesis Hretain : forall X (f : set_retain_fn X T) x st, exists st',
    match ss_retain ma (fun x a => f x (ja a)) x (pa st) with
    | (x1, sa, Unwound) =>
        ss_retain m f x st = (x1, st', Unwound) /\ pa st' = sa /\ pb st' = pb st
    | (x1, sa, Done) =>
        let '(x2, sb, o) := ss_retain mb (fun x b => f x (jb b)) x1 (pb st) in
        ss_retain m f x st = (x2, st', o) /\ pa st' = sa /\ pb st' = sb
    end.

  Lemma in_ja l lb a : In (ja a) (map ja l ++ map jb lb) <-> In a l.
  Proof.
    rewrite in_app_iff, !in_map_iff. split.
    - intros [(x & E & H)|(x & E & H)].
      + apply inj_a in E as ->. exact H.
      + exfalso. exact (disj a x (eq_sym E)).
    - eauto.
  Qed.

  Lemma in_jb l lb b : In (jb b) (map ja l ++ map jb lb) <-> In b lb.
  Proof.
    rewrite in_app_iff, !in_map_iff. split.
    - intros [(x & E & H)|(x & E & H)].
      + exfalso. exact (disj x b E).
      + apply inj_b in E as ->. exact H.
    - eauto.
  Qed.

  Lemma join_elements st la lb :
    elements (ss_contains ma (pa st)) la -> elements (ss_contains mb (pb st)) lb ->
    elements (ss_contains m st) (map ja la ++ map jb lb).
  Proof.
    intros [Na Ea] [Nb Eb]. split.
    - clear Ea Eb. induction Na as [|a la Hn Na IH]; simpl.
      + apply FinFun.Injective_map_NoDup; [exact inj_b|exact Nb].
      + constructor; [|exact IH]. rewrite in_ja. exact Hn.
    - intros k. destruct (part k) as [[a ->]|[b ->]].
      + rewrite in_ja, Hca. apply Ea.
      + rewrite in_jb, Hcb. apply Eb.
  Qed.

  Lemma join_facts st : I st -> sfacts full ma Ia (pa st) -> sfacts full mb Ib (pb st) ->
    (exists l, elements (ss_contains m st) l /\ gives (ss_Iter m) (ss_iter m st) l) ->
    (exists l, elements (ss_contains m st) l /\ gives (ss_IntoIter m) (ss_into_iter m st) l) ->
    sfacts full m I st.
  Proof.
    intros Hi Fa Fb Fit Fin. apply HI in Hi as [Hi1 Hi2]. constructor; auto.
    - intros k. destruct (part k) as [[a ->]|[b ->]].
      + destruct (Hia st a) as (st' & -> & E1 & E2). pose proof (sf_insert _ _ _ _ Fa a) as F.
        destruct (ss_insert ma (pa st) a) as [r s]. simpl in *. destruct F as (F1 & [F2 F3] & F4).
        split; [apply HI; rewrite E1, E2; auto|]. split.
        * split; [rewrite Hca, E1; exact F2|]. intros k Hk.
          destruct (part k) as [[a' ->]|[b' ->]].
          -- rewrite !Hca, E1. apply F3. congruence.
          -- rewrite !Hcb, E2. reflexivity.
        * rewrite Hca. exact F4.
      + destruct (Hib st b) as (st' & -> & E1 & E2). pose proof (sf_insert _ _ _ _ Fb b) as F.
        destruct (ss_insert mb (pb st) b) as [r s]. simpl in *. destruct F as (F1 & [F2 F3] & F4).
        split; [apply HI; rewrite E1, E2; auto|]. split.
        * split; [rewrite Hcb, E2; exact F2|]. intros k Hk.
          destruct (part k) as [[a' ->]|[b' ->]].
          -- rewrite !Hca, E1. reflexivity.
          -- rewrite !Hcb, E2. apply F3. congruence.
        * rewrite Hcb. exact F4.
    - intros k. destruct (part k) as [[a ->]|[b ->]].
      + destruct (Hra st a) as (st' & -> & E1 & E2). pose proof (sf_remove _ _ _ _ Fa a) as F.
        destruct (ss_remove ma (pa st) a) as [r s]. simpl in *. destruct F as (F1 & [F2 F3] & F4).
        split; [apply HI; rewrite E1, E2; auto|]. split.
        * split; [rewrite Hca, E1; exact F2|]. intros k Hk.
          destruct (part k) as [[a' ->]|[b' ->]].
          -- rewrite !Hca, E1. apply F3. congruence.
          -- rewrite !Hcb, E2. reflexivity.
        * rewrite Hca. exact F4.
      + destruct (Hrb st b) as (st' & -> & E1 & E2). pose proof (sf_remove _ _ _ _ Fb b) as F.
        destruct (ss_remove mb (pb st) b) as [r s]. simpl in *. destruct F as (F1 & [F2 F3] & F4).
        split; [apply HI; rewrite E1, E2; auto|]. split.
        * split; [rewrite Hcb, E2; exact F2|]. intros k Hk.
          destruct (part k) as [[a' ->]|[b' ->]].
          -- rewrite !Hca, E1. reflexivity.
          -- rewrite !Hcb, E2. apply F3. congruence.
        * rewrite Hcb. exact F4.
    - destruct (sf_len _ _ _ _ Fa) as (la & La & Ea), (sf_len _ _ _ _ Fb) as (lb & Lb & Eb).
      exists (map ja la ++ map jb lb). split; [apply join_elements; auto|].
      rewrite Hlen, Ea, Eb, app_length, !map_length. reflexivity.
    - intros H. rewrite Hempty, andb_true_iff, (sf_empty _ _ _ _ Fa H), (sf_empty _ _ _ _ Fb H). split.
      + intros [Ga Gb] k. destruct (part k) as [[a ->]|[b ->]]; [rewrite Hca; auto|rewrite Hcb; auto].
      + intros G. split; intros k; [rewrite <- Hca|rewrite <- Hcb]; apply G.
    - destruct (Hclear st) as [Ea Eb], (sf_clear _ _ _ _ Fa) as [C1 C2], (sf_clear _ _ _ _ Fb) as [C3 C4].
      split; [apply HI; rewrite Ea, Eb; auto|].
      intros k. destruct (part k) as [[a ->]|[b ->]]; [rewrite Hca, Ea|rewrite Hcb, Eb]; auto.
    - intros X f x. destruct (Hretain X f x st) as (st' & H).
      destruct (sf_retain _ _ _ _ Fa X (fun x a => f x (ja a)) x)
        as (la & x1 & sa & la' & o1 & E1 & Hi1' & La & R1 & D1).
      rewrite E1 in H. destruct o1.
      + destruct (sf_retain _ _ _ _ Fb X (fun x b => f x (jb b)) x1)
          as (lb & x2 & sb & lb' & o2 & E2 & Hi2' & Lb & R2 & D2).
        rewrite E2 in H. destruct H as (E & Pa & Pb).
        exists (map ja la ++ map jb lb), x2, st', (map ja la' ++ map jb lb'), o2.
        split; [exact E|]. split; [apply HI; rewrite Pa, Pb; auto|].
        split; [apply join_elements; auto|]. split.
        { rewrite retain_elems_app, retain_elems_map, R1, retain_elems_map, R2. reflexivity. }
        destruct o2.
        * apply join_elements; [rewrite Pa; auto|rewrite Pb; auto].
        * destruct D2 as [D2 D3]. split.
          -- intros k. destruct (part k) as [[a ->]|[b ->]].
             ++ rewrite !Hca, Pa. intros Hk. apply D1 in Hk. apply La.
                exact (retain_elems_incl _ _ _ _ _ _ R1 _ Hk).
             ++ rewrite !Hcb, Pb. apply D2.
          -- intros k. destruct (part k) as [[a ->]|[b ->]].
             ++ rewrite in_ja, Hca, Pa. apply D1.
             ++ rewrite in_jb, Hcb, Pb. apply D3.
      + destruct H as (E & Pa & Pb). destruct (sf_len _ _ _ _ Fb) as (lb & Lb & _).
        exists (map ja la ++ map jb lb), x1, st', (map ja la' ++ map jb lb), Unwound.
        split; [exact E|]. split; [apply HI; rewrite Pa, Pb; auto|].
        split; [apply join_elements; auto|]. split.
        { rewrite retain_elems_app, retain_elems_map, R1. reflexivity. }
        destruct D1 as [D1 D2]. split.
        * intros k. destruct (part k) as [[a ->]|[b ->]].
          -- rewrite !Hca, Pa. apply D1.
          -- rewrite !Hcb, Pb. auto.
        * intros k. destruct (part k) as [[a ->]|[b ->]].
          -- rewrite in_ja, Hca, Pa. apply D2.
          -- rewrite in_jb, Hcb, Pb. apply Lb.
  Qed.
End SetJoin.

(** * Options *)

Lemma option_set_acts {T} (m : SetStorage T) :
  acts_as_set false m -> acts_as_set false (opt_set_storage m).
Proof.
  intros H. apply acts_sfacts in H as (Ia & N & F).
  apply (sfacts_acts false (opt_set_storage m) (fun st => Ia (os_some m st) /\ True)).
  - intros w. split; [split; [apply N|exact Logic.I]|].
    intros [k|]; simpl; [apply N|reflexivity].
  - intros st Hi.
    assert (P : forall k : option T, (exists a, k = Some a) \/ (exists b : unit, k = None)).
    { intros [k|]; [left|right]; [exists k|exists tt]; reflexivity. }
    assert (IJ : forall b b' : unit, @None T = None -> b = b') by (intros [] []; reflexivity).
    apply (join_facts false (m := opt_set_storage m) (ma := m) (mb := flag_storage true)
             (ja := Some) (jb := fun _ => None) (pa := os_some m) (pb := os_none m) P
             ltac:(discriminate) ltac:(intros a a' E; injection E; auto) IJ
             Ia (fun _ => True)); auto.
    + intros s. reflexivity.
    + intros s a. simpl. destruct (ss_insert m (os_some m s) a) as [r s']. eexists; split; [reflexivity|]. auto.
    + intros s a. simpl. eexists; split; [reflexivity|]. auto.
    + intros s a. simpl. destruct (ss_remove m (os_some m s) a) as [r s']. eexists; split; [reflexivity|]. auto.
    + intros s a. simpl. eexists; split; [reflexivity|]. auto.
    + intros X f x s. simpl. unfold os_retain.
      destruct (ss_retain m (fun x a => f x (Some a)) x (os_some m s)) as [[x1 s1] []].
      * unfold retain_flag. destruct (os_none m s); [destruct (f x1 None) as [x2 []]|];
          eexists; split; try reflexivity; auto.
      * eexists; split; [reflexivity|]; auto.
    + apply F, Hi.
    + apply flag_facts. discriminate.
    + destruct (sf_iter _ _ _ _ (F _ (proj1 Hi))) as (la & La & Ga).
      exists (map Some la ++ map (fun _ => None) (if os_none m st then [tt] else [])). split.
      * apply (join_elements (m := opt_set_storage m) (ma := m) (mb := flag_storage true)
             (ja := Some) (jb := fun _ => None) (pa := os_some m) (pb := os_none m) P
             ltac:(discriminate) ltac:(intros a a' E; injection E; auto) IJ); auto.
        apply flag_elements.
      * refine (chain_gives (map_it _ _) (opt_it _) _ _ _ _ (map_gives Some (ss_Iter m) _ _ Ga) _).
        pose proof (then_gives (@None T) (os_none m st)) as G. destruct (os_none m st); exact G.
    + destruct (sf_into _ _ _ _ (F _ (proj1 Hi))) as (la & La & Ga).
      exists (map Some la ++ map (fun _ => None) (if os_none m st then [tt] else [])). split.
      * apply (join_elements (m := opt_set_storage m) (ma := m) (mb := flag_storage true)
             (ja := Some) (jb := fun _ => None) (pa := os_some m) (pb := os_none m) P
             ltac:(discriminate) ltac:(intros a a' E; injection E; auto) IJ); auto.
        apply flag_elements.
      * refine (chain_gives (map_it _ _) (opt_it _) _ _ _ _ (map_gives Some (ss_IntoIter m) _ _ Ga) _).
        pose proof (then_gives (@None T) (os_none m st)) as G. destruct (os_none m st); exact G.
Qed.


(** * Enums *)

Record sgood {R} (full : bool) (fs : fields R) (I : any_set fs -> Prop) : Prop := MkSgood {
  sg_new : forall i w, I (anys_empty fs i w) /\ forall k, anys_contains fs (anys_empty fs i w) k = false;
  sg_facts : forall st, I st -> sfacts full (any_set_storage fs) I st;
  sg_iter : forall st, I st -> exists l, elements (anys_contains fs st) l /\
    forall T (inj : R -> T) i, exists ll,
      from_gives (field_its siter_simple siter_cx i fs inj) 0
        (field_init (Cx := cx_set) siter_simple siter_cx (fun _ _ b => b)
           (fun _ K ki _ s => ss_iter (ki_set ki) s) i fs inj st) ll /\
      concat ll = map inj l;
  sg_into : forall st, I st -> exists l, elements (anys_contains fs st) l /\
    forall T (inj : R -> T) i, exists ll,
      from_gives (field_its siter_simple sinto_cx i fs inj) 0
        (field_init (Cx := cx_set) siter_simple sinto_cx (fun _ _ b => b)
           (fun _ K ki _ s => ss_into_iter (ki_set ki) s) i fs inj st) ll /\
      concat ll = map inj l
}.

Lemma siter_of_fields {R} (fs : fields R) st l :
  (forall T (inj : R -> T) i, exists ll,
      from_gives (field_its siter_simple siter_cx i fs inj) 0
        (field_init (Cx := cx_set) siter_simple siter_cx (fun _ _ b => b)
           (fun _ K ki _ s => ss_iter (ki_set ki) s) i fs inj st) ll /\
      concat ll = map inj l) ->
  gives (ss_Iter (any_set_storage fs)) (ss_iter (any_set_storage fs) st) l.
Proof.
  intros H. destruct (H R (fun k => k) 0) as (ll & G & E). rewrite map_id in E. rewrite <- E.
  apply (struct_gives (field_its siter_simple siter_cx 0 fs (fun k => k))).
  - symmetry. apply field_its_len.
  - exact G.
Qed.

Lemma sinto_of_fields {R} (fs : fields R) st l :
  (forall T (inj : R -> T) i, exists ll,
      from_gives (field_its siter_simple sinto_cx i fs inj) 0
        (field_init (Cx := cx_set) siter_simple sinto_cx (fun _ _ b => b)
           (fun _ K ki _ s => ss_into_iter (ki_set ki) s) i fs inj st) ll /\
      concat ll = map inj l) ->
  gives (ss_IntoIter (any_set_storage fs)) (ss_into_iter (any_set_storage fs) st) l.
Proof.
  intros H. destruct (H R (fun k => k) 0) as (ll & G & E). rewrite map_id in E. rewrite <- E.
  apply (struct_gives (field_its siter_simple sinto_cx 0 fs (fun k => k))).
  - symmetry. apply field_its_len.
  - exact G.
Qed.

Lemma nil_sgood full : sgood full FNil (fun _ => True).
Proof.
  assert (E0 : forall st, elements (anys_contains FNil st) []).
  { intros st. split; [constructor|]. intros []. }
  assert (It : forall st : any_set FNil, True -> exists l, elements (anys_contains FNil st) l /\
    forall T (inj : Empty_set -> T) i, exists ll,
      from_gives (field_its siter_simple siter_cx i FNil inj) 0
        (field_init (Cx := cx_set) siter_simple siter_cx (fun _ _ b => b)
           (fun _ K ki _ s => ss_iter (ki_set ki) s) i FNil inj st) ll /\
      concat ll = map inj l).
  { intros st _. exists []. split; [apply E0|]. intros T inj i. exists []. split; reflexivity. }
  assert (In_ : forall st : any_set FNil, True -> exists l, elements (anys_contains FNil st) l /\
    forall T (inj : Empty_set -> T) i, exists ll,
      from_gives (field_its siter_simple sinto_cx i FNil inj) 0
        (field_init (Cx := cx_set) siter_simple sinto_cx (fun _ _ b => b)
           (fun _ K ki _ s => ss_into_iter (ki_set ki) s) i FNil inj st) ll /\
      concat ll = map inj l).
  { intros st _. exists []. split; [apply E0|]. intros T inj i. exists []. split; reflexivity. }
  constructor; auto.
  - intros i w. split; [exact Logic.I|]. intros [].
  - intros st _. constructor.
    + intros [].
    + intros [].
    + exists []. split; [apply E0|reflexivity].
    + intros _. split; [intros _ []|reflexivity].
    + split; [exact Logic.I|]. intros [].
    + destruct (It st Logic.I) as (l & L & G). exists l. split; [exact L|]. apply siter_of_fields. exact G.
    + intros X f x. exists [], x, st, [], Done. split; [reflexivity|]. split; [exact Logic.I|].
      split; [apply E0|]. split; [reflexivity|apply E0].
    + destruct (In_ st Logic.I) as (l & L & G). exists l. split; [exact L|]. apply sinto_of_fields. exact G.
Qed.

Lemma inl_inj {A B} (a a' : A) : @inl A B a = inl a' -> a = a'.
Proof. intros E. injection E. auto. Qed.
Lemma inr_inj {A B} (b b' : B) : @inr A B b = inr b' -> b = b'.
Proof. intros E. injection E. auto. Qed.

Lemma unit_sgood {R} full (fs : fields R) Ib : sgood full fs Ib -> exists I, sgood full (FUnit fs) I.
Proof.
  intros F. set (I := fun st : any_set (FUnit fs) => True /\ Ib (snd st)).
  assert (JE : forall (st : any_set (FUnit fs)) lb, elements (anys_contains fs (snd st)) lb ->
    elements (anys_contains (FUnit fs) st) (map inl (if fst st then [tt] else []) ++ map inr lb)).
  { intros st lb L.
    apply (join_elements (m := any_set_storage (FUnit fs)) (ma := flag_storage false)
             (mb := any_set_storage fs) (ja := inl) (jb := inr) (pa := fst) (pb := snd)
             sum_part sum_disj inl_inj inr_inj); auto.
    apply flag_elements. }
  assert (It : forall st, I st -> exists l, elements (anys_contains (FUnit fs) st) l /\
    forall T (inj : unit + R -> T) i, exists ll,
      from_gives (field_its siter_simple siter_cx i (FUnit fs) inj) 0
        (field_init (Cx := cx_set) siter_simple siter_cx (fun _ _ b => b)
           (fun _ K ki _ s => ss_iter (ki_set ki) s) i (FUnit fs) inj st) ll /\
      concat ll = map inj l).
  { intros st [_ Hi]. destruct (sg_iter _ _ _ F _ Hi) as (lb & L & G).
    exists (map inl (if fst st then [tt] else []) ++ map inr lb). split; [apply JE; exact L|].
    intros T inj i. destruct (G T (fun k => inj (inr k)) (S i)) as (ll & G' & E).
    exists ((if fst st then [inj (inl tt)] else []) :: ll). split.
    - exists (if fst st then [inj (inl tt)] else []), ll. split; [reflexivity|]. split; [|exact G'].
      apply (flag_gives (inj (inl tt))).
    - simpl. rewrite E, map_app, !map_map. destruct (fst st); reflexivity. }
  assert (In_ : forall st, I st -> exists l, elements (anys_contains (FUnit fs) st) l /\
    forall T (inj : unit + R -> T) i, exists ll,
      from_gives (field_its siter_simple sinto_cx i (FUnit fs) inj) 0
        (field_init (Cx := cx_set) siter_simple sinto_cx (fun _ _ b => b)
           (fun _ K ki _ s => ss_into_iter (ki_set ki) s) i (FUnit fs) inj st) ll /\
      concat ll = map inj l).
  { intros st [_ Hi]. destruct (sg_into _ _ _ F _ Hi) as (lb & L & G).
    exists (map inl (if fst st then [tt] else []) ++ map inr lb). split; [apply JE; exact L|].
    intros T inj i. destruct (G T (fun k => inj (inr k)) (S i)) as (ll & G' & E).
    exists ((if fst st then [inj (inl tt)] else []) :: ll). split.
    - exists (if fst st then [inj (inl tt)] else []), ll. split; [reflexivity|]. split; [|exact G'].
      apply (flag_gives (inj (inl tt))).
    - simpl. rewrite E, map_app, !map_map. destruct (fst st); reflexivity. }
  exists I. constructor; auto.
  - intros i w. destruct (sg_new _ _ _ F (S i) w) as [H1 H2]. split; [split; [exact Logic.I|exact H1]|].
    intros [k|k]; [reflexivity|apply H2].
  - intros st Hi.
    apply (join_facts full (m := any_set_storage (FUnit fs)) (ma := flag_storage false)
             (mb := any_set_storage fs) (ja := inl) (jb := inr) (pa := fst) (pb := snd)
             sum_part sum_disj inl_inj inr_inj (fun _ => True) Ib I (fun st => iff_refl _)); auto.
    + intros s a. simpl. eexists; split; [reflexivity|]. auto.
    + intros s a. simpl. destruct (anys_insert fs (snd s) a) as [r s']. eexists; split; [reflexivity|]. auto.
    + intros s a. simpl. eexists; split; [reflexivity|]. auto.
    + intros s a. simpl. destruct (anys_remove fs (snd s) a) as [r s']. eexists; split; [reflexivity|]. auto.
    + intros s. simpl. rewrite anys_len_acc. reflexivity.
    + intros s. simpl. rewrite anys_is_empty_acc. reflexivity.
    + intros X f x s. simpl. unfold retain_flag.
      destruct (fst s) eqn:Es; [destruct (f x (inl tt)) as [x1 []]|]; simpl.
      * rewrite (anys_retain_inj fs _ f (fun k => inr k)).
        destruct (anys_retain _ fs _ x1 (snd s)) as [[x2 s2] o2]. eexists; split; [reflexivity|]. auto.
      * rewrite (anys_retain_inj fs _ f (fun k => inr k)).
        destruct (anys_retain _ fs _ x1 (snd s)) as [[x2 s2] o2]. eexists; split; [reflexivity|]. auto.
      * eexists; split; [reflexivity|]. auto.
      * rewrite (anys_retain_inj fs _ f (fun k => inr k)).
        destruct (anys_retain _ fs _ x1 (snd s)) as [[x2 s2] o2]. eexists; split; [reflexivity|]. auto.
      * rewrite (anys_retain_inj fs _ f (fun k => inr k)).
        destruct (anys_retain _ fs _ x (snd s)) as [[x2 s2] o2]. eexists; split; [reflexivity|]. auto.
    + apply flag_facts. auto.
    + apply (sg_facts _ _ _ F). apply Hi.
    + destruct (It st Hi) as (l & L & G). exists l. split; [exact L|]. apply siter_of_fields. exact G.
    + destruct (In_ st Hi) as (l & L & G). exists l. split; [exact L|]. apply sinto_of_fields. exact G.
Qed.

Lemma tuple_sgood {K R} full (ki : KeyImpl K) (fs : fields R) Ib :
  acts_as_set full (ki_set ki) -> sgood full fs Ib -> exists I, sgood full (FTuple ki fs) I.
Proof.
  intros A F. apply acts_sfacts in A as (Ia & Na & Fa).
  set (I := fun st : any_set (FTuple ki fs) => Ia (fst st) /\ Ib (snd st)).
  assert (JE : forall (st : any_set (FTuple ki fs)) la lb, elements (ss_contains (ki_set ki) (fst st)) la ->
    elements (anys_contains fs (snd st)) lb ->
    elements (anys_contains (FTuple ki fs) st) (map inl la ++ map inr lb)).
  { intros st la lb L1 L2.
    apply (join_elements (m := any_set_storage (FTuple ki fs)) (ma := ki_set ki)
             (mb := any_set_storage fs) (ja := inl) (jb := inr) (pa := fst) (pb := snd)
             sum_part sum_disj inl_inj inr_inj); auto. }
  assert (It : forall st, I st -> exists l, elements (anys_contains (FTuple ki fs) st) l /\
    forall T (inj : K + R -> T) i, exists ll,
      from_gives (field_its siter_simple siter_cx i (FTuple ki fs) inj) 0
        (field_init (Cx := cx_set) siter_simple siter_cx (fun _ _ b => b)
           (fun _ K ki _ s => ss_iter (ki_set ki) s) i (FTuple ki fs) inj st) ll /\
      concat ll = map inj l).
  { intros st [Hi1 Hi2]. destruct (sg_iter _ _ _ F _ Hi2) as (lb & L & G).
    destruct (sf_iter _ _ _ _ (Fa _ Hi1)) as (la & L1 & G1).
    exists (map inl la ++ map inr lb). split; [apply JE; assumption|].
    intros T inj i. destruct (G T (fun k => inj (inr k)) (S i)) as (ll & G' & E).
    exists (map (fun k => inj (inl k)) la :: ll). split.
    - exists (map (fun k => inj (inl k)) la), ll. split; [reflexivity|]. split; [|exact G'].
      exact (map_gives (fun k => inj (inl k)) _ _ _ G1).
    - simpl. rewrite E, map_app, !map_map. reflexivity. }
  assert (In_ : forall st, I st -> exists l, elements (anys_contains (FTuple ki fs) st) l /\
    forall T (inj : K + R -> T) i, exists ll,
      from_gives (field_its siter_simple sinto_cx i (FTuple ki fs) inj) 0
        (field_init (Cx := cx_set) siter_simple sinto_cx (fun _ _ b => b)
           (fun _ K ki _ s => ss_into_iter (ki_set ki) s) i (FTuple ki fs) inj st) ll /\
      concat ll = map inj l).
  { intros st [Hi1 Hi2]. destruct (sg_into _ _ _ F _ Hi2) as (lb & L & G).
    destruct (sf_into _ _ _ _ (Fa _ Hi1)) as (la & L1 & G1).
    exists (map inl la ++ map inr lb). split; [apply JE; assumption|].
    intros T inj i. destruct (G T (fun k => inj (inr k)) (S i)) as (ll & G' & E).
    exists (map (fun k => inj (inl k)) la :: ll). split.
    - exists (map (fun k => inj (inl k)) la), ll. split; [reflexivity|]. split; [|exact G'].
      exact (map_gives (fun k => inj (inl k)) _ _ _ G1).
    - simpl. rewrite E, map_app, !map_map. reflexivity. }
  exists I. constructor; auto.
  - intros i w. destruct (Na (sub_world i w)) as [H1 H2], (sg_new _ _ _ F (S i) w) as [H3 H4].
    split; [split; [exact H1|exact H3]|]. intros [k|k]; [apply H2|apply H4].
  - intros st Hi.
    apply (join_facts full (m := any_set_storage (FTuple ki fs)) (ma := ki_set ki)
             (mb := any_set_storage fs) (ja := inl) (jb := inr) (pa := fst) (pb := snd)
             sum_part sum_disj inl_inj inr_inj Ia Ib I (fun st => iff_refl _)); auto.
    + intros s a. simpl. destruct (ss_insert (ki_set ki) (fst s) a) as [r s']. eexists; split; [reflexivity|]. auto.
    + intros s a. simpl. destruct (anys_insert fs (snd s) a) as [r s']. eexists; split; [reflexivity|]. auto.
    + intros s a. simpl. destruct (ss_remove (ki_set ki) (fst s) a) as [r s']. eexists; split; [reflexivity|]. auto.
    + intros s a. simpl. destruct (anys_remove fs (snd s) a) as [r s']. eexists; split; [reflexivity|]. auto.
    + intros s. simpl. rewrite anys_len_acc. reflexivity.
    + intros s. simpl. rewrite anys_is_empty_acc. reflexivity.
    + intros X f x s. simpl.
      destruct (ss_retain (ki_set ki) (fun x a => f x (inl a)) x (fst s)) as [[x1 s1] []].
      * rewrite (anys_retain_inj fs _ f (fun k => inr k)).
        destruct (anys_retain _ fs _ x1 (snd s)) as [[x2 s2] o2]. eexists; split; [reflexivity|]. auto.
      * eexists; split; [reflexivity|]. auto.
    + apply Fa. apply Hi.
    + apply (sg_facts _ _ _ F). apply Hi.
    + destruct (It st Hi) as (l & L & G). exists l. split; [exact L|]. apply siter_of_fields. exact G.
    + destruct (In_ st Hi) as (l & L & G). exists l. split; [exact L|]. apply sinto_of_fields. exact G.
Qed.

Lemma enum_set_acts {R} full (fs : fields R) :
  payload_sets_act full fs -> acts_as_set full (any_set_storage fs).
Proof.
  intros H.
  assert (G : exists I, sgood full fs I).
  { revert H. induction fs as [|R fs IH|K R ki fs IH]; intros H.
    - exists (fun _ => True). apply nil_sgood.
    - destruct (IH H) as (I & F). exact (unit_sgood full fs I F).
    - destruct H as [H1 H2]. destruct (IH H2) as (I & F). exact (tuple_sgood full ki fs I H1 F). }
  destruct G as (I & F). apply (sfacts_acts full (any_set_storage fs) I).
  - intros w. apply (sg_new _ _ _ F).
  - apply (sg_facts _ _ _ F).
Qed.

Lemma full_acts {T} (m : SetStorage T) : acts_as_set true m -> acts_as_set false m.
Proof.
  intros H. apply acts_sfacts in H as (I & N & F). apply (sfacts_acts false m I N).
  intros st Hi. destruct (F st Hi) as [Fi Fr Fl Fe Fc Ft Fre Fin]. constructor; auto; try discriminate.
  - intros k. specialize (Fi k). destruct (ss_insert m st k). intuition discriminate.
  - intros k. specialize (Fr k). destruct (ss_remove m st k). intuition discriminate.
Qed.

(** * Histories *)

Lemma spec_results_ext {T} full (p p' : T -> bool) o x q : same_set p p' ->
  spec_results full p o x q -> spec_results full p' o x q.
Proof.
  intros E. unfold spec_results. destruct full; [apply spec_sop_ext; exact E|].
  destruct o; try (apply spec_sop_ext; exact E); simpl.
  - intros [H1 H2]. split; [exact H1|]. intros k' Hk. rewrite <- E. auto.
  - intros [H1 H2]. split; [exact H1|]. intros k' Hk. rewrite <- E. auto.
  - intros H k. rewrite <- E. auto.
Qed.

Lemma set_acts_history {T} full (m : SetStorage T) : acts_as_set full m -> forall w ops,
  exists xs st n0, (forall n, n0 <= n -> run_sops m n (set_new m w) ops = (xs, st)) /\
    spec_all (spec_results full) (fun _ => false) ops xs (set_contains m st).
Proof.
  intros (I & N & S & _) w ops. destruct (N w) as [Hi He].
  assert (G : forall ops st, I st -> exists xs st' n0,
    (forall n, n0 <= n -> run_sops m n st ops = (xs, st')) /\
    spec_all (spec_results full) (set_contains m st) ops xs (set_contains m st')).
  { clear w ops Hi He. induction ops as [|o ops IH]; intros st Hi.
    - exists [], st, 0. split; [reflexivity|]. intros k; reflexivity.
    - destruct (S st o Hi) as (x & st1 & n1 & E1 & H1 & S1).
      destruct (IH st1 H1) as (xs & st2 & n2 & E2 & S2).
      exists (x :: xs), st2, (n1 + n2). split.
      + intros n Hn. simpl. rewrite E1, E2 by lia. reflexivity.
      + exists (set_contains m st1). split; assumption. }
  destruct (G ops (set_new m w) Hi) as (xs & st & n0 & E & Sp).
  exists xs, st, n0. split; [exact E|].
  eapply spec_all_ext; [|exact He|exact Sp]. apply spec_results_ext.
Qed.

(** * Built-in key types *)

Lemma builtin_set_acts t ki : derive t = Some ki -> (forall k, leaf_of t k <> LUnit) ->
  acts_as_set false (ki_set ki).
Proof.
  intros D U. pose proof (derive_set_laws t ki D) as L.
  assert (U' : forall k, ks_leaf (key_spec t) k <> LUnit) by (intros k; rewrite (proj1 spec_leaf); auto).
  exists (set_reachable (ki_set ki)). split; [|split; [|split]].
  - intros w. split; [constructor|]. intros k.
    destruct (s_c14 L (set_new (ki_set ki) w) (or_introl (ex_intro _ w eq_refl))) as (H1 & H2 & _). auto.
  - intros st o R. destruct (run_sop_ok L o st (s_reach_inv L st R))
      as (x & st' & n0 & E & _ & R' & X & C & _).
    exists x, st', n0. split; [exact E|]. split; [auto|].
    destruct o; try exact C; try exact X. simpl.
    destruct (s_c29_free L _ (slogged f) [] st U' R) as (l & x' & l' & oc & st2 & H1 & H2 & H3 & H4 & H5).
    specialize (E n0 (le_n _)). simpl in E. rewrite H3 in E. injection E as <- <-.
    exists l, x', l', oc. split; [|split; [exact H2|split; [reflexivity|]]].
    + destruct (s_c30 L st R) as (l2 & Y & _ & El & _). rewrite (yields_fun _ _ _ _ H1 Y). exact El.
    + destruct oc; [apply H4|exact H4].
  - intros st X f x R.
    destruct (s_c29_free L X f x st U' R) as (l & x' & l' & oc & st2 & H1 & H2 & H3 & H4 & H5).
    exists l, x', st2, l', oc. split; [exact H3|]. split; [exact H5|]. split; [|split; [exact H2|]].
    + destruct (s_c30 L st R) as (l2 & Y & _ & El & _). rewrite (yields_fun _ _ _ _ H1 Y). exact El.
    + destruct oc; [apply H4|exact H4].
  - intros st R. destruct (s_c30 L st R) as (l & _ & Y & El & _). exists l. auto.
Qed.

Lemma builtin_set_acts_full t ki : derive t = Some ki ->
  (forall k, leaf_of t k = LHash \/ leaf_of t k = LVariant) -> acts_as_set true (ki_set ki).
Proof.
  intros D U.
  assert (B : acts_as_set false (ki_set ki)).
  { apply (builtin_set_acts t ki D). intros k. destruct (U k) as [-> | ->]; discriminate. }
  pose proof (derive_set_laws t ki D) as L.
  exists (set_reachable (ki_set ki)). split; [|split; [|split]].
  - intros w. split; [constructor|]. intros k.
    destruct (s_c14 L (set_new (ki_set ki) w) (or_introl (ex_intro _ w eq_refl))) as (H1 & H2 & _). auto.
  - intros st o R. destruct (run_sop_ok L o st (s_reach_inv L st R))
      as (x & st' & n0 & E & _ & R' & _ & _ & X).
    exists x, st', n0. split; [exact E|]. split; [auto|]. apply X.
    + intros k. rewrite (proj1 spec_leaf). destruct (U k) as [-> | ->]; reflexivity.
    + intros k. rewrite (proj1 spec_leaf). destruct (U k) as [-> | ->]; discriminate.
    + intros k. apply no_bool_sib. destruct (U k) as [-> | ->]; discriminate.
  - intros st X f x R.
    assert (U' : forall k, ks_leaf (key_spec t) k <> LUnit).
    { intros k. rewrite (proj1 spec_leaf). destruct (U k) as [-> | ->]; discriminate. }
    destruct (s_c29_free L X f x st U' R) as (l & x' & l' & oc & st2 & H1 & H2 & H3 & H4 & H5).
    exists l, x', st2, l', oc. split; [exact H3|]. split; [exact H5|]. split; [|split; [exact H2|]].
    + destruct (s_c30 L st R) as (l2 & Y & _ & El & _). rewrite (yields_fun _ _ _ _ H1 Y). exact El.
    + destruct oc; [apply H4|exact H4].
  - intros st R. destruct (s_c30 L st R) as (l & _ & Y & El & _). exists l. auto.
Qed.

Lemma option_set_not_full {T} (m : SetStorage T) : ~ acts_as_set true (opt_set_storage m).
Proof.
  intros (I & N & S & _). destruct (N (fun _ _ => [])) as [Hi He].
  destruct (S _ (SInsert None) Hi) as (x & st' & n & E & _ & H & _).
  specialize (E n (le_n _)). rewrite He in H. injection E as <- _. discriminate H.
Qed.
