(** Programs over several sets do what they should. *)
Require Import List Arith NArith ZArith Bool Lia Permutation.
Import ListNotations.
From Verif Require Import Std Traits Key Spec OrdSpec Api Reach KeyLaws IterLaws IterFacts MapCore MapLaws SetCore SetLaws
  SetFacts SetProofs Program ProgramProofs SetProgram SetProgramSpec.

(** What the statements need to know about a set storage. *)
Record plaws (t : kty) (m : SetStorage (key t)) : Type := MkPlaws {
  pl_sp : KeySpec (key t);
  pl_L : SetLaws pl_sp m;
  pl_inv : ss_St m -> Prop;
  pl_abs : ss_St m -> list (key t);
  pl_stray : ss_St m -> N;
  pl_eqb : forall a b : key t, {a = b} + {a <> b};
  pl_nodup : forall st, pl_inv st -> NoDup (pl_abs st);
  pl_sorted : forall st, pl_inv st -> sorted_by (key_before t) (pl_abs st);
  pl_iter : forall st, pl_inv st ->
    il_ok (sl_Iter pl_L) (set_iter m st) /\ il_rem (sl_Iter pl_L) (set_iter m st) = pl_abs st;
  pl_into_iter : forall st, pl_inv st ->
    il_ok (sl_IntoIter pl_L) (set_into_iter m st) /\ il_rem (sl_IntoIter pl_L) (set_into_iter m st) = pl_abs st;
  pl_ends : double_ended (ss_Iter m) = hash_free t /\ double_ended (ss_IntoIter m) = hash_free t;
  pl_empty : forall w, pl_inv (set_new m w) /\ pl_abs (set_new m w) = [] /\ pl_stray (set_new m w) = 0%N;
  pl_len : forall st, pl_inv st -> set_len m st = size t (MkContent (pl_abs st) (pl_stray st));
  pl_is_empty : forall st, pl_inv st -> (set_is_empty m st = true <->
    (forall k, In k (pl_abs st) <-> leaf_of t k = LNone) /\ pl_stray st = 0%N);
  pl_contains : forall st, pl_inv st -> decides t (set_contains m st) (pl_abs st);
  pl_insert : forall st k, pl_inv st -> exists st',
    set_insert m st k = (insert_tells t k (set_contains m st k), st') /\ pl_inv st' /\
    inserted t (pl_abs st) k (pl_abs st') /\ pl_stray st' = pl_stray st;
  pl_remove : forall st k, pl_inv st -> exists st',
    set_remove m st k = (set_contains m st k || sib_contains (set_contains m st) (sibling t k), st') /\
    pl_inv st' /\ pl_stray st' = pl_stray st /\
    pl_abs st' = filter (fun x => if pl_eqb k x then false else true) (pl_abs st);
  pl_clear : forall st, pl_inv st ->
    pl_inv (set_clear m st) /\ pl_abs (set_clear m st) = [] /\ pl_stray (set_clear m st) = 0%N;
  pl_retain : forall X (f : set_retain_fn X (key t)) x st, pl_inv st -> exists vs x' st' w,
    set_retain m f x st = (x', st', ends_at w) /\ pl_inv st' /\
    visits t (pl_abs st) (set_contains m st) vs /\
    retain_undo f (one_bitset t) (set_contains m st) x vs = (x', pl_abs st', w) /\
    pl_stray st' = match w with None => 0%N | Some _ => pl_stray st end;
  pl_clone : forall st, set_clone m st = st;
  pl_eq : forall a b, pl_inv a -> pl_inv b -> (set_eq m a b = true <->
    (forall k, In k (pl_abs a) <-> In k (pl_abs b)) /\ pl_stray a = pl_stray b);
  pl_cmp : match set_cmp m with
    | Some f => forall a b, pl_inv a -> pl_inv b ->
        ordered_as t (MkContent (pl_abs a) (pl_stray a)) (MkContent (pl_abs b) (pl_stray b)) (f a b)
    | None => ~ orderable t
    end;
  pl_lt : match set_lt m with
    | Some f => forall a b, pl_inv a -> pl_inv b -> exists c,
        ordered_as t (MkContent (pl_abs a) (pl_stray a)) (MkContent (pl_abs b) (pl_stray b)) c /\
        f a b = match c with Lt => true | _ => false end
    | None => ~ orderable t
    end;
  pl_hash : match set_hash m with
    | Some f => forall a, pl_inv a -> hashed t (MkContent (pl_abs a) (pl_stray a)) (f a)
    | None => ~ orderable t
    end;
  pl_as_raw : match set_as_raw m with
    | Some f => bits t = true /\ forall a, pl_inv a ->
        numbered t (MkContent (pl_abs a) (pl_stray a)) (f a) /\
        forall i, N.testbit (pl_stray a) i = (N.of_nat (declared t) <=? i)%N && N.testbit (f a) i
    | None => bits t = false /\ forall a, pl_inv a -> pl_stray a = 0%N
    end;
  pl_from_raw : match set_from_raw m, set_raw_bits m with
    | Some f, Some w => bits t = true /\ width t w /\ forall r, (r < 2 ^ w)%N -> pl_inv (f r) /\
        (forall k, In k (pl_abs (f r)) <-> N.testbit r (N.of_nat (position t k)) = true) /\
        (forall i, N.testbit (pl_stray (f r)) i = (N.of_nat (declared t) <=? i)%N && N.testbit r i)
    | _, _ => bits t = false
    end
}.
Arguments pl_L {t m}.
Arguments pl_inv {t m}.
Arguments pl_abs {t m}.
Arguments pl_stray {t m}.
Arguments pl_eqb {t m}.

Lemma var_map {A B} (f : A -> B) R a : var a (map (option_map f) R) = option_map f (var a R).
Proof. unfold var. exact (map_nth (option_map f) R None a). Qed.
Lemma set_var_map {A B} (f : A -> B) x R : forall a,
  map (option_map f) (set_var a x R) = set_var a (option_map f x) (map (option_map f) R).
Proof. induction R as [|y R IH]; intros [|a]; cbn; auto. now rewrite IH. Qed.
Lemma var_all {A} (P : A -> Prop) R a x :
  Forall (fun o => match o with Some y => P y | None => True end) R -> var a R = Some x -> P x.
Proof.
  intros F. unfold var. revert a. induction F as [|y R H F IH]; intros [|a] E; cbn in E; try discriminate; eauto.
  now subst.
Qed.
Lemma set_var_all {A} (P : option A -> Prop) R x : P x -> Forall P R -> forall a, Forall P (set_var a x R).
Proof. intros H F. induction F; intros [|a]; cbn; auto. Qed.

Section Step.
  Context {t : kty} {m : SetStorage (key t)} (L : plaws t m) {S : Type}.
  Variable keep : S -> key t -> S * option bool.
  Notation T := (key t).
  Notation inv := (pl_inv L).
  Notation abs := (pl_abs L).
  Notation has := (set_contains m).

  Definition con (st : ss_St m) : content T := MkContent (abs st) (pl_stray L st).
  Notation cons := (map (option_map con)).
  Notation good := (Forall (fun o => match o with Some st => inv st | None => True end)).

  Lemma remove_at l k : NoDup l -> In k l -> exists l1 l2, l = l1 ++ k :: l2 /\ ~ In k (l1 ++ l2) /\
    filter (fun x => if pl_eqb L k x then false else true) l = l1 ++ l2.
  Proof.
    intros N H. apply in_split in H as (l1 & l2 & ->). exists l1, l2. split; [reflexivity|].
    pose proof (NoDup_remove_2 _ _ _ N) as H2. split; [exact H2|].
    assert (G : forall l, ~ In k l -> filter (fun x => if pl_eqb L k x then false else true) l = l).
    { induction l as [|x l IH]; intros Hx; [reflexivity|]. cbn. destruct (pl_eqb L k x) as [->|].
      - destruct Hx. now left.
      - f_equal. apply IH. intros H. apply Hx. now right. }
    rewrite filter_app. cbn. destruct (pl_eqb L k k); [|congruence].
    rewrite !G; [reflexivity| |]; intros H; apply H2; apply in_or_app; auto.
  Qed.
  Lemma remove_none l k : ~ In k l -> filter (fun x => if pl_eqb L k x then false else true) l = l.
  Proof.
    induction l as [|x l IH]; intros Hx; [reflexivity|]. cbn. destruct (pl_eqb L k x) as [->|].
    - destruct Hx. now left.
    - f_equal. apply IH. intros H. apply Hx. now right.
  Qed.

  Lemma inserts_ok l : forall st, inv st ->
    let st' := fold_left (fun x k => snd (set_insert m x k)) l st in
    inv st' /\ inserts t (abs st) l (abs st') /\ pl_stray L st' = pl_stray L st.
  Proof.
    induction l as [|k l IH]; intros st H; cbn.
    - split; [exact H|]. split; [constructor|reflexivity].
    - destruct (pl_insert _ _ L st k H) as (st1 & E & H1 & I1 & S1). rewrite E. cbn.
      destruct (IH st1 H1) as (H2 & I2 & S2). split; [exact H2|].
      split; [econstructor; eassumption|congruence].
  Qed.
  Lemma from_iter_ok w l : let st := set_from_iter m w l in
    inv st /\ inserts t [] l (abs st) /\ pl_stray L st = 0%N.
  Proof.
    destruct (pl_empty _ _ L w) as (H0 & A0 & S0). destruct (inserts_ok l _ H0) as (H1 & I1 & S1).
    rewrite A0 in I1. rewrite S0 in S1. auto.
  Qed.

  (** The number of rounds suffices. *)
  Lemma inter_run_fuel other k : forall it n, il_ok (sl_Iter (pl_L L)) it ->
    length (il_rem (sl_Iter (pl_L L)) it) < n ->
    exists it', inter_run m n k (MkInter it other) =
      Some (fst (deque (repeat Front k) (filter (has other) (il_rem (sl_Iter (pl_L L)) it))), it').
  Proof.
    induction k as [|k IH]; intros it n Hok Hn.
    - eexists. reflexivity.
    - destruct (inter_next_ok (pl_L L) other _ it Hok eq_refl) as (it1 & E1 & Hok1 & K1 & L1).
      destruct (IH it1 n Hok1) as (it2 & E2); [lia|]. cbn [inter_run]. rewrite E1 by lia. rewrite E2, K1.
      exists it2. clear. destruct (filter (has other) (il_rem (sl_Iter (pl_L L)) it)) as [|x r];
        cbn; [destruct (deque (repeat Front k) [])|destruct (deque (repeat Front k) r)]; reflexivity.
  Qed.

  Lemma size_len st : length (abs st) <= size t (con st).
  Proof. unfold size, con. cbn [els]. lia. Qed.

  Lemma inter_side a b : inv a -> inv b -> exists it other l,
    set_intersection m a b = MkInter it other /\ il_ok (sl_Iter (pl_L L)) it /\
    filter (has other) (il_rem (sl_Iter (pl_L L)) it) = l /\
    2 * length (il_rem (sl_Iter (pl_L L)) it) + 1 < rounds m a b /\ common t (con a) (con b) l.
  Proof.
    intros Ha Hb. unfold rounds, set_intersection. rewrite !(pl_len _ _ L) by assumption.
    pose proof (size_len a). pose proof (size_len b). change (MkContent (abs a) (pl_stray L a)) with (con a).
    change (MkContent (abs b) (pl_stray L b)) with (con b).
    destruct (pl_iter _ _ L a Ha) as [O1 E1]. destruct (pl_iter _ _ L b Hb) as [O2 E2].
    destruct (size t (con a) <=? size t (con b)) eqn:Q.
    - exists (set_iter m a), b. eexists. split; [reflexivity|]. split; [exact O1|]. split; [reflexivity|].
      rewrite E1. split; [lia|]. exists (has a), (has b).
      split; [now apply pl_contains|]. split; [now apply pl_contains|]. rewrite Q. reflexivity.
    - exists (set_iter m b), a. eexists. split; [reflexivity|]. split; [exact O2|]. split; [reflexivity|].
      rewrite E2. split; [lia|]. exists (has a), (has b).
      split; [now apply pl_contains|]. split; [now apply pl_contains|]. rewrite Q. reflexivity.
  Qed.

  Lemma inter_run_does a b k : inv a -> inv b -> exists l it',
    inter_run m (rounds m a b) k (set_intersection m a b) = Some (fst (deque (repeat Front k) l), it') /\
    common t (con a) (con b) l.
  Proof.
    intros Ha Hb. destruct (inter_side a b Ha Hb) as (it & other & l & -> & O & <- & Hr & C).
    destruct (inter_run_fuel other k it (rounds m a b) O) as [it' E]; [lia|]. eauto.
  Qed.
  Lemma inter_drain_does a b : inv a -> inv b -> exists l,
    inter_drain m (rounds m a b) (set_intersection m a b) = Some l /\ common t (con a) (con b) l.
  Proof.
    intros Ha Hb. destruct (inter_side a b Ha Hb) as (it & other & l & -> & O & E & Hr & C).
    exists l. split; [|exact C]. apply (inter_drain_ok (pl_L L) other l it _ O E).
    pose proof (filter_shorter (has other) (il_rem (sl_Iter (pl_L L)) it)). rewrite E in *. lia.
  Qed.

  Lemma one_ok q a s st s' st' x : inv st -> about_one t q = Some a -> pexec_one m keep q s st = (s', st', x) ->
    inv st' /\ pdoes_one t keep q s (con st) s' (con st') x.
  Proof.
    intros H Hq. destruct q; try discriminate Hq; cbn [pexec_one]; injection Hq as ->.
    - intros [= <- <- <-]. split; [exact H|]. rewrite (pl_len _ _ L st H). apply PdLen.
    - intros [= <- <- <-]. split; [exact H|]. apply PdIsEmpty. exact (pl_is_empty _ _ L st H).
    - intros [= <- <- <-]. split; [exact H|]. apply (PdContains t keep a k s (con st) (has st)).
      exact (pl_contains _ _ L st H).
    - destruct (pl_insert _ _ L st k H) as (st1 & E & H1 & I1 & S1). rewrite E. intros [= <- <- <-].
      split; [exact H1|]. unfold con at 2. rewrite S1.
      apply (PdInsert t keep a k s (con st) _ (has st)); [exact (pl_contains _ _ L st H)|exact I1].
    - destruct (pl_remove _ _ L st k H) as (st1 & E & H1 & S1 & A1). rewrite E. intros [= <- <- <-].
      split; [exact H1|]. unfold con at 2. rewrite S1, A1. pose proof (pl_contains _ _ L st H) as D.
      destruct (has st k) eqn:C.
      + apply D in C. destruct (remove_at _ _ (pl_nodup _ _ L st H) C) as (l1 & l2 & El & N & ->).
        cbn [orb]. exact (PdRemove t keep a k s (con st) l1 l2 El N).
      + assert (~ In k (abs st)) as N by (intros F; apply D in F; congruence).
        rewrite remove_none by exact N. cbn [orb]. apply (PdRemoveNone t keep a k s (con st)); [exact N|].
        destruct (sibling t k) as [k'|]; cbn [sib_contains].
        * rewrite (D k'). split; [eauto|]. intros (j & [= <-] & Hj). exact Hj.
        * split; [discriminate|]. intros (j & F & _). discriminate.
    - intros [= <- <- <-]. destruct (pl_clear _ _ L st H) as (H1 & A1 & S1). split; [exact H1|].
      unfold con at 2. rewrite A1, S1. apply PdClear.
    - destruct (pl_retain _ _ L S (asks keep) s st H) as (vs & s1 & st1 & w & E & H1 & V & U & S1).
      rewrite E. intros [= <- <- <-]. split; [exact H1|]. unfold con at 2. rewrite S1. destruct w as [k|]; cbn [ends_at].
      + exact (PdRetainPanic t keep a s (con st) _ vs _ _ k (pl_contains _ _ L st H) V U).
      + exact (PdRetain t keep a s (con st) _ vs _ _ (pl_contains _ _ L st H) V U).
    - destruct (pl_iter _ _ L st H) as [O A]. destruct (pl_ends _ _ L) as [D _].
      destruct (back_or ds (hash_free t)) as [Hb|[Hb Hf]].
      + destruct (run_it_rem _ (sl_Iter (pl_L L)) ds (set_iter m st) O) as (it & E1 & _); [now rewrite D|].
        rewrite E1, A. intros [= <- <- <-]. split; [exact H|]. now apply (PdIter t keep a ds s (con st)).
      + destruct (run_it (ss_Iter m) ds (set_iter m st)) as [[l it]|] eqn:E1.
        * pose proof (run_it_back _ ds _ _ E1 Hb). congruence.
        * intros [= <- <- <-]. split; [exact H|]. now apply PdIterInvalid.
    - intros [= <- <- <-]. split; [exact H|]. pose proof (pl_hash _ _ L) as P. destruct (set_hash m).
      + apply PdHash. now apply P.
      + now apply PdHashInvalid.
    - intros [= <- <- <-]. split; [exact H|]. pose proof (pl_as_raw _ _ L) as P. destruct (set_as_raw m).
      + apply PdAsRaw; [apply P|]. now apply P.
      + now apply PdAsRawInvalid.
  Qed.

  Lemma two_ok q a b x y : inv x -> inv y -> about_two t q = Some (a, b) ->
    pdoes_two t q (con x) (con y) (pexec_two m q x y).
  Proof.
    intros Hx Hy Hq. destruct q; try discriminate Hq; cbn [pexec_two]; injection Hq as -> ->.
    - destruct (inter_run_does x y n Hx Hy) as (l & it & -> & C). now apply PdInter.
    - apply PdEq. exact (pl_eq _ _ L x y Hx Hy).
    - pose proof (pl_cmp _ _ L) as P. destruct (set_cmp m).
      + apply PdCmp. now apply P.
      + now apply PdCmpInvalid.
    - pose proof (pl_lt _ _ L) as P. destruct (set_lt m) as [f|].
      + destruct (P x y Hx Hy) as (c & O & ->). now apply PdLess.
      + now apply PdLessInvalid.
  Qed.

  Variable copies : bool.
  Hypothesis Hcopies : copies = hash_free t.
  Notation doing := (pdoes t keep).

  Lemma used_ok a R : good R -> good (used m copies a R) /\ cons (used m copies a R) = used_up t a (cons R).
  Proof.
    intros G. unfold used, used_up. rewrite Hcopies. destruct (hash_free t); [auto|].
    split; [now apply set_var_all|exact (set_var_map con None R a)].
  Qed.

  Lemma store_ok q s R a st s' R' x : good R -> inv st ->
    (a < length R -> makes t q (cons R) a (con st)) -> (length R <= a -> rejected t (cons R) q) ->
    pstore m s R a st = (s', R', x) -> good R' /\ doing q s (cons R) s' (cons R') x.
  Proof.
    intros G H M J. unfold pstore. destruct (Nat.ltb_spec a (length R)) as [Hl|Hl]; intros [= <- <- <-].
    - split; [now apply set_var_all|]. rewrite set_var_map. apply PdMakes; [now rewrite map_length|auto].
    - split; [exact G|]. apply PdRejected. auto.
  Qed.

  Lemma step_ok q s R s' R' x : good R -> pexec m copies keep q s R = (s', R', x) ->
    good R' /\ doing q s (cons R) s' (cons R') x.
  Proof.
    intros G.
    assert (One : forall a, about_one t q = Some a ->
      match var a R with
      | Some x => let '(s', x', y) := pexec_one m keep q s x in (s', set_var a (Some x') R, y)
      | None => (s, R, TInvalid)
      end = (s', R', x) -> good R' /\ doing q s (cons R) s' (cons R') x).
    { intros a Hq. destruct (var a R) as [st|] eqn:V.
      - destruct (pexec_one m keep q s st) as [[s1 st1] y] eqn:E. intros [= <- <- <-].
        destruct (one_ok q a s st s1 st1 y (var_all inv R a st G V) Hq E) as [H1 D].
        split; [now apply set_var_all|]. rewrite set_var_map.
        apply (PdOne t keep q a s _ (con st)); auto. rewrite var_map, V. reflexivity.
      - intros [= <- <- <-]. split; [exact G|]. apply PdRejected. eapply RjOne; [exact Hq|].
        rewrite var_map, V. reflexivity. }
    assert (Two : forall a b, about_two t q = Some (a, b) ->
      on_two m a b q s R = (s', R', x) -> good R' /\ doing q s (cons R) s' (cons R') x).
    { intros a b Hq. unfold on_two. destruct (var a R) as [st1|] eqn:V1; [destruct (var b R) as [st2|] eqn:V2|].
      - intros [= <- <- <-]. split; [exact G|].
        apply (PdTwo t keep q a b s _ (con st1) (con st2)); auto.
        + rewrite var_map, V1. reflexivity.
        + rewrite var_map, V2. reflexivity.
        + apply (two_ok q a b); auto; eapply (var_all inv); eauto.
      - intros [= <- <- <-]. split; [exact G|]. apply PdRejected. eapply RjTwo; [exact Hq|].
        right. rewrite var_map, V2. reflexivity.
      - intros [= <- <- <-]. split; [exact G|]. apply PdRejected. eapply RjTwo; [exact Hq|].
        left. rewrite var_map, V1. reflexivity. }
    assert (None_ : forall b, var b R = None -> var b (cons R) = None).
    { intros b V. rewrite var_map, V. reflexivity. }
    assert (Some_ : forall b st, var b R = Some st -> var b (cons R) = Some (con st)).
    { intros b st V. rewrite var_map, V. reflexivity. }
    assert (Good : forall b st, var b R = Some st -> inv st).
    { intros b st. now apply (var_all inv). }
    destruct q; cbn [pexec]; try (now apply One); try (now apply Two).
    - destruct (pl_empty _ _ L w) as (H0 & A0 & S0). apply store_ok; auto.
      + intros _. unfold con. rewrite A0, S0. constructor.
      + intros Hl. apply RjNew. now rewrite map_length.
    - destruct (from_iter_ok w l) as (H0 & A0 & S0). apply store_ok; auto.
      + intros _. unfold con. rewrite S0. now constructor.
      + intros Hl. apply RjCollect. now rewrite map_length.
    - destruct (var a R) as [st1|] eqn:V1; [destruct (var b R) as [st2|] eqn:V2|].
      + destruct (Nat.eqb_spec a b) as [Hab|Hab].
        * intros [= <- <- <-]. split; [exact G|]. apply PdRejected, RjKeepIn. now left.
        * destruct (pl_retain _ _ L unit (fun s k => (s, if has st2 k then Keep else Discard)) tt st1 (Good _ _ V1))
            as (vs & [] & st' & w & E & H1 & V & U & S1). rewrite E. intros [= <- <- <-].
          split; [now apply set_var_all|]. rewrite set_var_map. cbn [option_map].
          assert (forall l, retain_undo (fun s k => (s, if has st2 k then Keep else Discard)) (one_bitset t) (has st1) tt l
            = (tt, filter (has st2) l, None)) as F.
          { induction l as [|k l IH]; [reflexivity|]. cbn. destruct (has st2 k); now rewrite IH. }
          rewrite F in U. injection U as A1 <-. unfold con at 2. rewrite S1, <- A1.
          apply (PdKeepIn t keep a b s _ (con st1) (con st2) (has st1) (has st2)); auto.
          -- exact (pl_contains _ _ L st1 (Good _ _ V1)).
          -- exact (pl_contains _ _ L st2 (Good _ _ V2)).
      + intros [= <- <- <-]. split; [exact G|]. apply PdRejected, RjKeepIn. auto.
      + intros [= <- <- <-]. split; [exact G|]. apply PdRejected, RjKeepIn. auto.
    - destruct (var a R) as [st1|] eqn:V1; [destruct (var b R) as [st2|] eqn:V2|].
      + destruct (Nat.eqb_spec a b) as [Hab|Hab].
        * intros [= <- <- <-]. split; [exact G|]. apply PdRejected, RjAddAll. now left.
        * pose proof (Good _ _ V1) as H1. pose proof (Good _ _ V2) as H2.
          destruct (pl_iter _ _ L st2 H2) as [O A]. pose proof (size_len st2).
          rewrite (drain_rem _ (sl_Iter (pl_L L)) (abs st2) (set_iter m st2) (rounds m st1 st2) O A).
          2: { unfold rounds. rewrite !(pl_len _ _ L) by assumption. fold (con st1) (con st2). lia. }
          intros [= <- <- <-]. destruct (inserts_ok (abs st2) st1 H1) as (H3 & I3 & S3).
          split; [now apply set_var_all|]. rewrite set_var_map. cbn [option_map]. unfold con at 2. rewrite S3.
          apply (PdAddAll t keep a b s _ (con st1) (con st2)); auto.
      + intros [= <- <- <-]. split; [exact G|]. apply PdRejected, RjAddAll. auto.
      + intros [= <- <- <-]. split; [exact G|]. apply PdRejected, RjAddAll. auto.
    - destruct (var a R) as [st1|] eqn:V1; [destruct (var b R) as [st2|] eqn:V2|].
      + destruct (inter_drain_does st1 st2 (Good _ _ V1) (Good _ _ V2)) as (l & -> & Cm).
        destruct (from_iter_ok w l) as (H0 & A0 & S0). apply store_ok; auto.
        * intros _. assert (con (set_from_iter m w l) = no_stray t (abs (set_from_iter m w l))) as ->
            by (unfold con; now rewrite S0). exact (MkInters t c w a b _ (con st1) (con st2) l _ (Some_ _ _ V1) (Some_ _ _ V2) Cm A0).
        * intros Hl. apply RjInters. left. now rewrite map_length.
      + intros [= <- <- <-]. split; [exact G|]. apply PdRejected, RjInters. auto.
      + intros [= <- <- <-]. split; [exact G|]. apply PdRejected, RjInters. auto.
    - pose proof (pl_from_raw _ _ L) as P.
      destruct (set_from_raw m) as [f|]; [destruct (set_raw_bits m) as [w|]|].
      + destruct P as (B & W & P). destruct (N.ltb_spec r (2 ^ w)) as [Hr|Hr].
        * destruct (P r Hr) as (H0 & A0 & S0). apply store_ok; auto.
          -- intros _. apply (MkRaw t a r _ w); auto; [exact (pl_nodup _ _ L _ H0)|exact (pl_sorted _ _ L _ H0)].
          -- intros Hl. apply RjRaw. left. now rewrite map_length.
        * intros [= <- <- <-]. split; [exact G|]. apply PdRejected, RjRaw. eauto.
      + intros [= <- <- <-]. split; [exact G|]. apply PdRejected, RjRaw. eauto.
      + intros [= <- <- <-]. split; [exact G|]. apply PdRejected, RjRaw. eauto.
    - destruct (var a R) as [st1|] eqn:V1.
      + rewrite (pl_clone _ _ L). apply store_ok; eauto.
        * intros _. apply MkClone. auto.
        * intros Hl. apply RjClone. right. now rewrite map_length.
      + intros [= <- <- <-]. split; [exact G|]. apply PdRejected, RjClone. auto.
    - destruct (var a R) as [st1|] eqn:V1.
      + destruct (Nat.ltb_spec b (length R)) as [Hl|Hl]; intros [= <- <- <-].
        * destruct (used_ok a R G) as [G1 E1]. split; [apply set_var_all; eauto|].
          rewrite set_var_map, E1. apply PdMove; [auto|now rewrite map_length].
        * split; [exact G|]. apply PdRejected, RjMove. right. now rewrite map_length.
      + intros [= <- <- <-]. split; [exact G|]. apply PdRejected, RjMove. auto.
    - destruct (var a R) as [st1|] eqn:V1; intros [= <- <- <-].
      + destruct (used_ok a R G) as [G1 E1]. split; [exact G1|]. rewrite E1. eapply PdDrop. eauto.
      + split; [exact G|]. apply PdRejected, RjDrop. auto.
    - destruct (var a R) as [st1|] eqn:V1.
      + destruct (pl_into_iter _ _ L st1 (Good _ _ V1)) as [O A]. destruct (pl_ends _ _ L) as [_ D].
        destruct (back_or ds (hash_free t)) as [Hb|[Hb Hf]].
        * destruct (run_it_rem _ (sl_IntoIter (pl_L L)) ds (set_into_iter m st1) O) as (it & E1 & _); [now rewrite D|].
          rewrite E1, A. intros [= <- <- <-]. destruct (used_ok a R G) as [G1 E2]. split; [exact G1|]. rewrite E2.
          apply (PdIntoIter t keep a ds s _ (con st1)); auto.
        * destruct (run_it (ss_IntoIter m) ds (set_into_iter m st1)) as [[l it]|] eqn:E1.
          -- pose proof (run_it_back _ ds _ _ E1 Hb). congruence.
          -- intros [= <- <- <-]. split; [exact G|]. apply PdRejected, RjIntoIter. auto.
      + intros [= <- <- <-]. split; [exact G|]. apply PdRejected, RjIntoIter. auto.
  Qed.

  Lemma all_steps l : forall s R s' R' xs, good R -> pexec_all m copies keep l s R = (s', R', xs) ->
    good R' /\ pdoes_all t keep l s (cons R) s' (cons R') xs.
  Proof.
    induction l as [|q l IH]; intros s R s' R' xs G; cbn [pexec_all].
    - intros [= <- <- <-]. split; [exact G|constructor].
    - destruct (pexec m copies keep q s R) as [[s1 R1] x] eqn:E1.
      destruct (pexec_all m copies keep l s1 R1) as [[s2 R2] ys] eqn:E2. intros [= <- <- <-].
      destruct (step_ok q s R s1 R1 x G E1) as [G1 D1]. destruct (IH _ _ _ _ _ G1 E2) as [G2 D2].
      split; [exact G2|]. econstructor; eassumption.
  Qed.

  Lemma shows_con st : inv st -> shows m st (con st).
  Proof.
    intros H. split.
    - destruct (pl_iter _ _ L st H) as [O A]. cbn [els con]. rewrite <- A. now apply yields_rem.
    - pose proof (pl_as_raw _ _ L) as P. destruct (set_as_raw m); now apply P.
  Qed.
  Lemma shows_all R : good R -> Forall2 (oshows m) R (cons R).
  Proof. induction 1 as [|[st|] R H G IH]; cbn; constructor; auto. now apply shows_con. Qed.

  Lemma program_ok vars l s s' R xs : pexec_all m copies keep l s (repeat None vars) = (s', R, xs) ->
    exists M, pdoes_all t keep l s (repeat None vars) s' M xs /\ Forall2 (oshows m) R M.
  Proof.
    intros H. assert (good (repeat None vars)) as G by (clear; induction vars; cbn; auto).
    destruct (all_steps l s _ s' R xs G H) as [G1 D]. exists (cons R). split; [|now apply shows_all].
    replace (repeat None vars) with (cons (repeat None vars)); [exact D|].
    clear. induction vars; cbn; congruence.
  Qed.
End Step.
