(** Laws about dropping iterators: what is left is dropped. *)
Require Import List Arith NArith ZArith Bool Lia Sorted.
Import ListNotations.
From Verif Require Import Std Traits MapStorages DeriveAny IterLaws.

(** [falls dr bf w d l d' p lk]: the items [l] are dropped one after the other, each
    once, whether or not a destructor unwinds; [p] tells whether one did.  After one did,
    the items that are in no order with it ([bf]) are left out: [lk].  [w]: the item
    before the first, if its destructor unwound. *)
Inductive falls {D A : Type} (dr : drop_fn D A) (bf : A -> A -> Prop)
  : option A -> D -> list A -> D -> bool -> list A -> Prop :=
| FaNil w d : falls dr bf w d [] d false []
| FaDrop w d x d1 p r d2 q lk : (forall y, w = Some y -> bf y x) -> dr d x = (d1, p) ->
    falls dr bf (if p then Some x else None) d1 r d2 q lk ->
    falls dr bf w d (x :: r) d2 (p || q) lk
| FaLeak y d x r d2 q lk : ~ bf y x -> falls dr bf (Some y) d r d2 q lk ->
    falls dr bf (Some y) d (x :: r) d2 q (x :: lk).

Section Falls.
  Context {D A : Type} (dr : drop_fn D A) (bf : A -> A -> Prop).
  Notation falls := (falls dr bf).

  Lemma falls_weak d l d' p lk : falls None d l d' p lk ->
    forall w, (forall y x, w = Some y -> In x l -> bf y x) -> falls w d l d' p lk.
  Proof.
    intros H w Hw. inversion H; subst; [constructor|]. econstructor; [|eassumption..].
    intros y E. apply Hw; [exact E|now left].
  Qed.

  Lemma falls_app w d a d1 p lk : falls w d a d1 p lk ->
    forall b d2 q lk2, falls None d1 b d2 q lk2 ->
    (forall x y, In x a \/ w = Some x -> In y b -> bf x y) ->
    falls w d (a ++ b) d2 (p || q) (lk ++ lk2).
  Proof.
    intros H. induction H as [w d|w d x d1 p r d2 q lk Hx E H IH|y d x r d2 q lk Hl H IH]; intros b d3 q2 lk2 Hb Hs.
    - apply falls_weak; auto.
    - rewrite <- orb_assoc. cbn. econstructor; [exact Hx|exact E|]. apply IH; [exact Hb|].
      intros z y [Hz|Hz] Hy; apply Hs; auto; [left; now right|].
      destruct p; [|discriminate]. injection Hz as <-. left. now left.
    - cbn. constructor; auto. apply IH; [exact Hb|]. intros z y0 [Hz|Hz] Hy; apply Hs; auto. left. now right.
  Qed.

  Lemma falls_quiet w d l d' lk : falls w d l d' false lk -> w = None -> lk = [].
  Proof.
    intros H. remember false as p eqn:Ep in H. revert Ep.
    induction H as [w d|w d x d1 p r d2 q lk Hx E H IH|y d x r d2 q lk Hl H IH]; intros Ep Hw; [reflexivity| |discriminate].
    apply orb_false_iff in Ep. destruct Ep as [-> ->]. now apply IH.
  Qed.

  Lemma opt_falls d o :
    falls None d (olist o) (fst (opt_drop dr d o)) (snd (opt_drop dr d o)) [].
  Proof.
    destruct o as [x|]; cbn; [|constructor]. destruct (dr d x) as [d1 p] eqn:E. cbn.
    rewrite <- (orb_false_r p). econstructor; [discriminate|exact E|constructor].
  Qed.

  Lemma then_falls d a b (x : D * bool) (g : D -> D * bool) lk lk2 :
    falls None d a (fst x) (snd x) lk ->
    falls None (fst x) b (fst (g (fst x))) (snd (g (fst x))) lk2 ->
    (forall x y, In x a -> In y b -> bf x y) ->
    falls None d (a ++ b) (fst (then_drop x g)) (snd (then_drop x g)) (lk ++ lk2).
  Proof.
    destruct x as [d1 p]. cbn. destruct (g d1) as [d2 q]. cbn. intros H1 H2 Hs.
    apply (falls_app _ _ _ _ _ _ H1); [exact H2|]. intros x y [Hx|Hx]; [auto|discriminate].
  Qed.

  Lemma slice_falls items : StronglySorted bf (cat_options items) -> forall d,
    falls None d (cat_options items)
      (fst (slice_drop (opt_drop dr) d items)) (snd (slice_drop (opt_drop dr) d items)) [].
  Proof.
    induction items as [|o r IH]; intros So d; cbn; [constructor|].
    assert (So' : StronglySorted bf (cat_options r)).
    { destruct o; [now inversion So|exact So]. }
    pose proof (then_falls d (olist o) (cat_options r) (opt_drop dr d o)
                  (fun d1 => slice_drop (opt_drop dr) d1 r) [] []) as T.
    destruct o as [x|]; cbn [olist app cat_options] in *; apply T; auto.
    - apply (opt_falls d (Some x)).
    - inversion So as [|? ? _ F]; subst. rewrite Forall_forall in F. intros z y [<-|[]]. apply F.
    - apply (opt_falls d None).
    - intros z y [].
  Qed.

  Lemma table_falls l : (forall x y, ~ bf x y) -> forall d, exists lk,
    falls None d l (fst (table_drop dr d l)) (snd (table_drop dr d l)) lk.
  Proof.
    intros N.
    assert (Lk : forall l y d, falls (Some y) d l d false l).
    { clear l. induction l; intros y d; constructor; auto. }
    induction l as [|x l IH]; intros d; cbn; [eexists; constructor|].
    destruct (dr d x) as [d1 []] eqn:E; cbn.
    - exists l. apply (FaDrop dr bf None d x d1 true l d1 false l); [discriminate|exact E|]. apply Lk.
    - destruct (IH d1) as [lk H]. exists lk.
      now apply (FaDrop dr bf None d x d1 false l _ _ lk).
  Qed.
End Falls.

Lemma falls_map {D A B} (f : A -> B) (dr : drop_fn D B) (bf : A -> A -> Prop) (bg : B -> B -> Prop)
  w d l d' p lk : (forall x y, bf x y <-> bg (f x) (f y)) ->
  falls (fun d x => dr d (f x)) bf w d l d' p lk ->
  falls dr bg (option_map f w) d (map f l) d' p (map f lk).
Proof.
  intros Hf H. induction H as [w d|w d x d1 p r d2 q lk Hx E H IH|y d x r d2 q lk Hl H IH]; cbn.
  - constructor.
  - econstructor; [|exact E|destruct p; exact IH]. destruct w as [y|]; [|discriminate].
    intros z [= <-]. apply Hf, Hx. reflexivity.
  - constructor; [|exact IH]. intros Hb. apply Hl, Hf, Hb.
Qed.

(** What is dropped is what is left. *)
Record drop_laws {A} (bf : A -> A -> Prop) {i : iterator A} (L : it_laws i) : Type := MkDropLaws {
  dl_ok : it_st i -> Prop;
  dl_next : forall s, il_ok L s -> dl_ok s -> dl_ok (snd (it_next i s));
  dl_back : forall b s, it_back i = Some b -> il_ok L s -> dl_ok s -> dl_ok (snd (b s));
  dl_drop : forall D (dr : drop_fn D A) d s, il_ok L s -> dl_ok s ->
    exists lk, falls dr bf None d (il_rem L s)
      (fst (it_drop i dr d s)) (snd (it_drop i dr d s)) lk
}.
Arguments dl_ok {A bf i L}.
Arguments dl_next {A bf i L}.
Arguments dl_back {A bf i L}.
Arguments dl_drop {A bf i L}.

Definition opt_drops (A : Type) (bf : A -> A -> Prop) : drop_laws bf (opt_laws A).
Proof.
  refine (MkDropLaws A bf (opt_it A) (opt_laws A) (fun _ => True) _ _ _); auto.
  intros D dr d s _ _. exists []. apply opt_falls.
Defined.

Definition hash_drops (A : Type) (bf : A -> A -> Prop) (N : forall x y, ~ bf x y) : drop_laws bf (hash_laws A).
Proof.
  refine (MkDropLaws A bf (hash_it A) (hash_laws A) (fun _ => True) _ _ _); auto.
  intros D dr d s _ _. now apply table_falls.
Defined.

Definition map_drops {A B} (f : A -> B) (bf : A -> A -> Prop) (bg : B -> B -> Prop)
  (Hf : forall x y, bf x y <-> bg (f x) (f y)) (i : iterator A) (L : it_laws i) (M : drop_laws bf L)
  : drop_laws bg (map_laws f i L).
Proof.
  refine (MkDropLaws B bg (map_it f i) (map_laws f i L) (dl_ok M) _ _ _).
  - intros s Hs Hm. exact (dl_next M s Hs Hm).
  - intros b s Hb Hs Hm. cbn in Hb. destruct (it_back i) as [b0|] eqn:E; [|discriminate].
    injection Hb as <-. exact (dl_back M b0 s E Hs Hm).
  - intros D dr d s Hs Hm. destruct (dl_drop M D (fun d x => dr d (f x)) d s Hs Hm) as [lk H].
    exists (map f lk). exact (falls_map f dr bf bg _ _ _ _ _ _ Hf H).
Defined.

Definition odl {A} {bf : A -> A -> Prop} {i : iterator A} {L : it_laws i} (M : drop_laws bf L) (o : option (it_st i)) : Prop :=
  match o with Some s => dl_ok M s | None => True end.

Definition chain_drops {A} (bf : A -> A -> Prop) (a b : iterator A) (La : it_laws a) (Lb : it_laws b)
  (Sep : forall sa sb x y, In x (il_rem La sa) -> In y (il_rem Lb sb) -> bf x y)
  (Ma : drop_laws bf La) (Mb : drop_laws bf Lb) : drop_laws bf (chain_laws a b La Lb).
Proof.
  refine (MkDropLaws A bf (chain_it a b) (chain_laws a b La Lb)
            (fun s => odl Ma (fst s) /\ odl Mb (snd s)) _ _ _).
  - intros [sa sb] [Ha Hb] [Da Db]. cbn in *. unfold chain_next. cbn.
    assert (Na : odl Ma (snd (poll_or_clear (it_next a) sa))).
    { destruct sa as [sa|]; cbn; auto. pose proof (dl_next Ma sa Ha Da) as N.
      destruct (it_next a sa) as [[x|] s']; cbn in *; auto. }
    assert (Nb : odl Mb (snd (poll (it_next b) sb))).
    { destruct sb as [sb|]; cbn; auto. pose proof (dl_next Mb sb Hb Db) as N.
      destruct (it_next b sb) as [x s']; cbn in *; auto. }
    destruct (poll_or_clear (it_next a) sa) as [[x|] sa']; cbn in *; auto.
    destruct (poll (it_next b) sb) as [x sb']; cbn in *; auto.
  - intros bk [sa sb] Hbk [Ha Hb] [Da Db]. cbn in *.
    destruct (it_back a) as [ba|] eqn:Ea; [|discriminate].
    destruct (it_back b) as [bb|] eqn:Eb; [|discriminate]. injection Hbk as <-.
    unfold chain_back. cbn.
    assert (Nb : odl Mb (snd (poll_or_clear bb sb))).
    { destruct sb as [sb|]; cbn; auto. pose proof (dl_back Mb bb sb Eb Hb Db) as N.
      destruct (bb sb) as [[x|] s']; cbn in *; auto. }
    assert (Na : odl Ma (snd (poll ba sa))).
    { destruct sa as [sa|]; cbn; auto. pose proof (dl_back Ma ba sa Ea Ha Da) as N.
      destruct (ba sa) as [x s']; cbn in *; auto. }
    destruct (poll_or_clear bb sb) as [[x|] sb']; cbn in *; auto.
    destruct (poll ba sa) as [x sa']; cbn in *; auto.
  - intros D dr d [sa sb] [Ha Hb] [Da Db]. cbn in *.
    assert (Fa : exists lk, falls dr bf None d (orem La sa)
        (fst (drop_some a dr d sa)) (snd (drop_some a dr d sa)) lk).
    { destruct sa as [sa|]; cbn; [|eexists; constructor]. exact (dl_drop Ma D dr d sa Ha Da). }
    destruct Fa as [lk Fa].
    assert (Fb : forall d, exists lk, falls dr bf None d (orem Lb sb)
        (fst (drop_some b dr d sb)) (snd (drop_some b dr d sb)) lk).
    { clear d lk Fa. intros d. destruct sb as [sb|]; cbn; [|eexists; constructor].
      exact (dl_drop Mb D dr d sb Hb Db). }
    destruct (Fb (fst (drop_some a dr d sa))) as [lk2 Fb'].
    exists (lk ++ lk2). refine (then_falls dr bf _ _ _ _ _ _ _ Fa Fb' _).
    intros x y Hx Hy. destruct sa as [sa|]; [|destruct Hx]. destruct sb as [sb|]; [|destruct Hy].
    exact (Sep sa sb x y Hx Hy).
Defined.

Lemma sorted_removelast {A} (bf : A -> A -> Prop) l : StronglySorted bf l -> StronglySorted bf (removelast l).
Proof.
  intros H. induction H as [|x l H IH F]; [constructor|]. destruct l as [|y l]; [constructor|].
  change (removelast (x :: y :: l)) with (x :: removelast (y :: l)). constructor; [exact IH|].
  rewrite Forall_forall in *. intros z Hz. apply F.
  rewrite (app_removelast_last y) by discriminate. apply in_or_app. now left.
Qed.

(** Inner iterators of [Flatten] hold nothing between two calls. *)
Definition flatten_drops (A : Type) (bf : A -> A -> Prop) : drop_laws bf (flatten_laws A).
Proof.
  refine (MkDropLaws A bf (flatten_it A) (flatten_laws A)
            (fun s => (flat_opt (fl_front s) = [] /\ flat_opt (fl_back s) = []) /\
                      StronglySorted bf (flatten_rem s)) _ _ _).
  - intros s Hs [Hfb So]. split.
    2: { destruct (il_next _ (flatten_laws A) s Hs) as (s1 & E & _ & R). rewrite E. cbn in *.
         rewrite R. destruct So; [constructor|assumption]. }
    clear So Hs. destruct s as [items front back], Hfb as [Hf Hb]. cbn in *. unfold flatten_next. cbn.
    assert (N : forall items, flat_opt (fl_front (snd (flatten_next_items items back))) = [] /\
                              flat_opt (fl_back (snd (flatten_next_items items back))) = []).
    { clear items. induction items as [|[x|] r IH]; cbn; auto.
      destruct back as [[x|]|]; cbn in *; auto; discriminate. }
    destruct front as [[x|]|]; cbn in *; auto; discriminate.
  - intros b s Eb Hs [Hfb So]. split.
    2: { destruct (il_back _ (flatten_laws A) b s Eb Hs) as (s1 & E & _ & R). rewrite E. cbn in *.
         rewrite R. now apply sorted_removelast. }
    clear So Hs. injection Eb as <-. destruct s as [items front back], Hfb as [Hf Hb]. cbn in *. unfold flatten_back. cbn.
    assert (N : forall items, flat_opt (fl_front (snd (flatten_back_items items front))) = [] /\
                              flat_opt (fl_back (snd (flatten_back_items items front))) = []).
    { clear items. induction items as [|[x|] r IH]; cbn; auto.
      destruct front as [[x|]|]; cbn in *; auto; discriminate. }
    destruct back as [[x|]|]; cbn in *; auto; discriminate.
  - intros D dr d [items front back] _ [[Hf Hb] So]. cbn in *. exists []. unfold flatten_drop, flatten_rem in *. cbn in *.
    rewrite Hf, Hb in *. cbn in *. rewrite app_nil_r in *.
    assert (Q : forall (o : option (option A)) d, flat_opt o = [] -> opt_drop (opt_drop dr) d o = (d, false)).
    { intros [[x|]|] d0; cbn; auto; discriminate. }
    pose proof (slice_falls dr bf items So d) as I.
    destruct (slice_drop (opt_drop dr) d items) as [d1 p]. cbn in *.
    rewrite (Q front) by assumption. cbn. rewrite (Q back) by assumption. cbn. rewrite !orb_false_r. exact I.
Defined.

(** ** Generated structs *)

Fixpoint all_drops {A} (bf : A -> A -> Prop) (its : list (iterator A)) : all_laws its -> Type :=
  match its return all_laws its -> Type with
  | [] => fun _ => unit
  | i :: r => fun L => (drop_laws bf (fst L) * all_drops bf r (snd L))%type
  end.

Fixpoint all_dl {A} {bf : A -> A -> Prop} (its : list (iterator A)) : forall L : all_laws its, all_drops bf its L -> it_states its -> Prop :=
  match its return forall L : all_laws its, all_drops bf its L -> it_states its -> Prop with
  | [] => fun _ _ _ => True
  | i :: r => fun L M st => dl_ok (fst M) (fst st) /\ all_dl r (snd L) (snd M) (snd st)
  end.

Lemma step_next_dl {A} {bf : A -> A -> Prop} (its : list (iterator A)) (L : all_laws its) (M : all_drops bf its L) n : forall st x st',
  all_ok its L st -> all_dl its L M st -> step_next its n st = Some (x, st') -> all_dl its L M st'.
Proof.
  revert n. induction its as [|i r IH]; intros n st x st' Hok Hdl E; cbn in *; [discriminate|].
  destruct L as [Li Lr], M as [Mi Mr], st as [si sr], Hok as [Hi Hr], Hdl as [Di Dr]. cbn in *.
  destruct n as [|n].
  - pose proof (dl_next Mi si Hi Di) as N. destruct (it_next i si) as [y s']. injection E as <- <-. auto.
  - destruct (step_next r n sr) as [[y s']|] eqn:E1; [|discriminate]. injection E as <- <-. cbn. split; auto.
    eapply IH; eauto.
Qed.

Lemma step_back_dl {A} {bf : A -> A -> Prop} (its : list (iterator A)) (L : all_laws its) (M : all_drops bf its L) bs n : forall st x st',
  all_backs its = Some bs ->
  all_ok its L st -> all_dl its L M st -> step_back its n bs st = Some (x, st') -> all_dl its L M st'.
Proof.
  revert n. induction its as [|i r IH]; intros n st x st' Hbs Hok Hdl E; cbn in *; [discriminate|].
  destruct L as [Li Lr], M as [Mi Mr], st as [si sr], Hok as [Hi Hr], Hdl as [Di Dr]. cbn in *.
  destruct (it_back i) as [b|] eqn:Eb; [|discriminate].
  destruct (all_backs r) as [bs'|] eqn:Ebs; [|discriminate]. injection Hbs as <-. cbn in *.
  destruct n as [|n].
  - pose proof (dl_back Mi b si Eb Hi Di) as N. destruct (b si) as [y s']. injection E as <- <-. auto.
  - destruct (step_back r n bs' sr) as [[y s']|] eqn:E1; [|discriminate]. injection E as <- <-. cbn. split; auto.
    eapply IH; eauto.
Qed.

Definition struct_dl {A} {bf : A -> A -> Prop} (its : list (iterator A)) (L : all_laws its) (M : all_drops bf its L)
  (s : nat * nat * it_states its) : Prop :=
  let '(start, end_, st) := s in
  all_dl its L M st /\ start <= end_ /\
  Forall (eq []) (firstn start (all_rems its L st)) /\ Forall (eq []) (skipn end_ (all_rems its L st)).

Lemma loop_next_dl {A} {bf : A -> A -> Prop} (its : list (iterator A)) (L : all_laws its) (M : all_drops bf its L) fuel : forall start end_ st,
  end_ <= length its -> all_ok its L st -> struct_dl its L M (start, end_, st) ->
  struct_dl its L M (snd (loop_next its fuel start end_ st)).
Proof.
  induction fuel as [|fuel IH]; intros start end_ st He Hok Hd; [exact Hd|].
  cbn [loop_next]. destruct (Nat.ltb_spec start end_) as [Hlt|Hge]; [|exact Hd].
  destruct (step_next_spec its L start st Hok ltac:(lia)) as (st' & E & Hok' & R). rewrite E.
  destruct Hd as (Hd & Hse & Hf & Hs).
  pose proof (step_next_dl its L M start st _ st' Hok Hd E) as Hd'.
  assert (Hs' : Forall (eq []) (skipn end_ (all_rems its L st'))).
  { rewrite R, skipn_upd_lt by lia. exact Hs. }
  destruct (nth start (all_rems its L st) []) as [|x rest] eqn:En; cbn [hd_error] in *.
  - apply IH; auto. replace (Nat.min (start + 1) end_) with (S start) by lia.
    split; [exact Hd'|]. split; [lia|]. split; [|exact Hs'].
    rewrite (firstn_S _ _ []) by (rewrite all_rems_length; lia).
    apply Forall_app. split.
    + rewrite R, firstn_upd_ge by lia. exact Hf.
    + repeat constructor. rewrite R, nth_upd_at by (rewrite all_rems_length; lia). reflexivity.
  - cbn. split; [exact Hd'|]. split; [lia|]. split; [|exact Hs'].
    rewrite R, firstn_upd_ge by lia. exact Hf.
Qed.

Lemma loop_back_dl {A} {bf : A -> A -> Prop} (its : list (iterator A)) (L : all_laws its) (M : all_drops bf its L) bs fuel :
  all_backs its = Some bs -> forall start end_ st,
  end_ <= length its -> all_ok its L st -> struct_dl its L M (start, end_, st) ->
  struct_dl its L M (snd (loop_back its bs fuel start end_ st)).
Proof.
  intros Hbs. induction fuel as [|fuel IH]; intros start end_ st He Hok Hd; [exact Hd|].
  cbn [loop_back]. destruct (Nat.ltb_spec start end_) as [Hlt|Hge]; [|exact Hd].
  destruct (step_back_spec its L bs (end_ - 1) st Hbs Hok ltac:(lia)) as (st' & E & Hok' & R). rewrite E.
  destruct Hd as (Hd & Hse & Hf & Hs).
  pose proof (step_back_dl its L M bs (end_ - 1) st _ st' Hbs Hok Hd E) as Hd'.
  assert (Hf' : Forall (eq []) (firstn start (all_rems its L st'))).
  { rewrite R, firstn_upd_ge by lia. exact Hf. }
  destruct (last_error (nth (end_ - 1) (all_rems its L st) [])) as [x|] eqn:En.
  - cbn. split; [exact Hd'|]. split; [lia|]. split; [exact Hf'|].
    rewrite R, skipn_upd_lt by lia. exact Hs.
  - apply last_error_nil in En.
    apply IH; auto; [lia|]. replace (Nat.max (end_ - 1) start) with (end_ - 1) by lia.
    split; [exact Hd'|]. split; [lia|]. split; [exact Hf'|].
    rewrite (skipn_cons (end_ - 1) _ []) by (rewrite all_rems_length; lia).
    constructor.
    + rewrite R, nth_upd_at by (rewrite all_rems_length; lia). now rewrite En.
    + replace (S (end_ - 1)) with end_ by lia. rewrite R, skipn_upd_lt by lia. exact Hs.
Qed.

(** Items of different iterators are in the order of the iterators. *)
Fixpoint all_sep {A} (bf : A -> A -> Prop) (its : list (iterator A)) : all_laws its -> Prop :=
  match its return all_laws its -> Prop with
  | [] => fun _ => True
  | i :: r => fun L =>
      (forall si sr x y, In x (il_rem (fst L) si) -> In y (concat (all_rems r (snd L) sr)) -> bf x y) /\
      all_sep bf r (snd L)
  end.

Lemma states_falls {A D} {bf : A -> A -> Prop} (its : list (iterator A)) (L : all_laws its) (M : all_drops bf its L)
  (dr : drop_fn D A) : all_sep bf its L ->
  forall d st, all_ok its L st -> all_dl its L M st ->
  exists lk, falls dr bf None d (concat (all_rems its L st))
    (fst (drop_states its dr d st)) (snd (drop_states its dr d st)) lk.
Proof.
  induction its as [|i r IH]; intros Hs d st Hok Hdl; cbn in *; [eexists; constructor|].
  destruct L as [Li Lr], M as [Mi Mr], st as [si sr], Hok as [Hi Hr], Hdl as [Di Dr], Hs as [Sep Hs]. cbn in *.
  destruct (dl_drop Mi D dr d si Hi Di) as [lk H1].
  destruct (IH Lr Mr Hs (fst (it_drop i dr d si)) sr Hr Dr) as [lk2 H2].
  exists (lk ++ lk2).
  exact (then_falls dr bf _ _ _ _ (fun d1 => drop_states r dr d1 sr) _ _ H1 H2 (Sep si sr)).
Qed.

Lemma empty_concat {A} (l : list (list A)) : Forall (eq []) l -> concat l = [].
Proof. intros H. induction H; cbn; auto. now subst. Qed.

Lemma skipn_again {A} a b (l : list A) : skipn a (skipn b l) = skipn (a + b) l.
Proof.
  revert l. induction b as [|b IH]; intros l; [now rewrite Nat.add_0_r|].
  rewrite Nat.add_succ_r. destruct l as [|x l]; [now rewrite !skipn_nil|]. apply IH.
Qed.

Lemma range_all {A} start end_ (l : list (list A)) : start <= end_ ->
  Forall (eq []) (firstn start l) -> Forall (eq []) (skipn end_ l) -> range_rem start end_ l = concat l.
Proof.
  intros H Hf Hs. unfold range_rem.
  rewrite <- (firstn_skipn start l) at 2. rewrite concat_app, (empty_concat _ Hf). cbn.
  rewrite <- (firstn_skipn (end_ - start) (skipn start l)) at 2.
  rewrite concat_app, skipn_again. replace (end_ - start + start) with end_ by lia.
  rewrite (empty_concat _ Hs). now rewrite app_nil_r.
Qed.

Definition struct_drops {A} {bf : A -> A -> Prop} (its : list (iterator A)) (L : all_laws its) (M : all_drops bf its L)
  (Sep : all_sep bf its L) : drop_laws bf (struct_laws its L).
Proof.
  refine (MkDropLaws A bf (struct_it its) (struct_laws its L) (struct_dl its L M) _ _ _).
  - intros [[start end_] st] [He Hok] Hd. exact (loop_next_dl its L M end_ start end_ st He Hok Hd).
  - intros b [[start end_] st] Hb [He Hok] Hd. cbn in Hb.
    destruct (all_backs its) as [bs|] eqn:Ebs; [|discriminate]. injection Hb as <-.
    exact (loop_back_dl its L M bs end_ Ebs start end_ st He Hok Hd).
  - intros D dr d [[start end_] st] [He Hok] (Hd & Hse & Hf & Hs). cbn.
    rewrite range_all by assumption.
    exact (states_falls its L M dr Sep d st Hok Hd).
Defined.
