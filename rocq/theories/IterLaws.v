(** Laws of the iterators of Std.v and DeriveAny.v: every iterator behaves like
    the list of its remaining items. *)
Require Import List Arith NArith ZArith Bool Lia.
Import ListNotations.
From Verif Require Import Std Traits MapStorages DeriveAny.

Definition last_error {A} (l : list A) : option A := hd_error (rev l).

Record it_laws {A} (i : iterator A) : Type := MkItLaws {
  il_ok : it_st i -> Prop;
  il_rem : it_st i -> list A;
  il_next : forall s, il_ok s ->
    exists s', it_next i s = (hd_error (il_rem s), s') /\ il_ok s' /\
               il_rem s' = tl (il_rem s);
  il_back : forall b s, it_back i = Some b -> il_ok s ->
    exists s', b s = (last_error (il_rem s), s') /\ il_ok s' /\
               il_rem s' = removelast (il_rem s);
  il_hint : forall s, il_ok s ->
    fst (it_hint i s) <= length (il_rem s) /\
    match snd (it_hint i s) with
    | Some u => length (il_rem s) <= u
    | None => True
    end;
  il_clone : forall s, it_clone i s = s
}.
Arguments il_ok {A i}.
Arguments il_rem {A i}.

(** ** List helpers *)

Definition olist {A} (o : option A) : list A :=
  match o with Some x => [x] | None => [] end.

Fixpoint cat_options {A} (l : list (option A)) : list A :=
  match l with
  | [] => []
  | Some x :: r => x :: cat_options r
  | None :: r => cat_options r
  end.

Lemma cat_options_app {A} (a b : list (option A)) :
  cat_options (a ++ b) = cat_options a ++ cat_options b.
Proof. induction a as [|[x|] a IH]; simpl; congruence. Qed.

Lemma last_error_app {A} (a b : list A) :
  last_error (a ++ b) = match last_error b with Some x => Some x | None => last_error a end.
Proof.
  unfold last_error. rewrite rev_app_distr.
  destruct (rev b); reflexivity.
Qed.

Lemma last_error_nil {A} (l : list A) : last_error l = None -> l = [].
Proof.
  unfold last_error. intros H. destruct (rev l) eqn:E; [|discriminate].
  rewrite <- (rev_involutive l), E. reflexivity.
Qed.

Lemma last_error_map {A B} (f : A -> B) l :
  last_error (map f l) = option_map f (last_error l).
Proof. unfold last_error. rewrite <- map_rev. destruct (rev l); reflexivity. Qed.

Lemma hd_error_map {A B} (f : A -> B) l :
  hd_error (map f l) = option_map f (hd_error l).
Proof. destruct l; reflexivity. Qed.

Lemma hd_error_nil {A} (l : list A) : hd_error l = None -> l = [].
Proof. destruct l; [reflexivity|discriminate]. Qed.

Lemma tl_map {A B} (f : A -> B) l : tl (map f l) = map f (tl l).
Proof. destruct l; reflexivity. Qed.

Lemma removelast_map {A B} (f : A -> B) l :
  removelast (map f l) = map f (removelast l).
Proof.
  induction l as [|x l IH]; [reflexivity|].
  simpl. destruct l; [reflexivity|]. simpl in *. rewrite IH. reflexivity.
Qed.

Lemma removelast_app_ne {A} (a b : list A) :
  b <> [] -> removelast (a ++ b) = a ++ removelast b.
Proof. apply removelast_app. Qed.

Lemma last_error_olist {A} (o : option A) : last_error (olist o) = o.
Proof. destruct o; reflexivity. Qed.
Lemma hd_error_olist {A} (o : option A) : hd_error (olist o) = o.
Proof. destruct o; reflexivity. Qed.

Lemma last_error_ne {A} (l : list A) x : last_error l = Some x -> l <> [].
Proof. intros H ->. discriminate. Qed.

(** ** Option iterators *)

Definition opt_laws (A : Type) : it_laws (opt_it A).
Proof.
  refine (MkItLaws A (opt_it A) (fun _ => True) olist _ _ _ _).
  - intros s _. exists None. simpl. unfold opt_take.
    destruct s; auto.
  - intros b s [= <-] _. exists None. unfold opt_take.
    destruct s; auto.
  - intros s _. simpl. destruct s; simpl; lia.
  - intros [s|]; reflexivity.
Defined.

(** ** Flags *)

Definition flag_laws {A} (x : A) : it_laws (flag_it x).
Proof.
  refine (MkItLaws A (flag_it x) (fun _ => True)
           (fun b : bool => if b then [x] else []) _ _ _ _).
  - intros s _. exists false. simpl. unfold flag_take. destruct s; auto.
  - intros b s [= <-] _. exists false. unfold flag_take. destruct s; auto.
  - intros s _. simpl. lia.
  - reflexivity.
Defined.

(** ** Hash table iterators *)

Definition hash_laws (A : Type) : it_laws (hash_it A).
Proof.
  refine (MkItLaws A (hash_it A) (fun _ => True) (fun l => l) _ _ _ _).
  - intros s _. exists (tl s). destruct s; simpl; auto.
  - intros b s [=].
  - intros s _. simpl. lia.
  - reflexivity.
Defined.

(** ** Map *)

Definition map_laws {A B} (f : A -> B) (i : iterator A) (L : it_laws i)
  : it_laws (map_it f i).
Proof.
  refine (MkItLaws B (map_it f i) (il_ok L) (fun s => map f (il_rem L s)) _ _ _ _).
  - intros s Hs. destruct (il_next i L s Hs) as (s' & E & Hok & R).
    exists s'. simpl. unfold map_step. rewrite E. simpl.
    rewrite hd_error_map, R, tl_map. auto.
  - intros b s Hb Hs. simpl in Hb.
    destruct (it_back i) as [b0|] eqn:Eb; [|discriminate].
    injection Hb as <-.
    destruct (il_back i L b0 s Eb Hs) as (s' & E & Hok & R).
    exists s'. unfold map_step. rewrite E. simpl.
    rewrite last_error_map, R, removelast_map. auto.
  - intros s Hs. simpl. rewrite map_length. apply (il_hint i L s Hs).
  - intros s. apply (il_clone i L s).
Defined.

(** ** Chain *)

Definition orem {A} {i : iterator A} (L : it_laws i) (o : option (it_st i)) : list A :=
  match o with Some s => il_rem L s | None => [] end.
Definition ook {A} {i : iterator A} (L : it_laws i) (o : option (it_st i)) : Prop :=
  match o with Some s => il_ok L s | None => True end.

Lemma poll_or_clear_next {A} {i : iterator A} (L : it_laws i) o :
  ook L o ->
  exists o', poll_or_clear (it_next i) o = (hd_error (orem L o), o') /\
             ook L o' /\ orem L o' = tl (orem L o).
Proof.
  destruct o as [s|]; simpl; intros H.
  - destruct (il_next i L s H) as (s' & E & Hok & R). rewrite E.
    destruct (il_rem L s) as [|x r]; simpl in *.
    + exists None; simpl; auto.
    + exists (Some s'); simpl; auto.
  - exists None; simpl; auto.
Qed.

Lemma poll_next {A} {i : iterator A} (L : it_laws i) o :
  ook L o ->
  exists o', poll (it_next i) o = (hd_error (orem L o), o') /\
             ook L o' /\ orem L o' = tl (orem L o).
Proof.
  destruct o as [s|]; simpl; intros H.
  - destruct (il_next i L s H) as (s' & E & Hok & R). rewrite E.
    exists (Some s'); simpl; auto.
  - exists None; simpl; auto.
Qed.

Lemma poll_or_clear_back {A} {i : iterator A} (L : it_laws i) b o :
  it_back i = Some b -> ook L o ->
  exists o', poll_or_clear b o = (last_error (orem L o), o') /\
             ook L o' /\ orem L o' = removelast (orem L o).
Proof.
  intros Hb. destruct o as [s|]; simpl; intros H.
  - destruct (il_back i L b s Hb H) as (s' & E & Hok & R). rewrite E.
    destruct (last_error (il_rem L s)) as [x|] eqn:El.
    + exists (Some s'); simpl; auto.
    + apply last_error_nil in El. rewrite El. exists None; simpl; auto.
  - exists None; simpl; auto.
Qed.

Lemma poll_back {A} {i : iterator A} (L : it_laws i) b o :
  it_back i = Some b -> ook L o ->
  exists o', poll b o = (last_error (orem L o), o') /\
             ook L o' /\ orem L o' = removelast (orem L o).
Proof.
  intros Hb. destruct o as [s|]; simpl; intros H.
  - destruct (il_back i L b s Hb H) as (s' & E & Hok & R). rewrite E.
    exists (Some s'); simpl; auto.
  - exists None; simpl; auto.
Qed.

Definition chain_laws {A} (a b : iterator A) (La : it_laws a) (Lb : it_laws b)
  : it_laws (chain_it a b).
Proof.
  refine (MkItLaws A (chain_it a b)
            (fun s => ook La (fst s) /\ ook Lb (snd s))
            (fun s => orem La (fst s) ++ orem Lb (snd s)) _ _ _ _).
  - intros [sa sb] [Ha Hb]. simpl in *. unfold chain_next. simpl.
    destruct (poll_or_clear_next La sa Ha) as (sa' & E & Hok & R). rewrite E.
    destruct (orem La sa) as [|x r] eqn:Er; simpl in *.
    + destruct (poll_next Lb sb Hb) as (sb' & E2 & Hok2 & R2). rewrite E2.
      exists (sa', sb'). simpl. rewrite R, R2. simpl. auto.
    + exists (sa', sb). simpl. rewrite R. auto.
  - intros bk [sa sb] Hbk [Ha Hb]. simpl in *.
    destruct (it_back a) as [ba|] eqn:Eba; [|discriminate].
    destruct (it_back b) as [bb|] eqn:Ebb; [|discriminate].
    injection Hbk as <-. unfold chain_back. simpl.
    destruct (poll_or_clear_back Lb bb sb Ebb Hb) as (sb' & E & Hok & R). rewrite E.
    rewrite last_error_app.
    destruct (last_error (orem Lb sb)) as [x|] eqn:El.
    + exists (sa, sb'). simpl. rewrite R.
      rewrite removelast_app_ne by (eapply last_error_ne; eauto). auto.
    + apply last_error_nil in El. rewrite El in *. simpl in R.
      destruct (poll_back La ba sa Eba Ha) as (sa' & E2 & Hok2 & R2). rewrite E2.
      exists (sa', sb'). simpl. rewrite R, R2, !app_nil_r. auto.
  - intros [sa sb] [Ha Hb]. simpl in *. rewrite app_length.
    assert (HA : fst (hint_opt a sa) <= length (orem La sa) /\
                 match snd (hint_opt a sa) with
                 | Some u => length (orem La sa) <= u | None => True end).
    { destruct sa; simpl; [apply (il_hint a La _ Ha)|lia]. }
    assert (HB : fst (hint_opt b sb) <= length (orem Lb sb) /\
                 match snd (hint_opt b sb) with
                 | Some u => length (orem Lb sb) <= u | None => True end).
    { destruct sb; simpl; [apply (il_hint b Lb _ Hb)|lia]. }
    destruct HA as [HA1 HA2], HB as [HB1 HB2].
    split; [lia|].
    destruct (snd (hint_opt a sa)), (snd (hint_opt b sb)); auto; lia.
  - intros [[sa|] [sb|]]; simpl; rewrite ?(il_clone a La), ?(il_clone b Lb); reflexivity.
Defined.

(** ** Flatten *)

Definition flat_opt {A} (o : option (option A)) : list A :=
  match o with Some (Some x) => [x] | _ => [] end.

Definition flatten_rem {A} (s : flatten_st A) : list A :=
  flat_opt (fl_front s) ++ cat_options (fl_items s) ++ flat_opt (fl_back s).

Lemma poll_take {A} (o : option (option A)) :
  exists o', poll_or_clear opt_take o = (hd_error (flat_opt o), o') /\ flat_opt o' = [].
Proof.
  destruct o as [[x|]|]; simpl; eauto.
Qed.

Lemma flatten_next_items_spec {A} items (back : option (option A)) :
  exists s', flatten_next_items items back =
             (hd_error (cat_options items ++ flat_opt back), s') /\
             flatten_rem s' = tl (cat_options items ++ flat_opt back).
Proof.
  induction items as [|[x|] r IH]; simpl.
  - destruct (poll_take back) as (b' & E & F). rewrite E.
    eexists; split; [reflexivity|]. unfold flatten_rem. simpl. rewrite F.
    destruct back as [[x|]|]; reflexivity.
  - eexists; split; [reflexivity|]. reflexivity.
  - exact IH.
Qed.

Lemma flatten_back_items_spec {A} ritems (front : option (option A)) :
  exists s', flatten_back_items ritems front =
             (last_error (flat_opt front ++ cat_options (rev ritems)), s') /\
             flatten_rem s' = removelast (flat_opt front ++ cat_options (rev ritems)).
Proof.
  induction ritems as [|[x|] r IH]; simpl.
  - destruct (poll_take front) as (b' & E & F). rewrite E.
    rewrite app_nil_r.
    exists (MkFlatten [] b' None). split.
    + destruct front as [[x|]|]; reflexivity.
    + unfold flatten_rem. simpl. rewrite F. destruct front as [[x|]|]; reflexivity.
  - rewrite cat_options_app. simpl. rewrite app_assoc.
    eexists; split.
    + rewrite last_error_app. simpl. reflexivity.
    + rewrite removelast_last. unfold flatten_rem. simpl. rewrite app_nil_r. reflexivity.
  - rewrite cat_options_app. simpl. rewrite app_nil_r. exact IH.
Qed.

Definition flatten_laws (A : Type) : it_laws (flatten_it A).
Proof.
  refine (MkItLaws A (flatten_it A) (fun _ => True) flatten_rem _ _ _ _).
  - intros [items front back] _. simpl. unfold flatten_next, flatten_rem. simpl.
    destruct front as [[x|]|]; simpl.
    + eexists; split; [reflexivity|]. split; [exact I|]. reflexivity.
    + destruct (flatten_next_items_spec items back) as (s' & E & R).
      exists s'. rewrite E. auto.
    + destruct (flatten_next_items_spec items back) as (s' & E & R).
      exists s'. rewrite E. auto.
  - intros b [items front back] [= <-] _. unfold flatten_back, flatten_rem. simpl.
    destruct back as [[x|]|]; simpl.
    + eexists; split; [|split; [exact I|]].
      * rewrite app_assoc, last_error_app. reflexivity.
      * simpl. rewrite (app_assoc _ _ [x]), removelast_last, !app_nil_r. reflexivity.
    + destruct (flatten_back_items_spec (rev items) front) as (s' & E & R).
      rewrite rev_involutive in E, R. rewrite app_nil_r.
      exists s'. rewrite E. auto.
    + destruct (flatten_back_items_spec (rev items) front) as (s' & E & R).
      rewrite rev_involutive in E, R. rewrite app_nil_r.
      exists s'. rewrite E. auto.
  - intros [items front back] _. simpl. unfold flatten_hint, flatten_rem. simpl.
    rewrite !app_length.
    destruct items; destruct front as [[?|]|]; destruct back as [[?|]|]; simpl; lia.
  - intros [items front back]. simpl. unfold flatten_clone. simpl.
    assert (E : forall o : option A, opt_clone o = o) by (intros [o|]; reflexivity).
    rewrite (map_ext _ (fun o => o) E), map_id.
    destruct front, back; simpl; rewrite ?E; reflexivity.
Defined.

Lemma flatten_of_rem {A} (l : list (option A)) : flatten_rem (flatten_of l) = cat_options l.
Proof. unfold flatten_rem, flatten_of. simpl. apply app_nil_r. Qed.

(** ** Two-bit iterator *)

Definition bits_rem (bits : N) : list bool :=
  (if N.testbit bits 1 then [true] else []) ++ (if N.testbit bits 0 then [false] else []).

Lemma bits_cases (b : N) : (b < 4)%N -> b = 0%N \/ b = 1%N \/ b = 2%N \/ b = 3%N.
Proof. lia. Qed.

Definition bits_laws : it_laws bits_it.
Proof.
  refine (MkItLaws bool bits_it (fun b : N => (b < 4)%N) bits_rem _ _ _ _).
  - intros s Hs. destruct (bits_cases s Hs) as [E|[E|[E|E]]]; rewrite E;
      eexists; (split; [reflexivity|]); split; reflexivity.
  - intros b s [= <-] Hs. destruct (bits_cases s Hs) as [E|[E|[E|E]]]; rewrite E;
      eexists; (split; [reflexivity|]); split; reflexivity.
  - intros s Hs. destruct (bits_cases s Hs) as [E|[E|[E|E]]]; rewrite E;
      simpl; lia.
  - reflexivity.
Defined.

(** ** Generated struct iterators *)

Fixpoint all_laws {A} (its : list (iterator A)) : Type :=
  match its with
  | [] => unit
  | i :: r => (it_laws i * all_laws r)%type
  end.

Fixpoint all_ok {A} (its : list (iterator A)) : all_laws its -> it_states its -> Prop :=
  match its return all_laws its -> it_states its -> Prop with
  | [] => fun _ _ => True
  | i :: r => fun L st => il_ok (fst L) (fst st) /\ all_ok r (snd L) (snd st)
  end.

(** Remaining items of every field. *)
Fixpoint all_rems {A} (its : list (iterator A)) : all_laws its -> it_states its -> list (list A) :=
  match its return all_laws its -> it_states its -> list (list A) with
  | [] => fun _ _ => []
  | i :: r => fun L st => il_rem (fst L) (fst st) :: all_rems r (snd L) (snd st)
  end.

Fixpoint upd_at {A} (n : nat) (x : A) (l : list A) {struct l} : list A :=
  match l, n with
  | [], _ => []
  | _ :: r, 0 => x :: r
  | y :: r, S m => y :: upd_at m x r
  end.

Lemma upd_at_length {A} n (x : A) l : length (upd_at n x l) = length l.
Proof. revert n; induction l; intros [|n]; simpl; auto. Qed.

Lemma nth_upd_at {A} n (x : A) l d : n < length l -> nth n (upd_at n x l) d = x.
Proof. revert n; induction l; intros [|n] H; simpl in *; try lia; auto. apply IHl. lia. Qed.

Lemma all_rems_length {A} (its : list (iterator A)) L st :
  length (all_rems its L st) = length its.
Proof. induction its; simpl; auto. Qed.

Lemma step_next_spec {A} (its : list (iterator A)) (L : all_laws its) n st :
  all_ok its L st -> n < length its ->
  exists st', step_next its n st = Some (hd_error (nth n (all_rems its L st) []), st') /\
              all_ok its L st' /\
              all_rems its L st' = upd_at n (tl (nth n (all_rems its L st) [])) (all_rems its L st).
Proof.
  revert n. induction its as [|i r IH]; intros n Hok Hn; simpl in *; [lia|].
  destruct L as [Li Lr], st as [si sr], Hok as [Hi Hr]. simpl in *.
  destruct n as [|n].
  - destruct (il_next i Li si Hi) as (s' & E & Hok' & R). rewrite E.
    exists (s', sr). simpl. rewrite R. auto.
  - destruct (IH Lr sr n Hr ltac:(lia)) as (s' & E & Hok' & R). rewrite E.
    exists (si, s'). simpl. rewrite R. auto.
Qed.

Lemma step_back_spec {A} (its : list (iterator A)) (L : all_laws its) bs n st :
  all_backs its = Some bs ->
  all_ok its L st -> n < length its ->
  exists st', step_back its n bs st = Some (last_error (nth n (all_rems its L st) []), st') /\
              all_ok its L st' /\
              all_rems its L st' =
                upd_at n (removelast (nth n (all_rems its L st) [])) (all_rems its L st).
Proof.
  revert n. induction its as [|i r IH]; intros n Hbs Hok Hn; simpl in *; [lia|].
  destruct L as [Li Lr], st as [si sr], Hok as [Hi Hr]. simpl in *.
  destruct (it_back i) as [b|] eqn:Eb; [|discriminate].
  destruct (all_backs r) as [bs'|] eqn:Ebs; [|discriminate].
  injection Hbs as <-. simpl.
  destruct n as [|n].
  - destruct (il_back i Li b si Eb Hi) as (s' & E & Hok' & R). rewrite E.
    exists (s', sr). simpl. rewrite R. auto.
  - destruct (IH Lr bs' sr n eq_refl Hr ltac:(lia)) as (s' & E & Hok' & R). rewrite E.
    exists (si, s'). simpl. rewrite R. auto.
Qed.

(** The lists of fields numbered [start .. end_ - 1], concatenated. *)
Definition range_rem {A} (start end_ : nat) (l : list (list A)) : list A :=
  concat (firstn (end_ - start) (skipn start l)).

Lemma skipn_upd_lt {A} n m (x : A) l : n < m -> skipn m (upd_at n x l) = skipn m l.
Proof.
  revert n m; induction l as [|y l IH]; intros [|n] [|m] H; simpl; try lia; auto.
  apply IH. lia.
Qed.

Lemma firstn_upd_ge {A} n m (x : A) l : m <= n -> firstn m (upd_at n x l) = firstn m l.
Proof.
  revert n m; induction l as [|y l IH]; intros [|n] [|m] H; simpl; try lia; auto.
  f_equal. apply IH. lia.
Qed.

Lemma skipn_cons {A} n (l : list A) d :
  n < length l -> skipn n l = nth n l d :: skipn (S n) l.
Proof.
  revert n; induction l as [|y l IH]; intros [|n] H; simpl in *; try lia; auto.
  apply IH. lia.
Qed.

Lemma range_front {A} start end_ (l : list (list A)) :
  start < end_ -> end_ <= length l ->
  range_rem start end_ l = nth start l [] ++ range_rem (S start) end_ l.
Proof.
  intros H1 H2. unfold range_rem.
  replace (end_ - start) with (S (end_ - S start)) by lia.
  rewrite (skipn_cons start l []) by lia. reflexivity.
Qed.

Lemma range_front_upd {A} start end_ x (l : list (list A)) :
  start < end_ -> end_ <= length l ->
  range_rem start end_ (upd_at start x l) = x ++ range_rem (S start) end_ l.
Proof.
  intros H1 H2. rewrite range_front by (rewrite ?upd_at_length; lia).
  rewrite nth_upd_at by lia. f_equal. unfold range_rem.
  rewrite skipn_upd_lt by lia. reflexivity.
Qed.

Lemma skipn_upd_ge {A} start n (x : A) l :
  start <= n -> skipn start (upd_at n x l) = upd_at (n - start) x (skipn start l).
Proof.
  revert start n; induction l as [|y l IH]; intros [|start] [|n] H; simpl; try lia; auto.
  apply IH. lia.
Qed.

Lemma firstn_S {A} n (l : list A) d :
  n < length l -> firstn (S n) l = firstn n l ++ [nth n l d].
Proof.
  revert n; induction l as [|y l IH]; intros [|n] H; simpl in *; try lia; auto.
  f_equal. apply IH. lia.
Qed.

Lemma nth_skipn {A} n m (l : list A) d : nth n (skipn m l) d = nth (m + n) l d.
Proof.
  revert m; induction l as [|y l IH]; intros [|m]; simpl; auto.
  destruct n; reflexivity.
Qed.

Lemma range_back {A} start end_ (l : list (list A)) :
  start < end_ -> end_ <= length l ->
  range_rem start end_ l = range_rem start (end_ - 1) l ++ nth (end_ - 1) l [].
Proof.
  intros H1 H2. unfold range_rem.
  replace (end_ - start) with (S (end_ - 1 - start)) by lia.
  rewrite (firstn_S _ _ []) by (rewrite skipn_length; lia).
  rewrite concat_app. simpl. rewrite app_nil_r, nth_skipn.
  replace (start + (end_ - 1 - start)) with (end_ - 1) by lia. reflexivity.
Qed.

Lemma range_back_upd {A} start end_ x (l : list (list A)) :
  start < end_ -> end_ <= length l ->
  range_rem start end_ (upd_at (end_ - 1) x l) = range_rem start (end_ - 1) l ++ x.
Proof.
  intros H1 H2. rewrite range_back by (rewrite ?upd_at_length; lia).
  rewrite nth_upd_at by lia. f_equal. unfold range_rem.
  rewrite skipn_upd_ge by lia. rewrite firstn_upd_ge by lia. reflexivity.
Qed.

Lemma range_empty {A} start end_ (l : list (list A)) :
  end_ <= start -> range_rem start end_ l = [].
Proof.
  intros H. unfold range_rem. replace (end_ - start) with 0 by lia. reflexivity.
Qed.

Definition struct_rem {A} (its : list (iterator A)) (L : all_laws its)
  (s : nat * nat * it_states its) : list A :=
  let '(start, end_, st) := s in range_rem start end_ (all_rems its L st).

Definition struct_ok {A} (its : list (iterator A)) (L : all_laws its)
  (s : nat * nat * it_states its) : Prop :=
  let '(start, end_, st) := s in end_ <= length its /\ all_ok its L st.

Lemma loop_next_spec {A} (its : list (iterator A)) (L : all_laws its) fuel :
  forall start end_ st,
  end_ <= length its -> all_ok its L st -> end_ - start <= fuel ->
  exists s', loop_next its fuel start end_ st =
             (hd_error (struct_rem its L (start, end_, st)), s') /\
             struct_ok its L s' /\
             struct_rem its L s' = tl (struct_rem its L (start, end_, st)).
Proof.
  induction fuel as [|fuel IH]; intros start end_ st He Hok Hf.
  - simpl. exists (start, end_, st). simpl.
    rewrite range_empty by lia. auto.
  - simpl loop_next. destruct (Nat.ltb_spec start end_) as [Hlt|Hge].
    + destruct (step_next_spec its L start st Hok ltac:(lia)) as (st' & E & Hok' & R).
      rewrite E.
      assert (HL : end_ <= length (all_rems its L st)) by (rewrite all_rems_length; lia).
      simpl struct_rem. rewrite (range_front start end_) by lia.
      destruct (nth start (all_rems its L st) []) as [|x rest] eqn:En; simpl in R |- *.
      * destruct (IH (Nat.min (start + 1) end_) end_ st' He Hok' ltac:(lia))
          as (s' & E' & Hok2 & R').
        exists s'. rewrite E'. simpl in R'.
        replace (Nat.min (start + 1) end_) with (S start) in * by lia.
        assert (HR : range_rem (S start) end_ (all_rems its L st') =
                     range_rem (S start) end_ (all_rems its L st)).
        { rewrite R. unfold range_rem. rewrite skipn_upd_lt by lia. reflexivity. }
        rewrite HR in R'. simpl. rewrite HR. auto.
      * exists (start, end_, st'). split; [reflexivity|]. split; [split; auto|].
        simpl. rewrite R, range_front_upd by lia. reflexivity.
    + exists (start, end_, st). simpl. rewrite range_empty by lia. auto.
Qed.

Lemma loop_back_spec {A} (its : list (iterator A)) (L : all_laws its) bs fuel :
  all_backs its = Some bs ->
  forall start end_ st,
  end_ <= length its -> all_ok its L st -> end_ - start <= fuel ->
  exists s', loop_back its bs fuel start end_ st =
             (last_error (struct_rem its L (start, end_, st)), s') /\
             struct_ok its L s' /\
             struct_rem its L s' = removelast (struct_rem its L (start, end_, st)).
Proof.
  intros Hbs. induction fuel as [|fuel IH]; intros start end_ st He Hok Hf.
  - simpl. exists (start, end_, st). simpl.
    rewrite range_empty by lia. auto.
  - simpl loop_back. destruct (Nat.ltb_spec start end_) as [Hlt|Hge].
    + destruct (step_back_spec its L bs (end_ - 1) st Hbs Hok ltac:(lia))
        as (st' & E & Hok' & R).
      rewrite E.
      assert (HL : end_ <= length (all_rems its L st)) by (rewrite all_rems_length; lia).
      simpl struct_rem. rewrite (range_back start end_) by lia.
      rewrite last_error_app.
      destruct (last_error (nth (end_ - 1) (all_rems its L st) [])) as [x|] eqn:En.
      * exists (start, end_, st'). split; [reflexivity|]. split; [split; auto|].
        simpl. rewrite R, range_back_upd by lia.
        rewrite removelast_app_ne by (eapply last_error_ne; eauto). reflexivity.
      * apply last_error_nil in En. rewrite En, app_nil_r in *. simpl in R.
        destruct (IH start (Nat.max (end_ - 1) start) st' ltac:(lia) Hok' ltac:(lia))
          as (s' & E' & Hok2 & R').
        exists s'. rewrite E'. simpl in R'.
        replace (Nat.max (end_ - 1) start) with (end_ - 1) in * by lia.
        assert (HR : range_rem start (end_ - 1) (all_rems its L st') =
                     range_rem start (end_ - 1) (all_rems its L st)).
        { rewrite R. unfold range_rem.
          rewrite skipn_upd_ge by lia. rewrite firstn_upd_ge by lia. reflexivity. }
        rewrite HR in R'. simpl. rewrite HR. auto.
    + exists (start, end_, st). simpl. rewrite range_empty by lia. auto.
Qed.

Lemma clone_states_id {A} (its : list (iterator A)) (L : all_laws its) st :
  clone_states its st = st.
Proof.
  induction its as [|i r IH]; [destruct st; reflexivity|].
  destruct st as [s st]. simpl. rewrite (il_clone i (fst L)), (IH (snd L)). reflexivity.
Qed.

Definition struct_laws {A} (its : list (iterator A)) (L : all_laws its)
  : it_laws (struct_it its).
Proof.
  refine (MkItLaws A (struct_it its) (struct_ok its L) (struct_rem its L) _ _ _ _).
  - intros [[start end_] st] [He Hok]. simpl.
    exact (loop_next_spec its L end_ start end_ st He Hok ltac:(lia)).
  - intros b [[start end_] st] Hb [He Hok]. simpl in Hb.
    destruct (all_backs its) as [bs|] eqn:Ebs; [|discriminate].
    injection Hb as <-.
    exact (loop_back_spec its L bs end_ Ebs start end_ st He Hok ltac:(lia)).
  - intros [[start end_] st] _. simpl. split; [lia|exact I].
  - intros [[start end_] st]. simpl. rewrite (clone_states_id its L). reflexivity.
Defined.
