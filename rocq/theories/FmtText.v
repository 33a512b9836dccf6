(** The text that printing produces. *)
Require Import String Ascii List Arith Bool Lia.
Import ListNotations.
From Verif Require Import DebugProofs Fmt FmtSpec FmtProofs.
Local Open Scope string_scope.

Lemma prefix_refl s : is_prefix s s.
Proof. exists "". now rewrite app_nil_s. Qed.

Lemma prefix_nil s : is_prefix "" s.
Proof. now exists s. Qed.

Lemma prefix_app p s t : is_prefix p s -> is_prefix p (s ++ t).
Proof. intros [q ->]. exists (q ++ t). now rewrite app_assoc_s. Qed.

Lemma prefix_under p s t : is_prefix p t -> is_prefix (s ++ p) (s ++ t).
Proof. intros [q ->]. exists q. now rewrite app_assoc_s. Qed.

(** * Modes: as it is, or indented *)

Section Mode.
  Context {W : Type} (text : W -> string) (mode : W -> bool).
  Context (enc : bool -> string -> string) (aft : bool -> string -> bool).
  Context (enc_app : forall m s t, enc m (s ++ t) = enc m s ++ enc (aft m s) t).
  Context (aft_app : forall m s t, aft m (s ++ t) = aft (aft m s) t).
  Context (enc_nil : forall m, enc m "" = "") (aft_nil : forall m, aft m "" = m).
  Context (N : Prop).

  Definition emitted (w w' : W) (v : verdict) (s : string) : Prop :=
    exists p, is_prefix p (enc (mode w) s) /\ text w' = text w ++ p /\
      (v = FOk -> p = enc (mode w) s /\ mode w' = aft (mode w) s) /\ (N -> v = FOk).

  Definition emits {D} (m : W * D -> W * D * verdict) (s : string) : Prop :=
    forall w d, let '(w', _, v) := m (w, d) in emitted w w' v s.

  Lemma emitted_nil w : emitted w w FOk "".
  Proof using enc_nil aft_nil.
    exists "". rewrite enc_nil, aft_nil, app_nil_s. repeat split. apply prefix_nil.
  Qed.

  Lemma emitted_app w w1 w2 v s t :
    emitted w w1 FOk s -> emitted w1 w2 v t -> emitted w w2 v (s ++ t).
  Proof using enc_app aft_app.
    intros (p & P1 & P2 & P3 & _) (q & Q1 & Q2 & Q3 & Q4).
    destruct (P3 eq_refl) as [-> Hm]. rewrite Hm in *.
    exists (enc (mode w) s ++ q). rewrite enc_app, aft_app. repeat split.
    - now apply prefix_under.
    - now rewrite Q2, P2, app_assoc_s.
    - now destruct (Q3 H) as [-> _].
    - now destruct (Q3 H).
    - exact Q4.
  Qed.

  Lemma emitted_cut w w1 v s t : v <> FOk -> emitted w w1 v s -> emitted w w1 v (s ++ t).
  Proof using enc_app.
    intros H (p & P1 & P2 & _ & P4). exists p. rewrite enc_app. repeat split; auto.
    - now apply prefix_app.
    - congruence.
    - congruence.
  Qed.

  (** A sink, and the runs of user code on it. *)
  Context (wr : out W).
  Context (Wr : forall w s, let '(w', v) := wr w s in emitted w w' v s).

  Lemma run_emits {D} (c : script D) t : prints c t ->
    forall w, let '(w', _, v) := run wr c w in emitted w w' v t.
  Proof using Wr enc_app aft_app enc_nil aft_nil.
    induction 1 as [d|d s k t H IH G]; intros w; cbn [run]; [apply emitted_nil|].
    specialize (Wr w s). destruct (wr w s) as [w1 []].
    - specialize (IH w1). destruct (run wr (k true) w1) as [[w2 d2] v].
      eapply emitted_app; eauto.
    - destruct G as (d' & r & -> & Hr). cbn [run].
      destruct Wr as (p & P1 & P2 & P3 & P4). exists p. rewrite enc_app. repeat split; auto.
      + now apply prefix_app.
      + congruence.
      + congruence.
      + intros n. specialize (P4 n). discriminate.
    - eapply emitted_cut; [discriminate|exact Wr].
  Qed.

  Context {O D A : Type} (f : fmt_fn O D A) (o : O) (txt : A -> string).
  Context (F : forall d x, prints (f o d x) (txt x)).

  Definition piece_text (p : piece A) : string :=
    match p with Text s => s | Item x => txt x end.

  Lemma piece_emits p : emits (do_piece f o wr p) (piece_text p).
  Proof using Wr F enc_app aft_app enc_nil aft_nil.
    intros w d. destruct p as [s|x]; cbn [do_piece piece_text fst snd].
    - specialize (Wr w s). destruct (wr w s) as [w1 v]. exact Wr.
    - apply run_emits, F.
  Qed.
End Mode.

Lemma perform_emits {W D X} (text : W -> string) mode enc aft
    (enc_app : forall m s t, enc m (s ++ t) = enc m s ++ enc (aft m s) t)
    (aft_app : forall m s t, aft m (s ++ t) = aft (aft m s) t)
    (enc_nil : forall m, enc m "" = "") (aft_nil : forall m, aft m "" = m) N
    (f : X -> W * D -> W * D * verdict) (txt : X -> string) :
  (forall x, emits text mode enc aft N (f x) (txt x)) ->
  forall l, emits text mode enc aft N (perform f l) (String.concat "" (map txt l)).
Proof.
  intros H l. induction l as [|x l IH]; intros w d; cbn [perform].
  - apply emitted_nil; assumption.
  - assert (C : String.concat "" (map txt (x :: l)) = txt x ++ String.concat "" (map txt l)).
    { cbn [map]. destruct l; simpl; [now rewrite app_nil_s|reflexivity]. }
    rewrite C. specialize (H x w d). destruct (f x (w, d)) as [[w1 d1] []].
    + specialize (IH w1 d1). destruct (perform f l (w1, d1)) as [[w2 d2] v].
      eapply emitted_app; eauto.
    + eapply emitted_cut; eauto. discriminate.
    + eapply emitted_cut; eauto. discriminate.
Qed.

(** * Indented text *)

Fixpoint after (nl : bool) (s : string) : bool :=
  match s with
  | EmptyString => nl
  | String c r => after (Ascii.eqb c "010") r
  end.

Lemma after_app m s t : after m (s ++ t) = after (after m s) t.
Proof. revert m. induction s as [|c s IH]; intros m; simpl; auto. Qed.

Lemma indent_app m s t : indent m (s ++ t) = indent m s ++ indent (after m s) t.
Proof.
  revert m. induction s as [|c s IH]; intros m; [reflexivity|].
  simpl. rewrite IH. rewrite !app_assoc_s. reflexivity.
Qed.

Inductive is_line : string -> Prop :=
| LineOne : forall c, is_line (String c "")
| LineMore : forall c s, Ascii.eqb c "010" = false -> is_line s -> is_line (String c s).

Lemma indent_line nl s : is_line s -> indent nl s = (if nl then "    " else "") ++ s.
Proof.
  intros H. revert nl. induction H as [c|c s E H IH]; intros nl; [reflexivity|].
  cbn [indent]. rewrite E, IH. reflexivity.
Qed.

Lemma after_line nl s : is_line s -> after nl s = ends_line s.
Proof.
  intros H. revert nl. induction H as [c|c s E H IH]; intros nl; [reflexivity|].
  cbn [after]. rewrite IH. destruct H; reflexivity.
Qed.

Lemma split_lines_ok s : Forall is_line (split_lines s) /\ String.concat "" (split_lines s) = s.
Proof.
  induction s as [|c s [IH1 IH2]]; [split; [constructor|reflexivity]|].
  cbn [split_lines]. destruct (Ascii.eqb c "010") eqn:E.
  - split; [constructor; [constructor|exact IH1]|].
    destruct (split_lines s) as [|p q]; simpl in *; congruence.
  - destruct (split_lines s) as [|p q] eqn:Es.
    + split; [repeat constructor|]. simpl in *. congruence.
    + inversion IH1; subst. split; [constructor; [now constructor|assumption]|].
      destruct q; simpl in *; congruence.
Qed.

Definition pad_text {W} (text : W -> string) (st : W * bool) : string := text (fst st).

Lemma pad_emits {W} (text : W -> string) (wr : out W) : collects text wr ->
  forall st s, let '(st', v) := pad wr st s in
    emitted (pad_text text) snd indent after (never_fails wr) st st' v s.
Proof.
  intros C [w nl] s. unfold pad. cbn [fst snd].
  destruct (split_lines_ok s) as [F Es]. revert F Es. generalize (split_lines s).
  intros l F <-.
  revert w nl. induction F as [|p l Hp F IH]; intros w nl; cbn [pad_lines].
  - apply emitted_nil; reflexivity.
  - assert (Ec : String.concat "" (p :: l) = p ++ String.concat "" l)
      by (destruct l; simpl; [now rewrite app_nil_s|reflexivity]).
    rewrite Ec.
    assert (H1 : exists w1 v1, (if nl then wr w "    " else (w, FOk)) = (w1, v1) /\
      exists q, is_prefix q (if nl then "    " else "") /\ text w1 = text w ++ q /\
                (v1 = FOk -> q = if nl then "    " else "") /\ (never_fails wr -> v1 = FOk)).
    { destruct nl.
      - specialize (C w "    "). destruct (wr w "    ") as [w1 v1] eqn:E1.
        destruct C as (q & C1 & C2 & C3). exists w1, v1. split; [reflexivity|].
        exists q. repeat split; auto. intros Nf. specialize (Nf w "    "). now rewrite E1 in Nf.
      - exists w, FOk. split; [reflexivity|]. exists "". rewrite app_nil_s.
        repeat split; auto. apply prefix_refl. }
    destruct H1 as (w1 & v1 & -> & q & Q1 & Q2 & Q3 & Q4).
    destruct v1.
    2,3: exists q; cbn [snd]; rewrite indent_app, (indent_line nl p Hp); repeat split;
         [now apply prefix_app, prefix_app|exact Q2|discriminate|discriminate|exact Q4].
    specialize (Q3 eq_refl). subst q.
    specialize (C w1 p) as C1. destruct (wr w1 p) as [w2 v2] eqn:E2.
    destruct C1 as (q & D1 & D2 & D3).
    assert (Hn : never_fails wr -> v2 = FOk)
      by (intros Nf; specialize (Nf w1 p); now rewrite E2 in Nf).
    assert (One : emitted (pad_text text) snd indent after (never_fails wr) (w, nl)
                    (w2, ends_line p) v2 p).
    { exists ((if nl then "    " else "") ++ q). cbn [snd].
      rewrite (indent_line nl p Hp), (after_line nl p Hp). repeat split.
      - now apply prefix_under.
      - unfold pad_text. cbn [fst]. now rewrite D2, Q2, app_assoc_s.
      - now rewrite (D3 H).
      - exact Hn. }
    destruct v2.
    + specialize (IH w2 (ends_line p)).
      destruct (pad_lines wr l w2 (ends_line p)) as [[w3 nl3] v3].
      eapply emitted_app; eauto using indent_app, after_app.
    + eapply emitted_cut; eauto using indent_app. discriminate.
    + eapply emitted_cut; eauto using indent_app. discriminate.
Qed.

(** * Layouts *)

Section Layout.
  Context {O D A W : Type} (f : fmt_fn O D A) (o : O) (txt : A -> string).
  Context (F : forall d x, prints (f o d x) (txt x)).
  Context (text : W -> string) (wr : out W) (C : collects text wr).

  Definition block_text (b : block A) : string :=
    match b with
    | Bare l => String.concat "" (map (piece_text txt) l)
    | Indented l => indent true (String.concat "" (map (piece_text txt) l))
    end.

  Notation emits_plain := (emits text (fun _ => true) (fun _ s => s) (fun m _ => m) (never_fails wr)).

  Lemma plain_sink w s : let '(w', v) := wr w s in
    emitted text (fun _ => true) (fun _ s => s) (fun m _ => m) (never_fails wr) w w' v s.
  Proof using C.
    specialize (C w s). destruct (wr w s) as [w' v] eqn:E. destruct C as (p & P1 & P2 & P3).
    exists p. repeat split; auto. intros Nf. specialize (Nf w s). now rewrite E in Nf.
  Qed.

  Lemma block_emits b : emits_plain (do_block f o wr b) (block_text b).
  Proof using C F.
    destruct b as [l|l]; cbn [do_block block_text].
    - apply perform_emits; auto. intros x. apply piece_emits; auto. exact plain_sink.
    - intros w d. cbn [do_block fst snd].
      pose proof (perform_emits (D := D) (pad_text text) snd indent after indent_app after_app
        (fun _ => eq_refl) (fun _ => eq_refl) (never_fails wr)
        (do_piece f o (pad wr)) (piece_text txt)
        (fun x => piece_emits (pad_text text) snd indent after indent_app after_app
           (fun _ => eq_refl) (fun _ => eq_refl) (never_fails wr) (pad wr) (pad_emits text wr C)
           f o txt F x) l (w, true) d) as H.
      destruct (perform _ _ _) as [[[w' nl'] d'] v].
      destruct H as (p & P1 & P2 & P3 & P4). exists p. repeat split; auto.
      now destruct (P3 H).
  Qed.

  Lemma layout_emits l w d :
    prints_to text wr w (do_layout f o wr l w d) (String.concat "" (map block_text l)).
  Proof using C F.
    unfold do_layout.
    pose proof (perform_emits text (fun _ => true) (fun _ s => s) (fun m _ => m)
      ltac:(reflexivity) ltac:(reflexivity) ltac:(reflexivity) ltac:(reflexivity)
      (never_fails wr) (do_block f o wr) block_text block_emits l w d) as H.
    unfold prints_to. destruct (perform _ _ _) as [[w' d'] v].
    destruct H as (p & P1 & P2 & P3 & P4). exists p. repeat split; auto.
    intros H. now destruct (P3 H).
  Qed.
End Layout.

Lemma concat_cons x l : String.concat "" (x :: l) = x ++ String.concat "" l.
Proof. destruct l; simpl; [now rewrite app_nil_s|reflexivity]. Qed.

Lemma concat_app a b : String.concat "" (a ++ b)%list = String.concat "" a ++ String.concat "" b.
Proof.
  induction a as [|x a IH]; [reflexivity|].
  change ((x :: a) ++ b)%list with (x :: (a ++ b)%list).
  now rewrite !concat_cons, IH, app_assoc_s.
Qed.

Lemma after_line_end m s : after m (s ++ line_end) = true.
Proof. rewrite after_app. reflexivity. Qed.

Lemma indent_concat l :
  String.concat "" (map (fun e => indent true (e ++ line_end)) l) =
  indent true (String.concat "" (map (fun e => e ++ line_end) l)).
Proof.
  induction l as [|e l IH]; [reflexivity|].
  cbn [map]. rewrite !concat_cons, (indent_app true (e ++ line_end)), after_line_end, IH. reflexivity.
Qed.

Lemma indented_text {A} (txt : A -> string) (l : list (list (piece A))) :
  String.concat "" (map (block_text txt) (map (fun e => Indented (e ++ [Text line_end])) l)) =
  indent true (String.concat "" (map (fun e => e ++ line_end)
    (map (fun e => String.concat "" (map (piece_text txt) e)) l))).
Proof.
  rewrite <- indent_concat, !map_map. f_equal. apply map_ext. intros x.
  cbn [block_text]. rewrite map_app, concat_app. reflexivity.
Qed.

Lemma between_text {A} (txt : A -> string) (l : list (list (piece A))) :
  String.concat "" (map (block_text txt) (between (Bare [Text ", "]) (map (fun e => Bare e) l))) =
  String.concat ", " (map (fun e => String.concat "" (map (piece_text txt) e)) l).
Proof.
  destruct l as [|e l]; [reflexivity|]. revert e. induction l as [|x l IH]; intros e.
  - reflexivity.
  - change (between (Bare [Text ", "]) (map (fun e => @Bare A e) (e :: x :: l))) with
      (Bare e :: Bare [Text ", "] :: between (Bare [Text ", "]) (map (fun e => @Bare A e) (x :: l))).
    cbn [map] in *. rewrite concat_cons, concat_cons, IH. reflexivity.
Qed.

(** The text of a layout. *)
Lemma layout_framed {A} (txt : A -> string) o c alt (l : list (list (piece A))) :
  String.concat "" (map (block_text txt) (layout o c alt l)) =
  framed o c alt (map (fun e => String.concat "" (map (piece_text txt) e)) l).
Proof.
  unfold layout, framed. rewrite !map_app, !concat_app. f_equal. f_equal.
  destruct alt; [|apply between_text].
  destruct l as [|e l]; [reflexivity|].
  rewrite map_app, concat_app. exact (f_equal (append newline) (indented_text txt (e :: l))).
Qed.

Section Texts.
  Context {O D W : Type} (alternate : O -> bool) (o : O).
  Context (text : W -> string) (wr : out W) (C : collects text wr).

  Lemma map_text {K V} (fk : fmt_fn O D K) (fv : fmt_fn O D V) tk tv l w d :
    (forall d k, prints (fk o d k) (tk k)) -> (forall d v, prints (fv o d v) (tv v)) ->
    prints_to text wr w (do_layout (either fk fv) o wr (map_layout (alternate o) l) w d)
      (framed "{" "}" (alternate o) (map (entry_text tk tv) l)).
  Proof using C.
    intros Fk Fv.
    set (txt := fun x : K + V => match x with inl k => tk k | inr v => tv v end).
    assert (F : forall d x, prints (either fk fv o d x) (txt x)) by (intros d' [k|v]; [exact (Fk d' k)|exact (Fv d' v)]).
    assert (E : framed "{" "}" (alternate o) (map (entry_text tk tv) l) =
                String.concat "" (map (block_text txt) (map_layout (alternate o) l))).
    { unfold map_layout. rewrite layout_framed, map_map. reflexivity. }
    rewrite E. now apply layout_emits.
  Qed.

  Lemma items_text {T} (ft : fmt_fn O D T) txt op cl l w d :
    (forall d x, prints (ft o d x) (txt x)) ->
    prints_to text wr w
      (do_layout ft o wr (layout op cl (alternate o) (map (fun x => [Item x]) l)) w d)
      (framed op cl (alternate o) (map txt l)).
  Proof using C.
    intros F.
    assert (E : framed op cl (alternate o) (map txt l) = String.concat "" (map (block_text txt)
                  (layout op cl (alternate o) (map (fun x => [Item x]) l)))).
    { rewrite layout_framed, map_map. reflexivity. }
    rewrite E. now apply layout_emits.
  Qed.
End Texts.
