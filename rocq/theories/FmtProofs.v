(** Printing with arbitrary sinks and implementations of [Debug]. *)
Require Import String Ascii List Arith Bool Lia.
Import ListNotations.
From Verif Require Import Std Traits IterLaws Api Debug DebugProofs Reach Fmt FmtSpec.
Local Open Scope list_scope.

Lemma perform_app {X St} (f : X -> St -> St * verdict) a b st :
  perform f (a ++ b) st =
  match perform f a st with (st1, FOk) => perform f b st1 | other => other end.
Proof.
  revert st. induction a as [|x a IH]; intros st; simpl; [reflexivity|].
  destruct (f x st) as [st1 []]; auto.
Qed.

(** The blocks of one entry, [h]: others came before. *)
Definition one {A} (alt h : bool) (e : list (piece A)) : list (block A) :=
  if alt then (if h then [] else [Bare [Text newline]]) ++ [Indented (e ++ [Text line_end])]
  else (if h then [Bare [Text ", "]] else []) ++ [Bare e].

Fixpoint many {A} (alt h : bool) (l : list (list (piece A))) : list (block A) :=
  match l with
  | [] => []
  | e :: r => one alt h e ++ many alt true r
  end.

Lemma many_alt {A} (l : list (list (piece A))) :
  many true true l = map (fun e => Indented (e ++ [Text line_end])) l.
Proof. induction l as [|e l IH]; simpl; [reflexivity|]. now rewrite IH. Qed.

Lemma many_plain {A} (l : list (list (piece A))) : forall e,
  one false false e ++ many false true l =
  between (Bare [Text ", "]) (map (fun e => Bare e) (e :: l)).
Proof.
  induction l as [|x l IH]; intros e; [reflexivity|].
  change (between (Bare [Text ", "]) (map (fun e => Bare e) (e :: x :: l)))
    with (Bare e :: Bare [Text ", "] :: between (Bare [Text ", "]) (map (fun e => Bare e) (x :: l))).
  rewrite <- IH. reflexivity.
Qed.

Lemma layout_many {A} o c alt (l : list (list (piece A))) :
  layout o c alt l = [Bare [Text o]] ++ many alt false l ++ [Bare [Text c]].
Proof.
  unfold layout. destruct alt; destruct l as [|e l]; try reflexivity.
  - do 2 f_equal. change (many true false (e :: l)) with (one true false e ++ many true true l).
    rewrite many_alt. reflexivity.
  - do 2 f_equal. change (many false false (e :: l)) with (one false false e ++ many false true l).
    rewrite many_plain. reflexivity.
Qed.

Section Sim.
  Context {O D W : Type} (alternate : O -> bool) (wr : out W) (o : O).
  Context {A E B : Type} (f : fmt_fn O D A) (pieces : E -> list (piece A)).
  Context (put : E -> B * (W * D) -> B * (W * D) * bool).
  Context (ok has : B -> bool) (good : B -> Prop).

  Notation todo := (perform (do_block f o wr)).

  Definition ends_as (r : B * (W * D) * bool) (wv : W * D * verdict) : Prop :=
    match r, wv with
    | (b, wd, u), (wd', v) =>
        wd = wd' /\
        match v with
        | FOk => u = false /\ ok b = true /\ good b
        | FErr => u = false /\ ok b = false
        | FPanic => u = true
        end
    end.

  Definition put_ok : Prop := forall e b wd,
    (ok b = false -> exists b', put e (b, wd) = (b', wd, false) /\ ok b' = false) /\
    (ok b = true -> good b ->
       ends_as (put e (b, wd)) (todo (one (alternate o) (has b) (pieces e)) wd) /\
       (snd (put e (b, wd)) = false -> has (fst (fst (put e (b, wd)))) = true)).

  Context (P : put_ok).

  Lemma each_failed (i : iterator E) l : forall n b wd s,
    drain i n s = Some l -> ok b = false ->
    exists b', each_entry i put n (b, wd) s = Some (b', wd, false) /\ ok b' = false.
  Proof using P.
    induction l as [|x l IH]; intros [|n] b wd s; simpl; try discriminate;
      destruct (it_next i s) as [[y|] s1]; try discriminate.
    - destruct (drain i n s1); discriminate.
    - intros _ H. exists b. auto.
    - destruct (drain i n s1) as [l'|] eqn:Ed; simpl; [|discriminate]. intros [= -> ->] H.
      destruct (P x b wd) as [P1 _]. destruct (P1 H) as (b' & -> & H'). eapply IH; eauto.
  Qed.

  Lemma each_sim (i : iterator E) l : forall n b wd s,
    drain i n s = Some l -> ok b = true -> good b ->
    exists r, each_entry i put n (b, wd) s = Some r /\
      ends_as r (todo (many (alternate o) (has b) (map pieces l)) wd).
  Proof using P.
    induction l as [|x l IH]; intros [|n] b wd s; simpl; try discriminate;
      destruct (it_next i s) as [[y|] s1]; try discriminate.
    - destruct (drain i n s1); discriminate.
    - intros _ H G. eexists. split; [reflexivity|]. simpl. auto.
    - destruct (drain i n s1) as [l'|] eqn:Ed; simpl; [|discriminate]. intros [= -> ->] H G.
      destruct (P x b wd) as [_ P2]. destruct (P2 H G) as [Q Hh]. clear P2.
      rewrite perform_app.
      destruct (put x (b, wd)) as [[b1 wd1] u] eqn:Ep.
      destruct (todo (one (alternate o) (has b) (pieces x)) wd) as [wd2 v].
      simpl in Hh. simpl in Q. destruct Q as [-> Q]. destruct v.
      + destruct Q as (-> & H1 & G1).
        destruct (IH n b1 wd2 s1 Ed H1 G1) as (r & Er & Q). rewrite (Hh eq_refl) in Q. eauto.
      + destruct Q as (-> & H1).
        destruct (each_failed i l n b1 wd2 s1 Ed H1) as (b' & -> & H').
        eexists. split; [reflexivity|]. simpl. auto.
      + subst u. eexists. split; [reflexivity|]. simpl. auto.
  Qed.
End Sim.

(** Cases of a call or a write. *)
Ltac case_call t := let E := fresh "C" in destruct t eqn:E; cbv beta iota in *.

Section Builders.
  Context {O D W : Type} (alternate : O -> bool) (wr : out W) (o : O).

  Ltac one_call :=
    match goal with
    | |- context [run ?a ?b ?c] =>
        let w := fresh "w" in let d := fresh "d" in let v := fresh "v" in
        destruct (run a b c) as [[w d] v]
    | |- context [pad wr ?a ?b] =>
        let w := fresh "w" in let n := fresh "n" in let v := fresh "v" in
        destruct (pad wr a b) as [[w n] v]
    | |- context [wr ?a ?b] =>
        let w := fresh "w" in let v := fresh "v" in destruct (wr a b) as [w v]
    end.

  Lemma dm_ok_put {K V} (fk : fmt_fn O D K) (fv : fmt_fn O D V) :
    put_ok alternate wr o (either fk fv)
      (fun e => [Item (inl (fst e)); Text ": "; Item (inr (snd e))])
      (dm_entry alternate wr o fk fv) dm_ok dm_fields (fun m => dm_key m = false).
  Proof.
    intros [k v] [ok h key nl] [w d]. cbn [dm_ok dm_fields dm_key fst snd]. split.
    - intros ->. unfold dm_entry, dm_put_key, dm_put_value, guarded. cbn. eauto.
    - intros -> ->. unfold dm_entry, dm_put_key, dm_put_value, guarded, asserting.
      unfold one, show, say, pad_show, pad_say, new_line, and_then, line_end, newline.
      cbn [String.append].
      cbn [dm_ok dm_fields dm_key dm_nl fst snd negb].
      destruct (alternate o), h;
        cbn [app perform do_block do_piece either fst snd dm_ok dm_fields dm_key dm_nl negb];
        repeat (first
          [ match goal with v : verdict |- _ => destruct v | p : (W * bool)%type |- _ => destruct p end
          | progress cbn [app perform do_block do_piece either fst snd dm_ok dm_fields dm_key
                          dm_nl negb ends_as]
          | one_call ]);
        (split; [repeat split|solve [reflexivity|discriminate]]).
  Qed.

  Lemma di_ok_put {T} (ft : fmt_fn O D T) :
    put_ok alternate wr o ft (fun x => [Item x])
      (di_entry alternate wr o ft) di_ok di_fields (fun _ => True).
  Proof.
    intros x [ok h] [w d]. cbn [di_ok di_fields]. split.
    - intros ->. unfold di_entry, guarded. cbn. eauto.
    - intros -> _. unfold di_entry, guarded.
      unfold one, show, say, pad_show, pad_say, new_line, and_then, line_end, newline.
      cbn [String.append].
      cbn [di_ok di_fields fst snd].
      destruct (alternate o), h;
        cbn [app perform do_block do_piece fst snd di_ok di_fields];
        repeat (first
          [ match goal with v : verdict |- _ => destruct v | p : (W * bool)%type |- _ => destruct p end
          | progress cbn [app perform do_block do_piece fst snd di_ok di_fields ends_as]
          | one_call ]);
        (split; [repeat split|solve [reflexivity|discriminate]]).
  Qed.

  (** The first text. *)
  Lemma open_text {A} (f : fmt_fn O D A) s l w d :
    do_layout f o wr ([Bare [Text s]] ++ l) w d =
    let '(w1, v) := wr w s in
    match v with FOk => perform (do_block f o wr) l (w1, d) | _ => (w1, d, v) end.
  Proof. unfold do_layout. cbn. destruct (wr w s) as [w1 []]; reflexivity. Qed.

  (** The last one. *)
  Lemma close_text {A} (f : fmt_fn O D A) s l wd :
    perform (do_block f o wr) (l ++ [Bare [Text s]]) wd =
    match perform (do_block f o wr) l wd with
    | (w, d, FOk) => let '(w1, v) := wr w s in (w1, d, v)
    | other => other
    end.
  Proof.
    rewrite perform_app. destruct (perform (do_block f o wr) l wd) as [[w d] []]; try reflexivity.
    cbn. destruct (wr w s) as [w1 []]; reflexivity.
  Qed.

  Lemma map_fmt_does {K V} (fk : fmt_fn O D K) (fv : fmt_fn O D V) (m : MapStorage K V) st l w d :
    yields (ms_Iter m) (map_iter m st) l ->
    returns (fun n => map_fmt alternate wr o fk fv m n st w d)
      (do_layout (either fk fv) o wr (map_layout (alternate o) l) w d).
  Proof.
    intros [n0 Y]. exists n0. intros n Hn. unfold map_fmt, map_layout.
    rewrite layout_many, open_text. unfold dm_new.
    destruct (wr w "{"%string) as [w1 []]; [| |reflexivity].
    - destruct (each_sim alternate wr o _ _ _ _ _ _ (dm_ok_put fk fv) (ms_Iter m) l n
                  (MkDmap true false false true) (w1, d) _ (Y n Hn) eq_refl eq_refl) as (r & -> & Q).
      cbn [option_map]. f_equal. rewrite close_text. cbn [dm_fields] in Q.
      destruct (perform _ _ _) as [[w2 d2] v]. destruct r as [[b wd] u].
      destruct Q as [-> Q]. destruct v.
      + destruct Q as (-> & Ho & Hk). unfold dm_finish, asserting, say. rewrite Ho, Hk. cbn.
        destruct (wr w2 "}"%string) as [w3 v3]. reflexivity.
      + destruct Q as (-> & Ho). unfold dm_finish. now rewrite Ho.
      + subst u. reflexivity.
    - destruct (each_failed alternate wr o _ _ _ _ _ _ (dm_ok_put fk fv) (ms_Iter m) l n
                  (MkDmap false false false true) (w1, d) _ (Y n Hn) eq_refl) as (b' & -> & Ho).
      cbn [option_map]. unfold dm_finish. now rewrite Ho.
  Qed.

  Lemma set_fmt_does {T} (ft : fmt_fn O D T) (m : SetStorage T) st l w d :
    yields (ss_Iter m) (set_iter m st) l ->
    returns (fun n => set_fmt alternate wr o ft m n st w d)
      (do_layout ft o wr (set_layout (alternate o) l) w d).
  Proof.
    intros [n0 Y]. exists n0. intros n Hn. unfold set_fmt, set_layout.
    rewrite layout_many, open_text. unfold di_new.
    destruct (wr w "{"%string) as [w1 []]; [| |reflexivity].
    - destruct (each_sim alternate wr o _ _ _ _ _ _ (di_ok_put ft) (ss_Iter m) l n
                  (MkDinner true false) (w1, d) _ (Y n Hn) eq_refl Logic.I) as (r & -> & Q).
      cbn [option_map]. f_equal. rewrite close_text. cbn [di_fields] in Q.
      destruct (perform _ _ _) as [[w2 d2] v]. destruct r as [[b wd] u].
      destruct Q as [-> Q]. destruct v.
      + destruct Q as (-> & Ho & _). unfold di_finish, say. rewrite Ho. cbn.
        destruct (wr w2 "}"%string) as [w3 v3]. reflexivity.
      + destruct Q as (-> & Ho). unfold di_finish. now rewrite Ho.
      + subst u. reflexivity.
    - destruct (each_failed alternate wr o _ _ _ _ _ _ (di_ok_put ft) (ss_Iter m) l n
                  (MkDinner false false) (w1, d) _ (Y n Hn) eq_refl) as (b' & -> & Ho).
      cbn [option_map]. unfold di_finish. now rewrite Ho.
  Qed.

  (** ** Intersections *)

  Lemma common_failed {T} (ft : fmt_fn O D T) (m : SetStorage T) l : forall n b wd (x : intersection m),
    inter_drain m n x = Some l -> di_ok b = false ->
    exists b', each_common alternate wr o ft n (b, wd) x = Some (b', wd, false) /\ di_ok b' = false.
  Proof.
    induction l as [|y l IH]; intros [|n] b wd x; cbn [each_common inter_drain many map]; try discriminate;
      destruct (inter_next m n x) as [[[z|] x1]|]; try discriminate.
    - destruct (inter_drain m n x1); discriminate.
    - intros _ H. exists b. auto.
    - destruct (inter_drain m n x1) as [l'|] eqn:Ed; cbn [option_map]; [|discriminate]. intros [= -> ->] H.
      destruct (di_ok_put ft y b wd) as [P1 _]. destruct (P1 H) as (b' & -> & H'). eapply IH; eauto.
  Qed.

  Lemma common_sim {T} (ft : fmt_fn O D T) (m : SetStorage T) l : forall n b wd (x : intersection m),
    inter_drain m n x = Some l -> di_ok b = true ->
    exists r, each_common alternate wr o ft n (b, wd) x = Some r /\
      ends_as di_ok (fun _ => True) r
        (perform (do_block ft o wr) (many (alternate o) (di_fields b) (map (fun x => [Item x]) l)) wd).
  Proof.
    induction l as [|y l IH]; intros [|n] b wd x; cbn [each_common inter_drain many map]; try discriminate;
      destruct (inter_next m n x) as [[[z|] x1]|]; try discriminate.
    - destruct (inter_drain m n x1); discriminate.
    - intros _ H. eexists. split; [reflexivity|]. simpl. auto.
    - destruct (inter_drain m n x1) as [l'|] eqn:Ed; cbn [option_map]; [|discriminate]. intros [= -> ->] H.
      destruct (di_ok_put ft y b wd) as [_ P2]. destruct (P2 H Logic.I) as [Q Hh]. clear P2.
      rewrite perform_app.
      destruct (di_entry alternate wr o ft y (b, wd)) as [[b1 wd1] u] eqn:Ep.
      destruct (perform (do_block ft o wr) (one (alternate o) (di_fields b) [Item y]) wd) as [wd2 v].
      simpl in Hh. simpl in Q. destruct Q as [-> Q]. destruct v.
      + destruct Q as (-> & H1 & _).
        destruct (IH n b1 wd2 x1 Ed H1) as (r & Er & Q). rewrite (Hh eq_refl) in Q. eauto.
      + destruct Q as (-> & H1).
        destruct (common_failed ft m l n b1 wd2 x1 Ed H1) as (b' & -> & H').
        eexists. split; [reflexivity|]. simpl. auto.
      + subst u. eexists. split; [reflexivity|]. simpl. auto.
  Qed.

  Lemma inter_fmt_does {T} (ft : fmt_fn O D T) (m : SetStorage T) (L : it_laws (ss_Iter m))
      (x : intersection m) l w d :
    returns (fun n => inter_drain m n x) l ->
    returns (fun n => inter_fmt alternate wr o ft n x w d)
      (do_layout ft o wr (inter_layout (alternate o) l) w d).
  Proof.
    intros [n0 Y]. exists n0. intros n Hn. unfold inter_fmt, inter_layout.
    rewrite layout_many, open_text, (inter_clone_id m L). unfold di_new.
    destruct (wr w "["%string) as [w1 []]; [| |reflexivity].
    - destruct (common_sim ft m l n (MkDinner true false) (w1, d) _ (Y n Hn) eq_refl) as (r & -> & Q).
      cbn [option_map]. f_equal. rewrite close_text. cbn [di_fields] in Q.
      destruct (perform _ _ _) as [[w2 d2] v]. destruct r as [[b wd] u].
      destruct Q as [-> Q]. destruct v.
      + destruct Q as (-> & Ho & _). unfold di_finish, say. rewrite Ho. cbn.
        destruct (wr w2 "]"%string) as [w3 v3]. reflexivity.
      + destruct Q as (-> & Ho). unfold di_finish. now rewrite Ho.
      + subst u. reflexivity.
    - destruct (common_failed ft m l n (MkDinner false false) (w1, d) _ (Y n Hn) eq_refl) as (b' & -> & Ho).
      cbn [option_map]. unfold di_finish. now rewrite Ho.
  Qed.
End Builders.
