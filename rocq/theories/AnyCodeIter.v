(** The iterator structs generated for enums with tuple variants behave like
    [struct_it], if each of their fields behaves like an iterator. *)
Require Import List Arith NArith Bool String Lia.
Import ListNotations.
From Verif Require Import Std Traits OptionBucket MapStorages SetStorages Names Rust UnitCode RustFacts CodeSpec DeriveAny
  UnitCodeProofs AnyCode AnyRun AnyCodeSpec AnyCodeFacts AnyCodeKeys AnyCodeMap AnyCodeOps.
Open Scope string_scope.

Section Sims.
  Context {T : Type} {T_dec : forall a b : T, {a = b} + {a <> b}}
          {K : T -> Type} {impl : forall t, KeyImpl (K t)} {V S : Type}.
  Notation val := (val V (foreign impl V)).
  Notation rt := (rt V (foreign impl V) S).
  Notation ctl := (ctl V (foreign impl V)).
  Notation Expr := (expr (meth T)).
  Variable U : auser K V S.
  Variable flds0 : vfields T.
  Notation E := (alinked T_dec impl U flds0 (fun _ _ => [])).
  Notation ev call fuel := (eval (en_func E) (en_func2 E) (en_dropped E) (en_ext E) (en_ext_retain E) call fuel).
  Notation eva call fuel := (eval_arms (en_func E) (en_func2 E) (en_dropped E) (en_ext E) (en_ext_retain E) call fuel).

  (** Items of the model and values. *)
  Context {A : Type} (Ri : A -> val -> Prop).

  (** For every field iterator: how its states are represented, and its arms in
      [next] and [next_back]. *)
  Inductive sims : list (iterator A) -> Type :=
  | SNil : sims []
  | SCons (J : iterator A) (r : it_st J -> val -> Prop) (ff fb : Expr) (its : list (iterator A))
      (X : sims its) : sims (J :: its).

  Fixpoint srel {its} (X : sims its) : it_states its -> list val -> Prop :=
    match X in sims its return it_states its -> list val -> Prop with
    | SNil => fun _ vs => vs = []
    | SCons J r _ _ its X => fun st vs =>
        match vs with
        | v :: vs' => r (fst st) v /\ srel X (snd st) vs'
        | [] => False
        end
    end.

  Fixpoint forwards {its} (X : sims its) : list Expr :=
    match X with SNil => [] | SCons _ _ ff _ _ X => ff :: forwards X end.
  Fixpoint backwards {its} (X : sims its) : list Expr :=
    match X with SNil => [] | SCons _ _ _ fb _ X => fb :: backwards X end.

  (** An arm does nothing or returns an item. *)
  Definition arm_ctl (x : option A) (c : ctl) : Prop :=
    match x with
    | None => c = CVal VUnit
    | Some a => exists w, Ri a w /\ c = CReturn (VSome w)
    end.

  Definition arm_sound (j : nat) {St} (r : St -> val -> Prop) (step : St -> option A * St)
    (body : Expr) : Prop := forall s v, r s v ->
    exists v' c, r (snd (step s)) v' /\ arm_ctl (fst (step s)) c /\
      forall call fuel loc pre (vs vs' : list val) o e u,
        plains pre -> nth_error vs j = Some v -> put j v' vs = Some vs' ->
        ev call fuel body (MkRt loc (strct pre vs) o e u) = (c, MkRt loc (strct pre vs') o e u).

  Definition clone_sound (J : iterator A) (r : it_st J -> val -> Prop) : Prop := forall s v, r s v ->
    exists v', r (it_clone J s) v' /\ forall st : rt, clone_val impl (a_values U) v st = (CVal v', st).

  Fixpoint sound (clones : bool) (j : nat) {its} (X : sims its) : Prop :=
    match X with
    | SNil => True
    | SCons J r ff fb _ X =>
        arm_sound j r (it_next J) ff /\
        (forall b, it_back J = Some b -> arm_sound j r b fb) /\
        (clones = true -> clone_sound J r) /\
        sound clones (Datatypes.S j) X
    end.

  Lemma srel_length {its} (X : sims its) : forall st vs, srel X st vs ->
    List.length vs = List.length its.
  Proof.
    induction X as [|J r ff fb its X IH]; intros st vs H; cbn in H; [now subst|].
    destruct vs as [|v vs]; [easy|]. cbn. f_equal. now apply (IH (snd st)).
  Qed.

  Lemma forwards_length {its} (X : sims its) : List.length (forwards X) = List.length its.
  Proof. induction X; cbn; auto. Qed.
  Lemma backwards_length {its} (X : sims its) : List.length (backwards X) = List.length its.
  Proof. induction X; cbn; auto. Qed.

  (** The conclusion of the two lemmas about a step. *)
  Definition stepped {its} (X : sims its) (j n : nat) (bodies : list Expr) (vs : list val)
    (r : option (option A * it_states its)) : Prop :=
    match r with
    | None => List.length vs <= n
    | Some (x, st') =>
        exists body v v' vs' c,
          nth_error bodies n = Some body /\ nth_error vs n = Some v /\
          put n v' vs = Some vs' /\ srel X st' vs' /\ arm_ctl x c /\
          forall call fuel loc pre (ws ws' : list val) o e u,
            plains pre -> nth_error ws (j + n) = Some v -> put (j + n) v' ws = Some ws' ->
            ev call fuel body (MkRt loc (strct pre ws) o e u) =
            (c, MkRt loc (strct pre ws') o e u)
    end.

  Lemma stepped_tail J (r : it_st J -> val -> Prop) ff fb its (X : sims its) j n bodies body0 v0 vs o st0 :
    r st0 v0 ->
    stepped X (Datatypes.S j) n bodies vs o ->
    stepped (SCons J r ff fb its X) j (Datatypes.S n) (body0 :: bodies) (v0 :: vs)
      (match o with Some (x, s) => Some (x, (st0, s)) | None => None end).
  Proof.
    intros H0 H. destruct o as [[x st']|]; cbn in *; [|lia].
    destruct H as (body & v & v' & vs' & c & H1 & H2 & H3 & H4 & H5 & H6).
    exists body, v, v', (v0 :: vs')%list, c. repeat split; auto.
    - now rewrite H3.
    - intros call fuel loc pre ws ws' o e u Hp Hn Hu.
      replace (j + Datatypes.S n)%nat with (Datatypes.S j + n)%nat in Hn, Hu by lia.
      exact (H6 call fuel loc pre ws ws' o e u Hp Hn Hu).
  Qed.

  Lemma step_next_sound {its} (X : sims its) cl : forall j n st vs,
    sound cl j X -> srel X st vs -> stepped X j n (forwards X) vs (step_next its n st).
  Proof.
    induction X as [|J r ff fb its X IH]; intros j n st vs Hs Hr; cbn in Hr.
    - subst. cbn. lia.
    - destruct vs as [|v0 vs]; [easy|]. destruct Hr as [H0 Hr]. destruct Hs as (Hf & _ & _ & Hs).
      destruct n as [|n].
      + destruct (Hf _ _ H0) as (v' & c & H1 & H2 & H3). cbn [step_next forwards].
        destruct (it_next J (fst st)) as [x s']. cbn [fst snd] in *.
        exists ff, v0, v', (v' :: vs)%list, c. repeat split; auto.
        intros. replace (j + 0)%nat with j in * by lia. now apply (H3 call fuel loc pre ws ws' o e u).
      + cbn [step_next forwards]. apply stepped_tail with (1 := H0). now apply IH.
  Qed.

  Lemma step_back_sound {its} (X : sims its) cl : forall bs j n st vs,
    all_backs its = Some bs -> sound cl j X -> srel X st vs ->
    stepped X j n (backwards X) vs (step_back its n bs st).
  Proof.
    induction X as [|J r ff fb its X IH]; intros bs j n st vs Hb Hs Hr; cbn in Hr.
    - subst. cbn. lia.
    - destruct vs as [|v0 vs]; [easy|]. destruct Hr as [H0 Hr]. destruct Hs as (_ & Hf & _ & Hs).
      cbn [all_backs] in Hb. destruct (it_back J) as [b|]; [|discriminate].
      destruct (all_backs its) as [bs'|]; [|discriminate]. injection Hb as <-.
      destruct n as [|n].
      + destruct (Hf _ eq_refl _ _ H0) as (v' & c & H1 & H2 & H3). cbn [step_back backwards fst].
        destruct (b (fst st)) as [x s']. cbn [fst snd] in *.
        exists fb, v0, v', (v' :: vs)%list, c. repeat split; auto.
        intros. replace (j + 0)%nat with j in * by lia. now apply (H3 call fuel loc pre ws ws' o e u).
      + cbn [step_back backwards]. apply stepped_tail with (1 := H0). now apply IH.
  Qed.

  (** The [match] on the number of a field. *)
  Fixpoint numbered_arms (i : nat) (l : list Expr) : list (pat * Expr) :=
    match l with [] => [] | e :: r => (PNum i, e) :: numbered_arms (Datatypes.S i) r end.

  Lemma eva_num call fuel l : forall i n st,
    eva call fuel (arms_of (numbered_arms i l ++ [(PWild, EBreak)])%list) (VUsize (i + n)) st =
    match nth_error l n with Some e => ev call fuel e st | None => (CBreak, st) end.
  Proof.
    induction l as [|e r IH]; intros i n st; cbn [numbered_arms app arms_of].
    - rewrite eva_cons. cbn [match_pat]. rewrite scoped_nil. now destruct n.
    - rewrite eva_cons. cbn [match_pat]. destruct n as [|n].
      + rewrite Nat.add_0_r, Nat.eqb_refl, scoped_nil. reflexivity.
      + destruct (Nat.eqb_spec i (i + Datatypes.S n)); [lia|].
        cbn [nth_error]. replace (i + Datatypes.S n)%nat with (Datatypes.S i + n)%nat by lia. apply IH.
  Qed.

  (** The iterator structs. *)
  Definition istruct (a b : nat) (vs : list val) : val :=
    strct [("start", VUsize a); ("end", VUsize b)] vs.

  Lemma istruct_plains a b : plains (A := val) [("start", VUsize a); ("end", VUsize b)].
  Proof. repeat constructor. Qed.

  Definition irel {its} (X : sims its) (st : it_st (struct_it its)) (v : val) : Prop :=
    exists vs, v = istruct (fst (fst st)) (snd (fst st)) vs /\ srel X (snd st) vs /\
      (snd (fst st) <= List.length its)%nat.

  (** What a loop ends with. *)
  Definition looped {its} (X : sims its) (loc : list (string * val)) o e u
    (r : option A * it_st (struct_it its)) (res : ctl * rt) : Prop :=
    exists c v, arm_ctl (fst r) c /\ irel X (snd r) v /\ res = (c, MkRt loc v o e u).

  Section Loops.
    Variable fw bw : arms (meth T).
    Variable its : list (iterator A).
    Variable X : sims its.
    Variable cl : bool.
    Hypothesis ok : sound cl 0 X.
    Hypothesis fw_is : fw = arms_of (numbered_arms 0 (forwards X) ++ [(PWild, EBreak)])%list.
    Hypothesis bw_is : bw = arms_of (numbered_arms 0 (backwards X) ++ [(PWild, EBreak)])%list.
    Variable call : string -> list val -> rt -> ctl * rt.
    Variable fuel : nat.

    Let cond : Expr := call2 Lt (EField BSelf "start") (EField BSelf "end").
    Let fbody : Expr := ESeq (EMatch (EField BSelf "start") fw)
            (EAssignTo (ERefTo BSelf "start")
               (call2 Min (call2 WrappingAdd (EField BSelf "start") (EUsize 1)) (EField BSelf "end"))).
    Let bbody : Expr := ELet "next" (call2 WrappingSub (EField BSelf "end") (EUsize 1))
        (ESeq (EMatch (EVar "next") bw)
              (EAssignTo (ERefTo BSelf "end") (call2 Max (EVar "next") (EField BSelf "start")))).

    Lemma ev_cond loc a b vs o e u :
      ev call fuel cond (MkRt loc (istruct a b vs) o e u) =
      (CVal (VBool (Nat.ltb a b)), MkRt loc (istruct a b vs) o e u).
    Proof. reflexivity. Qed.

    Lemma ev_set_start loc a b vs o e u :
      ev call fuel (EAssignTo (ERefTo BSelf "start")
               (call2 Min (call2 WrappingAdd (EField BSelf "start") (EUsize 1)) (EField BSelf "end")))
         (MkRt loc (istruct a b vs) o e u) =
      (CVal VUnit, MkRt loc (istruct (Nat.min (a + 1) b) b vs) o e u).
    Proof. reflexivity. Qed.

    Lemma ev_set_end loc n a b vs o e u :
      ev call fuel (EAssignTo (ERefTo BSelf "end") (call2 Max (EVar "next") (EField BSelf "start")))
         (MkRt (("next", VUsize n) :: loc) (istruct a b vs) o e u) =
      (CVal VUnit, MkRt (("next", VUsize n) :: loc) (istruct a (Nat.max n a) vs) o e u).
    Proof. reflexivity. Qed.

    Lemma loop_next_sound : forall n m a b st vs loc o e u,
      (b - a <= n)%nat -> (b - a < m)%nat -> (b <= List.length its)%nat -> srel X st vs ->
      looped X loc o e u (loop_next its n a b st)
        (while_loop m (ev call fuel cond) (ev call fuel fbody) (MkRt loc (istruct a b vs) o e u)).
    Proof.
      induction n as [|n IH]; intros m a b st vs loc o e u Hn Hm Hb Hr;
        (destruct m as [|m]; [lia|]); cbn [while_loop loop_next]; rewrite ev_cond; cbn [andthen].
      - destruct (Nat.ltb_spec a b); [lia|]. exists (CVal VUnit), (istruct a b vs).
        repeat split. exists vs. now repeat split.
      - destruct (Nat.ltb_spec a b) as [Hab|Hab].
        2:{ exists (CVal VUnit), (istruct a b vs). repeat split. exists vs. now repeat split. }
        pose proof (step_next_sound X cl 0 a st vs ok Hr) as St.
        unfold fbody at 1. rewrite ev_seq, ev_match.
        change (ev call fuel (EField BSelf "start") (MkRt loc (istruct a b vs) o e u)) with
          (CVal (VUsize a : val), MkRt loc (istruct a b vs) o e u). cbn [andthen].
        rewrite fw_is. rewrite (eva_num call fuel (forwards X) 0 a).
        destruct (step_next its a st) as [[x st']|]; cbn [stepped] in St.
        + destruct St as (body & v & v' & vs' & c & H1 & H2 & H3 & H4 & H5 & H6).
          rewrite H1. unfold istruct at 1.
          rewrite (H6 call fuel loc _ vs vs' o e u (istruct_plains a b) H2 H3).
          destruct x as [y|]; cbn [arm_ctl] in H5.
          * destruct H5 as (w & Hw & ->). cbn [andthen].
            exists (CReturn (VSome w)), (istruct a b vs'). split; [exists w; auto|].
            split; [|reflexivity]. exists vs'. now repeat split.
          * subst c. cbn [andthen]. fold (istruct a b vs'). rewrite ev_set_start.
            apply IH; auto; lia.
        + exists (CVal VUnit), (istruct a b vs).
          rewrite (proj2 (nth_error_None (forwards X) a)) by
            (rewrite forwards_length, <- (srel_length X st vs); auto).
          repeat split. exists vs. now repeat split.
    Qed.

    Lemma loop_back_sound bs : all_backs its = Some bs -> forall n m a b st vs loc o e u,
      (b - a <= n)%nat -> (b - a < m)%nat -> (b <= List.length its)%nat -> srel X st vs ->
      looped X loc o e u (loop_back its bs n a b st)
        (while_loop m (ev call fuel cond) (ev call fuel bbody) (MkRt loc (istruct a b vs) o e u)).
    Proof.
      intros Hbs. induction n as [|n IH]; intros m a b st vs loc o e u Hn Hm Hb Hr;
        (destruct m as [|m]; [lia|]); cbn [while_loop loop_back]; rewrite ev_cond; cbn [andthen].
      - destruct (Nat.ltb_spec a b); [lia|]. exists (CVal VUnit), (istruct a b vs).
        repeat split. exists vs. now repeat split.
      - destruct (Nat.ltb_spec a b) as [Hab|Hab].
        2:{ exists (CVal VUnit), (istruct a b vs). repeat split. exists vs. now repeat split. }
        pose proof (step_back_sound X cl bs 0 (b - 1) st vs Hbs ok Hr) as St.
        unfold bbody at 1. rewrite ev_let.
        assert (G : ev call fuel (call2 WrappingSub (EField BSelf "end") (EUsize 1))
            (MkRt loc (istruct a b vs) o e u) =
          (CVal (VUsize (b - 1) : val), MkRt loc (istruct a b vs) o e u)).
        { destruct b as [|b]; [lia|]. reflexivity. }
        rewrite G. clear G. cbn [andthen]. unfold scoped. rewrite with_loc_mk.
        cbn [app rt_loc]. rewrite ev_seq, ev_match, ev_var.
        cbn [andthen answer_of rt_loc lookup String.eqb Ascii.eqb Bool.eqb].
        rewrite bw_is. pose proof (eva_num call fuel (backwards X) 0 (b - 1)) as EN. cbn [Nat.add] in EN.
        rewrite EN. clear EN.
        destruct (step_back its (b - 1) bs st) as [[x st']|]; cbn [stepped] in St.
        + destruct St as (body & v & v' & vs' & c & H1 & H2 & H3 & H4 & H5 & H6).
          rewrite H1. unfold istruct at 1.
          rewrite (H6 call fuel _ _ vs vs' o e u (istruct_plains a b) H2 H3).
          destruct x as [y|]; cbn [arm_ctl] in H5.
          * destruct H5 as (w & Hw & ->). cbn [andthen].
            exists (CReturn (VSome w)), (istruct a b vs'). split; [exists w; auto|].
            split; [|reflexivity]. exists vs'. now repeat split.
          * subst c. cbn [andthen]. fold (istruct a b vs'). rewrite ev_set_end.
            rewrite with_loc_mk. cbn [rt_loc List.skipn List.length].
            apply IH; auto; lia.
        + exists (CVal VUnit), (istruct a b vs).
          rewrite (proj2 (nth_error_None (backwards X) (b - 1))) by
            (rewrite backwards_length, <- (srel_length X st vs); auto).
          repeat split. exists vs. now repeat split.
    Qed.
  End Loops.

  Definition item_rel (x : option A) (w : val) : Prop :=
    match x with
    | None => w = VNone
    | Some a => exists y, Ri a y /\ w = VSome y
    end.

  Lemma evl_clone_sound {its} (X : sims its) : forall j st vs, sound true j X -> srel X st vs ->
    exists vs', srel X (clone_states its st) vs' /\
      forall call fuel acc k loc pre (pvs : list val) o e u,
        plains pre -> List.length pvs = j ->
        eval_list (en_func E) (en_func2 E) (en_dropped E) (en_ext E) (en_ext_retain E) call fuel
          (xs_of (List.map (fun f => ext MClone [ERefTo BSelf f])
             (List.map field_name (List.seq j (List.length its))))) acc k
          (MkRt loc (strct pre (pvs ++ vs)%list) o e u) =
        k (List.rev acc ++ vs')%list (MkRt loc (strct pre (pvs ++ vs)%list) o e u).
  Proof.
    induction X as [|J r ff fb its X IH]; intros j st vs Hs Hr; cbn in Hr.
    - subst vs. exists []. split; [reflexivity|]. intros. 
      change (k (List.rev acc) (MkRt loc (strct pre (pvs ++ [])%list) o e u) =
              k (List.rev acc ++ [])%list (MkRt loc (strct pre (pvs ++ [])%list) o e u)).
      now rewrite (app_nil_r (List.rev acc)).
    - destruct vs as [|v vs]; [easy|]. destruct Hr as [H0 Hr]. destruct Hs as (_ & _ & Hc & Hs).
      destruct (Hc eq_refl _ _ H0) as (v' & H1 & H2).
      destruct (IH (Datatypes.S j) (snd st) vs Hs Hr) as (vs' & H3 & H4).
      exists (v' :: vs')%list. split; [now split|]. intros call fuel acc k loc pre pvs o e u Hp Hj.
      cbn [List.length List.seq List.map xs_of]. rewrite evl_cons, ev_ext1, ev_refto.
      cbn [andthen ext_call]. fold (field j). rewrite read_field by exact Hp.
      subst j. rewrite nth_app, H2. cbn [andthen].
      rewrite <- snoc_app. rewrite H4; [|exact Hp|apply snoc_len].
      cbn [List.rev]. now rewrite snoc_app.
  Qed.

  (** ** The methods of the iterator structs *)
  Section Methods.
    Variable q : ikind.
    Variable its : list (iterator A).
    Variable X : sims its.
    Hypothesis ok : sound (clonable q) 0 X.
    Hypothesis fw_is : iter_arms MNext q flds0 =
      arms_of (numbered_arms 0 (forwards X) ++ [(PWild, EBreak)])%list.
    Hypothesis bw_is : iter_arms MNextBack q flds0 =
      arms_of (numbered_arms 0 (backwards X) ++ [(PWild, EBreak)])%list.
    Hypothesis len : List.length its = List.length flds0.
    Notation C := (iter_code q flds0).
    Notation In := (struct_it its).

    Lemma looped_out loc o e u r res : looped X loc o e u r res ->
      exists w v, out (as_body (andthen res (fun _ st => (CVal VNone, st)))) = (CVal w, v, u) /\
        item_rel (fst r) w /\ irel X (snd r) v.
    Proof.
      intros (c & v & H1 & H2 & ->). destruct (fst r) as [a|]; cbn in H1.
      - destruct H1 as (w & Hw & ->). exists (VSome w), v. repeat split; auto. exists w; auto.
      - subst c. now exists VNone, v.
    Qed.

    Lemma next_sound st v s : irel X st v ->
      exists w v', invoke E C "next" [] v VUnit s = (CVal w, v', s) /\
        item_rel (fst (it_next In st)) w /\ irel X (snd (it_next In st)) v'.
    Proof.
      destruct st as [[a b] st]. intros (vs & -> & Hr & Hb). cbn [fst snd] in *.
      erewrite invoke_eq by reflexivity. unfold eval_in. rewrite ev_seq.
      change (eval (en_func E) (en_func2 E) (en_dropped E) (en_ext E) (en_ext_retain E)
        (by_name (eval (en_func E) (en_func2 E) (en_dropped E) (en_ext E) (en_ext_retain E)
           (fun _ _ st => (CStuck, st)) (en_fuel E)) (cd_helpers C)) (en_fuel E) ENone) with
        (fun st : rt => (CVal (VNone : val), st)). cbn [it_next struct_it].
      apply (looped_out [] VUnit VUnit s).
      unfold step_forward. rewrite ev_while. 
      apply (loop_next_sound _ its X (clonable q) ok fw_is); auto; [lia|].
      change (en_fuel E) with (Datatypes.S (List.length flds0)). lia.
    Qed.

    Lemma next_back_sound st v s b : it_back In = Some b -> irel X st v ->
      exists w v', invoke E C "next_back" [] v VUnit s = (CVal w, v', s) /\
        item_rel (fst (b st)) w /\ irel X (snd (b st)) v'.
    Proof.
      intros Hbk. cbn [it_back struct_it] in Hbk.
      destruct (all_backs its) as [bs|] eqn:Eb; [|discriminate]. injection Hbk as <-.
      destruct st as [[a b] st]. intros (vs & -> & Hr & Hb). cbn [fst snd] in *.
      erewrite invoke_eq by reflexivity. unfold eval_in. rewrite ev_seq.
      change (eval (en_func E) (en_func2 E) (en_dropped E) (en_ext E) (en_ext_retain E)
        (by_name (eval (en_func E) (en_func2 E) (en_dropped E) (en_ext E) (en_ext_retain E)
           (fun _ _ st => (CStuck, st)) (en_fuel E)) (cd_helpers C)) (en_fuel E) ENone) with
        (fun st : rt => (CVal (VNone : val), st)).
      apply (looped_out [] VUnit VUnit s).
      unfold step_backward. rewrite ev_while. 
      apply (loop_back_sound _ its X (clonable q) ok bw_is _ _ bs Eb); auto; [lia|].
      change (en_fuel E) with (Datatypes.S (List.length flds0)). lia.
    Qed.

    Lemma clone_it_sound st v s : clonable q = true -> irel X st v ->
      exists v', invoke E C "clone" [] v VUnit s = (CVal v', v, s) /\
        irel X (it_clone In st) v'.
    Proof.
      intros Hc. destruct st as [[a b] st]. intros (vs & -> & Hr & Hb). cbn [fst snd] in *.
      pose proof ok as ok'. rewrite Hc in ok'.
      destruct (evl_clone_sound X 0 st vs ok' Hr) as (vs' & H1 & H2).
      exists (istruct a b vs'). split; [|exists vs'; now repeat split].
      erewrite invoke_eq;
        [|destruct q; try discriminate Hc; reflexivity|reflexivity].
      unfold eval_in. rewrite ev_struct. cbn [xs_of]. rewrite !evl_cons, ev_field.
      change (read (MkRt (List.combine [] []) (istruct a b vs) VUnit VUnit s)
        (MkPlace BSelf [SField "start"])) with (Some (VUsize a : val)).
      cbn [answer_of andthen]. rewrite evl_cons, ev_field.
      change (read (MkRt (List.combine [] []) (istruct a b vs) VUnit VUnit s)
        (MkPlace BSelf [SField "end"])) with (Some (VUsize b : val)).
      cbn [answer_of andthen]. change (anames flds0) with (List.map field_name (List.seq 0 (List.length flds0))).
      rewrite <- len.
      pose proof (fun call fuel acc k loc o e u =>
        H2 call fuel acc k loc _ [] o e u (istruct_plains a b) eq_refl) as H3.
      cbn [app] in H3. unfold istruct at 1. rewrite H3.
      cbn [List.rev app List.length]. rewrite map_length, seq_length.
      rewrite (srel_length X _ _ H1), Nat.eqb_refl. cbn [List.combine].
      unfold istruct, strct, numbered. rewrite (srel_length X _ _ H1), len. reflexivity.
    Qed.

    Hypothesis rev_is : reversible impl (V := V) flds0 q = is_some (it_back In).

    Lemma turns_sound l : forall st v s, irel X st v ->
      exists vs, run_turns T_dec impl U flds0 q l v s = Some (vs, s) /\
        Forall2 item_rel (take_turns In (clonable q) l st) vs.
    Proof.
      induction l as [|[] l IH]; intros st v s H; cbn [run_turns take_turns].
      - exists []. now split.
      - destruct (next_sound st v s H) as (w & v' & -> & H1 & H2).
        destruct (IH _ _ s H2) as (vs & -> & H3). exists (w :: vs)%list. split; [reflexivity|].
        destruct (it_next In st) as [x it']. now constructor.
      - rewrite rev_is. destruct (it_back In) as [b|] eqn:Eb; cbn [is_some]; [|now apply IH].
        destruct (next_back_sound st v s b Eb H) as (w & v' & -> & H1 & H2).
        destruct (IH _ _ s H2) as (vs & -> & H3). exists (w :: vs)%list. split; [reflexivity|].
        destruct (b st) as [x it']. now constructor.
      - assert (Ec : clonable q = true \/ clonable q = false) by (destruct (clonable q); auto).
        destruct Ec as [Ec|Ec]; rewrite Ec in IH |- *; [|now apply IH].
        destruct (clone_it_sound st v s Ec H) as (v' & -> & H1). now apply IH.
    Qed.
  End Methods.
End Sims.
