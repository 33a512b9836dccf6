(** Proofs about [AttrRun]. *)
Require Import List Arith NArith Bool String Lia.
Import ListNotations.
From Verif Require Import Std Traits DeriveUnit Key Front DeriveQuote.
From Verif Require Import SrcLex SrcParse SrcFiles AttrRun.
Open Scope string_scope.

(** What the error of the items of one attribute should be: that of the first item that is
    not a plain [bitset] (attrs.rs:13-21). *)
Fixpoint items_errors (l : list titem) : list terr :=
  match l with
  | [] => []
  | MkItem None _ :: _ => [ESyn]
  | MkItem (Some x) tail :: r =>
      if String.eqb x "bitset" then if tail then [ESyn] else items_errors r
      else [EMsg "Unsupported attribute"]
  end.
(** The errors of an attribute (attrs.rs:8-25). *)
Definition attr_errors (a : tattr) : list terr :=
  if String.eqb (ta_path a) "key" then
    match ta_items a with Some l => items_errors l | None => [ESyn] end
  else [].
(** Whether an attribute asks for a bitset: its first item is [bitset] (attrs.rs:14). *)
Definition asks_bitset (a : tattr) : bool :=
  String.eqb (ta_path a) "key" &&
  match ta_items a with Some (MkItem (Some x) _ :: _) => String.eqb x "bitset" | _ => false end.

(** Text-level attributes as the model of [Front] sees them (attrs.rs:8-21). *)
Definition seen_item (t : titem) : Front.item :=
  match t with
  | MkItem None _ => IBadPath
  | MkItem (Some x) tail => if String.eqb x "bitset" then IBitset tail else IOther
  end.
(** See [seen_item] (attrs.rs:8-21). *)
Definition seen_attr (a : tattr) : attr :=
  if String.eqb (ta_path a) "key" then
    match ta_items a with Some l => AttrKey (List.map seen_item l) | None => AttrKeyBare end
  else AttrOther.
(** See [seen_item] (attrs.rs:8-21). *)
Definition seen (i : tinput) : input := MkInput (List.map seen_attr (tn_attrs i)) (tn_data i).
(** The errors of the model for those of the text (attrs.rs:17, 24, lib.rs:60). *)
Definition seen_error (e : terr) : error :=
  match e with
  | ESyn => ErrAttr
  | EMsg x => if String.eqb x "named fields are not supported" then ErrNotEnum else ErrAttr
  | EGen e => e
  end.
(** See [seen_error] (lib.rs:39-48). *)
Definition seen_made (m : made) : expansion :=
  match m with
  | MadeCode t => ExpTokens t
  | MadeErrors l => ExpErrors (List.map seen_error l)
  | MadePanic => ExpPanic
  end.

Definition items_v : list item := Eval vm_compute in front_items.
Definition body_of (x : string) : expr :=
  match front_fn x items_v with Some (_, b) => b | None => EBlock [] end.
Definition parse_v : expr := Eval vm_compute in body_of "parse".
Definition impl_v : expr := Eval vm_compute in body_of "impl_storage".
Definition unit_v : expr := Eval vm_compute in body_of "is_all_unit_variants".
Definition rest_v : expr := Eval vm_compute in body_of "rest".

Lemma fn_parse : front_fn "parse" front_items = Some ([PName "cx"], parse_v).
Proof. vm_compute. reflexivity. Qed.
Lemma fn_impl : front_fn "impl_storage" front_items = Some ([PName "cx"], impl_v).
Proof. vm_compute. reflexivity. Qed.
Lemma fn_unit : front_fn "is_all_unit_variants" front_items = Some ([PName "en"], unit_v).
Proof. vm_compute. reflexivity. Qed.
Lemma fn_rest : front_fn "rest" front_items = Some ([PName "cx"], rest_v).
Proof. vm_compute. reflexivity. Qed.
Lemma symbol_key : symbol "KEY" = Some "key".
Proof. vm_compute. reflexivity. Qed.
Lemma symbol_bitset : symbol "BITSET" = Some "bitset".
Proof. vm_compute. reflexivity. Qed.

Definition good (e : vars) (b : bool) : Prop :=
  find "cx" e = Some FCx /\ find "opts" e = Some (FOpts b).

Definition first_bitset (l : list titem) : bool :=
  match l with MkItem (Some x) _ :: _ => String.eqb x "bitset" | _ => false end.

Lemma nested_ok : forall call,
  (forall x e s b, good e b ->
     if String.eqb x "bitset" then exists e', call (FMeta x) e s = (Val (FOk FUnit), e', s) /\ good e' true
     else exists e', call (FMeta x) e s = (Ret (FErr (FError (EMsg "Unsupported attribute"))), e', s) /\ good e' b) ->
  forall l e s b, good e b ->
  exists e', nested call l e s =
    (Val (match items_errors l with [] => FOk FUnit | x :: _ => FErr (FError x) end), e', s)
    /\ good e' (b || first_bitset l) /\ (List.length (items_errors l) <= 1).
Proof.
  intros call H. induction l as [|[[x|] t] r IH]; intros e s b G; cbn.
  - exists e. rewrite orb_false_r. auto.
  - specialize (H x e s b G). destruct (String.eqb x "bitset") eqn:E; destruct H as (e' & H & G');
      rewrite H; destruct t; rewrite ?orb_true_r, ?orb_false_r.
    + exists e'. auto.
    + destruct (IH e' s true G') as (e2 & A & B & C). exists e2. auto.
    + exists e'. auto.
    + exists e'. auto.
  - exists e. rewrite orb_false_r. auto.
Qed.

Lemma each_attr : forall body,
  (forall a e s b, good e b -> exists o e',
     body (FAttr a) e s = (o, e', (s ++ attr_errors a)%list) /\ (o = Val FUnit \/ o = Next) /\ good e' (b || asks_bitset a)) ->
  forall l e s b, good e b ->
  exists e', each_of body (List.map FAttr l) e s = (Val FUnit, e', (s ++ flat_map attr_errors l)%list)
    /\ good e' (b || existsb asks_bitset l).
Proof.
  intros body H. induction l as [|a r IH]; intros e s b G; cbn.
  - exists e. rewrite orb_false_r, app_nil_r. auto.
  - destruct (H a e s b G) as (o & e' & A & B & C). rewrite A.
    destruct (IH e' (s ++ attr_errors a)%list _ C) as (e2 & D & E).
    exists e2. rewrite orb_assoc, app_assoc. destruct B; subst o; auto.
Qed.

Lemma parse_ok : forall n i p s, exists e',
  eval (20 + n) i p [("cx", FCx)] s parse_v =
  (Val (FOk (FOpts (existsb asks_bitset (tn_attrs i)))), e', (s ++ flat_map attr_errors (tn_attrs i))%list).
Proof.
  intros. unfold parse_v. cbn -[symbol front_fn each_of nested].
  rewrite symbol_key, symbol_bitset.
  match goal with |- context [each_of ?f _ _ _] => pose proof (each_attr f) as L end.
  lapply L; clear L.
  - intros L. destruct (L (tn_attrs i) [("opts", FOpts false); ("cx", FCx)] s false) as (e' & A & B & C).
    { split; reflexivity. }
    rewrite A. rewrite C. cbn. eexists. reflexivity.
  - intros a e s0 b [G1 G2]. unfold attr_errors, asks_bitset.
    destruct (String.eqb (ta_path a) "key") eqn:E; cbn -[nested]; rewrite ?E; cbn -[nested].
    + destruct (ta_items a) as [l|] eqn:I.
      * match goal with |- context [nested ?f _ _ _] => pose proof (nested_ok f) as L end.
        lapply L; clear L.
        -- intros L. destruct (L l (("attr", FAttr a) :: e) s0 b) as (e' & A & [B1 B2] & C).
           { split; cbn; assumption. }
           rewrite A. destruct (items_errors l) as [|x [|? ?]] eqn:J; [| |cbn in C; lia]; cbn.
           ++ eexists _, _. split; [rewrite app_nil_r; reflexivity|]. split; [left; reflexivity|].
              split; cbn; [exact B1|]. rewrite B2. reflexivity.
           ++ rewrite B1. eexists _, _. split; [reflexivity|]. split; [left; reflexivity|].
              split; cbn; [exact B1|]. rewrite B2. reflexivity.
        -- clear. intros x e s b [G1 G2]. cbn. destruct (String.eqb x "bitset"); cbn.
           ++ rewrite G2. cbn. eexists. split; [reflexivity|]. split; cbn; auto.
           ++ eexists. split; [reflexivity|]. split; cbn; auto.
      * cbn. rewrite G1. eexists _, _. split; [reflexivity|]. split; [left; reflexivity|].
        rewrite orb_false_r. split; cbn; auto.
    + eexists _, _. split; [rewrite app_nil_r; reflexivity|]. split; [right; reflexivity|].
      rewrite orb_false_r. split; cbn; auto.
Qed.

Lemma unit_ok : forall n i p s vs, exists o e',
  eval (20 + n) i p [("en", FEnum vs)] s unit_v = (o, e', s)
  /\ (o = Val (FBool (is_all_unit_variants vs)) \/ o = Ret (FBool (is_all_unit_variants vs))).
Proof.
  intros. unfold unit_v. cbn -[symbol front_fn each_of].
  match goal with |- context [each_of ?f _ _ _] => set (body := f) end.
  assert (H : forall e, exists e', each_of body (List.map FVariant vs) e s =
    (if is_all_unit_variants vs then Val FUnit else Ret (FBool false), e', s)).
  { induction vs as [|[|?|] r IH]; intros e; cbn; eauto. }
  destruct (H [("en", FEnum vs)]) as (e' & A). rewrite A.
  destruct (is_all_unit_variants vs); cbn; eauto 6.
Qed.

Lemma parse_text_ok : forall i,
  parse_text i = Some (existsb asks_bitset (tn_attrs i), flat_map attr_errors (tn_attrs i)).
Proof.
  intros. unfold parse_text, front_call. rewrite fn_parse.
  destruct (parse_ok 20 i front_items []) as (e' & A).
  change (20 + 20) with 40 in A. rewrite A. reflexivity.
Qed.

(** What [impl_storage] should do: the generator for the variants, or an error. *)
Definition generator (i : tinput) : gen * list error :=
  match tn_data i with
  | DataEnum vs =>
      if is_all_unit_variants vs then unit_implement (existsb asks_bitset (tn_attrs i)) vs []
      else any_implement vs []
  | _ => (GenErr, [])
  end.
Definition not_enum (i : tinput) : list terr :=
  match tn_data i with DataEnum _ => [] | _ => [EMsg "named fields are not supported"] end.

Lemma parse_ok' : forall m i p s, 20 <= m -> exists e',
  eval m i p [("cx", FCx)] s parse_v =
  (Val (FOk (FOpts (existsb asks_bitset (tn_attrs i)))), e', (s ++ flat_map attr_errors (tn_attrs i))%list).
Proof. intros m i p s H. replace m with (20 + (m - 20)) by lia. apply parse_ok. Qed.
Lemma unit_ok' : forall m i p s vs, 20 <= m -> exists o e',
  eval m i p [("en", FEnum vs)] s unit_v = (o, e', s)
  /\ (o = Val (FBool (is_all_unit_variants vs)) \/ o = Ret (FBool (is_all_unit_variants vs))).
Proof. intros m i p s vs H. replace m with (20 + (m - 20)) by lia. apply unit_ok. Qed.

Lemma let_is : forall n i p e s y x r,
  eval (S n) i p e s (EBlock (SLet (PName y) x :: r)) =
  match eval n i p e s x with (Val v, e, s) => eval (S n) i p ((y, v) :: e) s (EBlock r) | o => o end.
Proof. reflexivity. Qed.
Lemma tail_is : forall n i p e s x, eval (S n) i p e s (EBlock [STail x]) = eval n i p e s x.
Proof. reflexivity. Qed.
Lemma iflet_is : forall n i p e s y c a b,
  eval (S n) i p e s (EIfLet (PCtor ["Data"; "Enum"] [PName y]) c a b) =
  match eval n i p e s c with
  | (Val v, e, s) =>
      match v with
      | FData (DataEnum vs) => eval n i p ((y, FEnum vs) :: e) s a
      | FData _ => eval n i p e s b
      | _ => (Stuck, e, s)
      end
  | o => o
  end.
Proof. reflexivity. Qed.
Definition called (n : nat) (i : tinput) (p : list item) (g : string) (v : fv) (e : vars) (s : list terr) : ended :=
  match front_fn g p with
  | Some ([PName y], b) =>
      match eval n i p [(y, v)] s b with
      | (Val v, _, s) | (Ret v, _, s) => (Val v, e, s)
      | (Dead, _, s) => (Dead, e, s)
      | (_, _, s) => (Stuck, e, s)
      end
  | _ => (Stuck, e, s)
  end.
Lemma call_parse : forall n i p e s x,
  eval (S n) i p e s (ECall (EPath ["attrs"; "parse"]) [x]) =
  match eval n i p e s x with (Val v, e, s) => called n i p "parse" v e s | o => o end.
Proof. reflexivity. Qed.
Lemma call_unit : forall n i p e s x,
  eval (S n) i p e s (ECall (EPath ["is_all_unit_variants"]) [x]) =
  match eval n i p e s x with (Val v, e, s) => called n i p "is_all_unit_variants" v e s | o => o end.
Proof. reflexivity. Qed.
Lemma call_impl : forall n i p e s x,
  eval (S n) i p e s (ECall (EPath ["impl_storage"]) [x]) =
  match eval n i p e s x with (Val v, e, s) => called n i p "impl_storage" v e s | o => o end.
Proof. reflexivity. Qed.
Lemma question_is : forall n i p e s x,
  eval (S n) i p e s (EQuestion x) =
  match eval n i p e s x with
  | (Val v, e, s) =>
      match v with FOk w => (Val w, e, s) | FErr w => (Ret (FErr w), e, s) | _ => (Stuck, e, s) end
  | o => o
  end.
Proof. reflexivity. Qed.
Lemma if_is : forall n i p e s c a b,
  eval (S n) i p e s (EIf c a b) =
  match eval n i p e s c with
  | (Val v, e, s) =>
      match v with
      | FBool true => eval n i p e s a
      | FBool false => eval n i p e s b
      | _ => (Stuck, e, s)
      end
  | o => o
  end.
Proof. reflexivity. Qed.

Lemma impl_ok : forall n i s, exists e',
  eval (28 + n) i front_items [("cx", FCx)] s impl_v =
  (match fst (generator i) with
   | GenOk t => Val (FOk (FGen t)) | GenErr => Val (FErr FUnit) | GenPanic => Dead end, e',
   (s ++ flat_map attr_errors (tn_attrs i) ++ List.map EGen (snd (generator i)) ++ not_enum i)%list).
Proof.
  intros. generalize fn_parse, fn_unit. generalize front_items as p. intros p P U.
  change (28 + n) with (8 + (20 + n)). pose proof (Nat.le_add_r 20 n) as K.
  remember (20 + n) as k. clear Heqk n.
  unfold generator, not_enum, impl_v. change (8 + k) with (S (7 + k)). rewrite let_is.
  match goal with |- context [eval (7 + k) i p ?e s ?x] =>
    assert (A : eval (7 + k) i p e s x =
      (Val (FOpts (existsb asks_bitset (tn_attrs i))), e, (s ++ flat_map attr_errors (tn_attrs i))%list)) end.
  { change (7 + k) with (S (S (S (4 + k)))). rewrite question_is, call_parse.
    replace (eval (S (4 + k)) i p [("cx", FCx)] s (EPath ["cx"])) with (Val FCx, [("cx", FCx)], s) by reflexivity.
    cbv beta iota. unfold called. rewrite P. cbv beta iota.
    match goal with |- context [eval ?m i p _ s parse_v] =>
      destruct (parse_ok' m i p s) as (e1 & A); [lia|]; rewrite A end. reflexivity. }
  rewrite A. clear A P. cbv beta iota zeta. rewrite tail_is. change (7 + k) with (S (6 + k)). rewrite iflet_is.
  match goal with |- context [eval ?m i p ?e ?t ?x] =>
    replace (eval m i p e t x) with (Val (FData (tn_data i)), e, t) by reflexivity end.
  cbv beta iota zeta. remember (s ++ flat_map attr_errors (tn_attrs i))%list as t.
  rewrite app_assoc, <- Heqt. clear Heqt.
  destruct (tn_data i) as [vs| |].
  - change (6 + k) with (S (5 + k)). rewrite tail_is.
    change (5 + k) with (S (4 + k)). rewrite if_is.
    match goal with |- context [eval (4 + k) i p ?e t (ECall (EPath ["is_all_unit_variants"]) ?x)] =>
      assert (A : eval (4 + k) i p e t (ECall (EPath ["is_all_unit_variants"]) x) =
        (Val (FBool (is_all_unit_variants vs)), e, t)) end.
    { change (4 + k) with (S (S (2 + k))). rewrite call_unit.
      match goal with |- context [eval ?m i p ?e ?t (EPath ["en"])] =>
        replace (eval m i p e t (EPath ["en"])) with (Val (FEnum vs), e, t) by reflexivity end.
      cbv beta iota. unfold called. rewrite U. cbv beta iota.
      match goal with |- context [eval ?m i p _ ?t unit_v] =>
        destruct (unit_ok' m i p t vs) as (o & e2 & A & B); [lia|]; rewrite A end.
      destruct B as [->| ->]; reflexivity. }
    rewrite A. clear A U. cbv beta iota zeta.
    destruct (is_all_unit_variants vs); rewrite app_nil_r.
    + destruct (unit_implement (existsb asks_bitset (tn_attrs i)) vs []) as [g l] eqn:G.
      eexists. destruct k as [|[|k]]; [lia|lia|]. cbn -[unit_implement].
      rewrite G. destruct g; reflexivity.
    + destruct (any_implement vs []) as [g l] eqn:G.
      eexists. destruct k as [|[|k]]; [lia|lia|]. cbn -[any_implement].
      rewrite G. destruct g; reflexivity.
  - eexists. destruct k as [|[|k]]; [lia|lia|]. reflexivity.
  - eexists. destruct k as [|[|k]]; [lia|lia|]. reflexivity.
Qed.

(** The expansion, from the errors of the attributes and from what the generator says. *)
Definition made_spec (i : tinput) : made :=
  match fst (generator i) with
  | GenOk t => MadeCode t
  | GenErr => MadeErrors (flat_map attr_errors (tn_attrs i) ++ List.map EGen (snd (generator i)) ++ not_enum i)%list
  | GenPanic => MadePanic
  end.

Lemma derive_ok : forall i, derive_text i = Some (made_spec i).
Proof.
  intros. unfold derive_text, front_call, made_spec. rewrite fn_rest.
  change 40 with (10 + (28 + 2)).
  assert (H : forall m s, 28 <= m -> exists e', eval m i front_items [("cx", FCx)] s impl_v =
  (match fst (generator i) with
   | GenOk t => Val (FOk (FGen t)) | GenErr => Val (FErr FUnit) | GenPanic => Dead end, e',
   (s ++ flat_map attr_errors (tn_attrs i) ++ List.map EGen (snd (generator i)) ++ not_enum i)%list)).
  { intros m s H. replace m with (28 + (m - 28)) by lia. apply impl_ok. }
  generalize fn_impl. revert H. generalize front_items as p. intros p H P.
  pose proof (Nat.le_refl (28 + 2)) as K. revert K. generalize (28 + 2) at 2 3 as k. intros k K.
  unfold rest_v. change (10 + k) with (S (9 + k)). rewrite let_is.
  match goal with |- context [eval (9 + k) i p ?e ?t0 ?x] =>
    assert (A : exists t', eval (9 + k) i p e t0 x =
      (match fst (generator i) with
       | GenOk t => Val (FOk (FGen t)) | GenErr => Val (FErr FUnit) | GenPanic => Dead end, e, t')
      /\ t' = (flat_map attr_errors (tn_attrs i) ++ List.map EGen (snd (generator i)) ++ not_enum i)%list) end.
  { eexists. split; [|reflexivity]. change (9 + k) with (S (S (7 + k))). rewrite call_impl.
    match goal with |- context [eval ?m i p ?e ?t ?x] =>
      replace (eval m i p e t x) with (Val FCx, e, t) by reflexivity end.
    cbv beta iota. unfold called. rewrite P. cbv beta iota.
    match goal with |- context [eval ?m i p _ ?t impl_v] =>
      destruct (H m t) as (e1 & A); [lia|]; rewrite A end.
    destruct (fst (generator i)); reflexivity. }
  destruct A as (t' & A & T). rewrite A, <- T. clear A T H P.
  destruct (fst (generator i)); reflexivity.
Qed.

Lemma nested_seen : forall l b,
  parse_nested_meta (List.map seen_item l) b =
  (b || first_bitset l, match items_errors l with [] => true | _ => false end).
Proof.
  induction l as [|[[x|] t] r IH]; intros b; cbn; rewrite ?orb_false_r; try reflexivity.
  destruct (String.eqb x "bitset"); cbn; rewrite ?orb_false_r, ?orb_true_r; [|reflexivity].
  destruct t; [reflexivity|]. rewrite IH. reflexivity.
Qed.
Lemma items_one : forall l, items_errors l <> [] -> List.map seen_error (items_errors l) = [ErrAttr].
Proof.
  induction l as [|[[x|] t] r IH]; cbn; intros H; [congruence| |reflexivity].
  destruct (String.eqb x "bitset"); [|reflexivity]. destruct t; [reflexivity|]. auto.
Qed.
Lemma attrs_seen : forall l b errs,
  attrs_parse (List.map seen_attr l) b errs =
  (b || existsb asks_bitset l, (errs ++ List.map seen_error (flat_map attr_errors l))%list).
Proof.
  induction l as [|a r IH]; intros b errs; cbn.
  - rewrite orb_false_r, app_nil_r. reflexivity.
  - unfold seen_attr at 1, attr_errors at 1, asks_bitset at 1.
    destruct (String.eqb (ta_path a) "key"); cbn.
    + destruct (ta_items a) as [l|].
      * rewrite nested_seen, IH, orb_assoc, map_app. f_equal.
        pose proof (items_one l) as O. destruct (items_errors l) as [|x q]; [reflexivity|].
        rewrite O by congruence. rewrite <- app_assoc. reflexivity.
      * rewrite IH. cbn. rewrite <- app_assoc. reflexivity.
    + rewrite IH. reflexivity.
Qed.
Lemma any_loop_errors : forall vs n fs errs,
  any_loop vs n fs errs = (fst (any_loop vs n fs []), (errs ++ snd (any_loop vs n fs []))%list).
Proof.
  induction vs as [|[|[|t [|t2 r2]]|] r IH]; intros n fs errs; cbn; rewrite ?app_nil_r; try reflexivity;
    try apply IH.
  - rewrite (IH _ _ (errs ++ _)%list), (IH _ _ [ErrManyFields]). cbn. rewrite <- app_assoc. reflexivity.
  - rewrite (IH _ _ (errs ++ _)%list), (IH _ _ [ErrNamedFields]). cbn. rewrite <- app_assoc. reflexivity.
Qed.
Lemma any_errors : forall vs errs,
  any_implement vs errs = (fst (any_implement vs []), (errs ++ snd (any_implement vs []))%list).
Proof.
  intros. unfold any_implement. rewrite any_loop_errors.
  destruct (any_loop vs 0 [] []) as [[f|] l]; reflexivity.
Qed.
Lemma unit_errors : forall b vs errs,
  unit_implement b vs errs = (fst (unit_implement b vs []), (errs ++ snd (unit_implement b vs []))%list).
Proof.
  intros. unfold unit_implement. destruct b; [destruct (determine_bits _)|]; cbn; rewrite ?app_nil_r; reflexivity.
Qed.
Lemma map_seen_gen : forall l, List.map seen_error (List.map EGen l) = l.
Proof. induction l; cbn; congruence. Qed.

Lemma made_seen : forall i, storage_derive (seen i) = seen_made (made_spec i).
Proof.
  intros i. unfold storage_derive, impl_storage, made_spec, generator, not_enum, seen. cbn [in_attrs in_data].
  rewrite attrs_seen. cbn [orb app].
  destruct (tn_data i) as [vs| |].
  - destruct (is_all_unit_variants vs).
    + rewrite unit_errors. destruct (unit_implement _ vs []) as [[] l]; cbn; try reflexivity.
      rewrite app_nil_r, map_app, map_seen_gen. reflexivity.
    + rewrite any_errors. destruct (any_implement vs []) as [[] l]; cbn; try reflexivity.
      rewrite app_nil_r, map_app, map_seen_gen. reflexivity.
  - cbn. rewrite map_app. reflexivity.
  - cbn. rewrite map_app. reflexivity.
Qed.

Lemma derive_model : forall i, exists m, derive_text i = Some m /\ seen_made m = storage_derive (seen i).
Proof. intros i. exists (made_spec i). split; [apply derive_ok|]. symmetry. apply made_seen. Qed.

Lemma bitset_iff : forall i, exists b l, parse_text i = Some (b, l) /\
  (b = true <-> exists a tail r, In a (tn_attrs i) /\ ta_path a = "key" /\
                                ta_items a = Some (MkItem (Some "bitset") tail :: r)).
Proof.
  intros i. eexists _, _. split; [apply parse_text_ok|]. rewrite existsb_exists. split.
  - intros (a & I & H). unfold asks_bitset in H. apply andb_prop in H. destruct H as [H K].
    apply String.eqb_eq in H. destruct (ta_items a) as [[|[[x|] t] r]|] eqn:E; try discriminate.
    apply String.eqb_eq in K. subst x. exists a, t, r. auto.
  - intros (a & t & r & I & H & K). exists a. split; [exact I|]. unfold asks_bitset. rewrite H, K. reflexivity.
Qed.

Lemma no_errors_iff : forall i, exists b l, parse_text i = Some (b, l) /\
  (l = [] <-> forall a, In a (tn_attrs i) -> ta_path a = "key" ->
              exists n, ta_items a = Some (repeat (MkItem (Some "bitset") false) n)).
Proof.
  intros i. eexists _, _. split; [apply parse_text_ok|].
  assert (E : forall l, items_errors l = [] <-> exists n, l = repeat (MkItem (Some "bitset") false) n).
  { induction l as [|[[x|] t] r IH]; cbn.
    - split; [exists 0; reflexivity|reflexivity].
    - destruct (String.eqb_spec x "bitset") as [->|N].
      + destruct t.
        * split; [discriminate|]. intros [[|n] H]; cbn in H; discriminate.
        * rewrite IH. split; intros [n H]; [exists (S n); cbn; congruence|].
          destruct n as [|n]; cbn in H; [discriminate|]. exists n. congruence.
      + split; [discriminate|]. intros [[|n] H]; cbn in H; congruence.
    - split; [discriminate|]. intros [[|n] H]; cbn in H; discriminate. }
  induction (tn_attrs i) as [|a r IH]; cbn.
  - split; [intros _ a []|reflexivity].
  - assert (A : attr_errors a = [] <-> (ta_path a = "key" -> exists n, ta_items a = Some (repeat (MkItem (Some "bitset") false) n))).
    { unfold attr_errors. destruct (String.eqb_spec (ta_path a) "key") as [H|H].
      - destruct (ta_items a) as [l|].
        + rewrite E. split; [intros [n ->] _; eauto|]. intros K. destruct (K H) as [n K']. exists n. congruence.
        + split; [discriminate|]. intros K. destruct (K H). discriminate.
      - split; [congruence|reflexivity]. }
    split.
    + intros H. apply app_eq_nil in H. destruct H as [H1 H2]. intros x [<-|I]; [apply A; exact H1|apply IH; auto].
    + intros H. rewrite (proj2 A), (proj2 IH); auto.
Qed.

Lemma not_enum_text : forall i b l, (forall vs, tn_data i <> DataEnum vs) -> parse_text i = Some (b, l) ->
  derive_text i = Some (MadeErrors (l ++ [EMsg "named fields are not supported"])%list).
Proof.
  intros i b l H P. rewrite parse_text_ok in P. injection P as <- <-. rewrite derive_ok.
  unfold made_spec, generator, not_enum. destruct (tn_data i) as [vs| |]; [destruct (H vs eq_refl)| |]; reflexivity.
Qed.

Lemma unit_text : forall i vs b l, tn_data i = DataEnum vs -> (forall f, In f vs -> f = FieldsUnit) ->
  parse_text i = Some (b, l) ->
  derive_text i = Some (if b && (128 <? N.of_nat (List.length vs))%N
                        then MadeErrors (l ++ [EGen (ErrTooMany (N.of_nat (List.length vs)))])%list
                        else MadeCode (TokUnit b (List.length vs))).
Proof.
  intros i vs b l D U P. rewrite parse_text_ok in P. injection P as <- <-. rewrite derive_ok.
  unfold made_spec, generator, not_enum. rewrite D.
  assert (A : is_all_unit_variants vs = true).
  { clear D. induction vs as [|f r IH]; [reflexivity|]. rewrite (U f (or_introl eq_refl)). cbn.
    apply IH. intros g G. apply U. right. exact G. }
  rewrite A. unfold unit_implement. destruct (existsb asks_bitset (tn_attrs i)); [|reflexivity].
  unfold determine_bits. cbn [andb].
  repeat match goal with |- context [if (?a <=? ?b)%N then _ else _] => destruct (N.leb_spec a b) end;
  destruct (N.ltb_spec 128 (N.of_nat (List.length vs))); cbn; try lia; reflexivity.
Qed.
