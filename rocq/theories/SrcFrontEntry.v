(** Running src/map.rs and src/map/entry.rs: entries, new maps, comparing. *)
Require Import List Arith NArith Bool String Lia.
Import ListNotations.
From Verif Require Import Std Traits Api MapStorages SrcText SrcStd SrcParse SrcRun SrcSpec SrcFiles SrcFront
  SrcProofs SrcForeign SrcFrontMap.
Open Scope string_scope.

(** What is asked of the user's functions for entries; everything else is asked as before. *)
Ltac entry_user_step :=
  match goal with
  | |- context [entry_answer ?m ?p ?U ?E ?q ?s] =>
      let r := eval cbv beta iota zeta delta [entry_answer] in (entry_answer m p U E q s) in
      change (entry_answer m p U E q s) with r
  end; cbn iota beta.
Ltac entry_fn_call :=
  match goal with
  | |- context [e_make ?E ?s] => destruct (e_make E s) as [? [?|]]
  | |- context [e_make_key ?E ?s ?k] => destruct (e_make_key E s k) as [? [?|]]
  | |- context [e_modify ?E ?s ?k] => destruct (e_modify E s k) as [[? ?] [|]]
  | |- context [e_default ?E ?s] => destruct (e_default E s) as [? [?|]]
  end; cbn iota beta.
Ltac known :=
  match goal with
  | H : ?x = _ |- context [?x] => rewrite H
  end; cbn iota beta.
Ltac entry_runs :=
  repeat first [known | ms_call | entry_fn_call
               | drive1; repeat entry_user_step; repeat front_step; cbn iota beta].

Section FrontEntry.
  Context {K V S : Type} (m : MapStorage K V) (U : user_fns K V S) (E : entry_fns K V S).
  Notation F := (map_file (S := S) m None map_ast).
  Notation val := (val V (foreign_map m)).
  Notation rep := (map_val m).
  Notation same_step := (same_step m U E).

  Definition entry_rep (e : map_entry_t m) : val :=
    match e with
    | Occupied o => VData "Entry" "Occupied" [("0", VForeign (XOcc m o here))]
    | Vacant v => VData "Entry" "Vacant" [("0", VForeign (XVac m v here))]
    end.
  Lemma entry_given : forall k s st, exists t,
    invoke F U old "" "Map" "entry" [VRef (At 0 []); key_val m k] [rep st] s =
    (match ms_entry m st k with
     | Ok e => CVal (entry_rep e)
     | r => result_val (fun _ => unit_) r
     end, t, s) /\ self_in t = rep st.
  Proof.
    intros k s st. unfold map_val, invoke, go; repeat found; lazy beta iota zeta; front_runs.
    all: match goal with |- exists t, (_, ?x, _) = _ /\ _ => exists x; split; vm_compute; reflexivity end.
  Qed.
  Lemma entry_ok : forall k a, same_step (FPlain (MEntry k a)).
  Proof.
    intros k a s st. cbn [front_req fmap_req map_req]. unfold plain_entry.
    destruct (entry_given k s st) as (t & -> & Ht). rewrite Ht. clear t Ht.
    unfold use_entry. destruct (ms_entry m st k) as [[e|e]| | |]; try reflexivity.
    all: cbn [entry_rep]; match goal with |- context [at_self F ?x] => change (at_self F x) with true end; cbn iota.
    all: destruct a as [| |v|v|v|]; cbn iota; try reflexivity.
    all: unfold entry_call, map_val, if_ok, put; lazy beta iota zeta; entry_runs; ms_finish.
  Qed.

  Lemma modify_ok : forall e s st,
    match entry_and_modify m st e (e_modify E) s with
    | Ok (s', oe, st') => exists t,
        entry_call m map_ast U E "and_modify" [VGiven 3] (rep st) (entry_rep e) s =
        (match oe with Some e' => CVal (entry_rep e') | None => CUnwound end, t, s') /\ self_in t = rep st'
    | _ => True
    end.
  Proof.
    intros [e|e] s st; lazy beta iota zeta delta [entry_and_modify deref assign res_bind res_map];
      unfold entry_call, map_val, entry_rep.
    - destruct (ms_occ_get_mut m st e) as [r| | |] eqn:E1; try exact Logic.I.
      destruct (ms_load m st r) as [v|] eqn:E2; try exact Logic.I.
      destruct (e_modify E s v) as [[s1 v1] oc] eqn:E3.
      destruct (ms_store m st r v1) as [st1|] eqn:E4; try exact Logic.I.
      destruct oc; cbn iota; entry_runs.
      all: match goal with |- exists t, (_, ?x, _) = _ /\ _ => exists x; split; vm_compute; reflexivity end.
    - entry_runs.
      match goal with |- exists t, (_, ?x, _) = _ /\ _ => exists x; split; vm_compute; reflexivity end.
  Qed.
  Lemma modifying_ok : forall n s st e,
    let '(s', st', r) := modify_all m E n s st e in
    match r with
    | inl e' => modifying m map_ast U E n s (rep st) (entry_rep e) = (s', rep st', inl (entry_rep e'))
    | inr a => a <> Bad -> modifying m map_ast U E n s (rep st) (entry_rep e) = (s', rep st', inr a)
    end.
  Proof.
    induction n as [|n IH]; intros s st e; [reflexivity|]. cbn [modifying modify_all].
    assert (M := modify_ok e s st).
    destruct (entry_and_modify m st e (e_modify E) s) as [[[s' [e'|]] st']| | |];
      try (intros H; exfalso; apply H; reflexivity).
    - destruct M as (t & -> & Ht). rewrite Ht.
      replace (at_self F (entry_rep e')) with true by (destruct e'; reflexivity). apply IH.
    - destruct M as (t & -> & Ht). rewrite Ht. reflexivity.
  Qed.

  (** How the chain ends. *)
  Definition ending (e : entry_end V) : string * list val * (list val -> val -> val * ans K V) :=
    match e with
    | ToKey => ("key", [], its_key F)
    | OrInsert v w => ("or_insert", [VUser v], through (S := S) m map_ast w)
    | OrInsertWith w => ("or_insert_with", [VGiven 1], through (S := S) m map_ast w)
    | OrInsertWithKey w => ("or_insert_with_key", [VGiven 2], through (S := S) m map_ast w)
    | OrDefault w => ("or_default", [], through (S := S) m map_ast w)
    end.
  Definition ended (e : entry_end V) (s : S) (st : ms_St m) (y : map_entry_t m) : S * ms_St m * ans K V :=
    let by_ref (w : option V) (r : res (S * option ref * ms_St m)) :=
      match r with
      | Ok (s3, Some r, st3) => let '(st4, a) := read_write m w st3 r in (s3, st4, a)
      | Ok (s3, None, st3) => (s3, st3, Unwinds)
      | _ => (s, st, Bad)
      end in
    match e with
    | ToKey => match entry_key m st y with Ok k => (s, st, Key k) | _ => (s, st, Bad) end
    | OrInsert v w => by_ref w (res_map (fun p => (s, Some (fst p), snd p)) (entry_or_insert m st y v))
    | OrInsertWith w => by_ref w (entry_or_insert_with m st y (e_make E) s)
    | OrInsertWithKey w => by_ref w (entry_or_insert_with_key m st y (e_make_key E) s)
    | OrDefault w =>
        let (s3, d) := match y with Occupied _ => (s, None) | Vacant _ => e_default E s end in
        by_ref w (res_map (fun p => (s3, fst p, snd p)) (entry_or_default m st y d))
    end.
  Ltac model_cases :=
    repeat match goal with
    | |- context [ms_vac_key ?m ?a ?b] =>
        let k := fresh "k" in let H := fresh "H" in remember (ms_vac_key m a b) as k eqn:H; symmetry in H
    | |- context [ms_occ_key ?m ?a ?b] => destruct (ms_occ_key m a b) as [?| | |] eqn:?
    | |- context [ms_occ_into_mut ?m ?a ?b] => destruct (ms_occ_into_mut m a b) as [?| | |] eqn:?
    | |- context [e_make ?E ?s] => destruct (e_make E s) as [? [?|]] eqn:?
    | |- context [e_make_key ?E ?s ?k] => destruct (e_make_key E s k) as [? [?|]] eqn:?
    | |- context [e_default ?E ?s] => destruct (e_default E s) as [? [?|]] eqn:?
    | |- context [ms_vac_insert ?m ?a ?b ?c] => destruct (ms_vac_insert m a b c) as [[? ?]| | |] eqn:?
    | |- context [ms_load ?m ?a ?b] => destruct (ms_load m a b) as [?|] eqn:?
    | |- context [ms_store ?m ?a ?b ?c] => destruct (ms_store m a b c) as [?|] eqn:?
    end; cbn iota beta.
  Lemma ended_ok : forall e s st y,
    let '(s', st', a) := ended e s st y in
    a <> Bad ->
    match entry_call m map_ast U E (fst (fst (ending e))) (snd (fst (ending e))) (rep st) (entry_rep y) s with
    | (CVal v, t, s3) => let '(self3, a) := snd (ending e) t v in (s3, self3, a)
    | (CUnwound, t, s3) => (s3, self_in t, Unwinds)
    | _ => (s, rep st, Bad)
    end = (s', rep st', a).
  Proof.
    intros [|v w|w|w|w] s st [e|e].
    all: lazy beta iota zeta delta [ended ending entry_key entry_or_insert entry_or_insert_with
      entry_or_insert_with_key entry_or_default occ_into_mut res_map res_bind deref assign read_write fst snd].
    all: try destruct w as [w|].
    all: model_cases; intros Hb; try (exfalso; apply Hb; reflexivity).
    all: clear Hb; unfold entry_call, map_val, entry_rep; lazy beta iota zeta; entry_runs.
    all: cbv -[ms_store ms_load]; repeat known; reflexivity.
  Qed.
End FrontEntry.
