(** Running source files: general lemmas and tactics. *)
Require Import List Arith NArith Bool String Lia.
Import ListNotations.
From Verif Require Import Std Traits SrcParse SrcRun SrcSpec SrcFiles.
Open Scope string_scope.

(** * Questions and answers *)
Section Drive.
  Context {V X S A : Type} (ans : question V X -> S -> S * reply V X) (act : run V X A) (cs : list (val V X)).
  Lemma drive_ask : forall m sofar s q t,
    act (MkRt cs sofar) = (CAsk q, t) ->
    drive ans act cs (Datatypes.S m) sofar s =
    let '(s', r) := ans q s in drive ans act cs m (sofar ++ [r])%list s'.
  Proof. intros m sofar s q t H. simpl. rewrite H. reflexivity. Qed.
  Lemma drive_end : forall m sofar s c t,
    act (MkRt cs sofar) = (c, t) -> match c with CAsk _ => False | _ => True end ->
    drive ans act cs m sofar s = (c, cells t, s).
  Proof.
    intros m sofar s c t H Hc. destruct m; simpl; rewrite H; destruct c; try contradiction; reflexivity.
  Qed.
End Drive.

(** Evaluating a term where it stands. *)
Ltac ev t :=
  let r := eval vm_compute in t in
  let E := fresh in
  assert (E : t = r) by (vm_compute; reflexivity); rewrite E; clear E.

(** One question further, or to the end. *)
Ltac drive1 :=
  match goal with
  | |- context [drive ?ans ?act ?cs ?m ?sofar ?s] =>
      let r := eval vm_compute in (act (MkRt cs sofar)) in
      lazymatch r with
      | (CAsk ?q, ?t) =>
          let m' := eval vm_compute in m in
          lazymatch m' with
          | Datatypes.S ?k =>
              let E := fresh in
              assert (E : act (MkRt cs sofar) = (CAsk q, t)) by (vm_compute; reflexivity);
              change (drive ans act cs m sofar s) with (drive ans act cs (Datatypes.S k) sofar s);
              rewrite (drive_ask ans act cs k sofar s q t E); clear E
          end
      | (?c, ?t) =>
          let E := fresh in
          assert (E : act (MkRt cs sofar) = (c, t)) by (vm_compute; reflexivity);
          rewrite (drive_end ans act cs m sofar s c t E Logic.I); clear E
      end
  end.
(** What is asked, answered from the user's functions. *)
Ltac reply_step :=
  cbn [answer user_answer call_keep f_as_key f_foreign f_load f_store app fst snd
       bool_map_file bool_set_file single_map_file single_set_file option_map_file hash_map_file
       option_set_file hash_set_file as_bool_val as_unit_val no_foreign default_key].
(** The user's functions. *)
Ltac user_call :=
  match goal with
  | |- context [u_keep ?U ?s ?k ?v] => destruct (u_keep U s k v) as [[? ?] [[|]|]]
  | |- context [u_keep1 ?U ?s ?k] => destruct (u_keep1 U s k) as [? [[|]|]]
  | |- context [u_drop ?U ?s ?v] => destruct (u_drop U s v) as [? [|]]
  | |- context [u_clone ?U ?s ?v] => destruct (u_clone U s v) as [? [?|]]
  | |- context [u_eq ?U ?s ?a ?b] => destruct (u_eq U s a b) as [? [[|]|]]
  end.
Ltac found :=
  match goal with |- context [function_of ?p ?a ?b ?c] => ev (function_of p a b c) end.
(** The model's side, down to the user's functions. *)
Ltac right_side :=
  match goal with
  | |- _ = ?r => let r' := eval cbv -[u_keep u_keep1 u_drop u_clone u_eq] in r in change r with r'
  end.
(** To the end of a program. *)
Ltac runs := repeat first [drive1; reply_step; cbn iota beta | user_call; cbn iota beta].
Ltac finish := lazymatch goal with |- context [drive] => idtac | _ => vm_compute; reflexivity end.

(** * Iterators *)
Lemma Forall2_eq : forall A (l l' : list A), Forall2 eq l l' -> l = l'.
Proof. induction 1; congruence. Qed.

(** Assigning through references: those of the text lead to the places of those of the
    model. *)
Section Assign.
  Context {K V X S : Type} (F : file K V X S) (m : MapStorage K V).
  Variables (rep : ms_St m -> val V X) (good : ref -> Prop) (to : ref -> list step).
  Hypothesis reads : forall st r, good r ->
    seen_at F (rep st) (to r) = option_map (fun v => VUser v) (ms_load m st r).
  Hypothesis writes : forall st r v, good r -> ms_load m st r <> None ->
    changed_at F (rep st) (to r) v = option_map rep (ms_store m st r v).

  Definition same_place (a : told K V + option K * place) (b : told K V + option K * ref) : Prop :=
    match a, b with
    | inl x, inl y => x = y
    | inr (k, p), inr (k', r) => k = k' /\ good r /\ p_path p = to r
    | _, _ => False
    end.

  Lemma assign_ok : forall g l l' st, Forall2 same_place l l' ->
    assign_all F g l (rep st) = option_map (fun e => (fst e, rep (snd e))) (put_all m g l' st).
  Proof.
    intros g l l' st H. revert st. induction H as [|a b l l' Hab H IH]; intros st; [reflexivity|].
    destruct a as [x|[k p]], b as [y|[k' r]]; simpl in Hab; try contradiction.
    - subst y. simpl. rewrite IH. destruct (put_all m g l' st) as [[? ?]|]; reflexivity.
    - destruct Hab as (-> & Hg & Hp). simpl. rewrite Hp, (reads st r Hg).
      destruct (ms_load m st r) as [v|] eqn:E; [|reflexivity]. simpl.
      rewrite (writes st r (g k' v) Hg) by congruence.
      destruct (ms_store m st r (g k' v)) as [st'|]; [|reflexivity]. simpl.
      rewrite IH. destruct (put_all m g l' st') as [[? ?]|]; reflexivity.
  Qed.
End Assign.

(** Requests one after the other. *)
Section Steps.
  Context {S Q A St St' : Type} (step : Q -> S -> St -> S * St * A) (step' : Q -> S -> St' -> S * St' * A).
  Variables (rep : St -> St') (inv : St -> Prop).
  Hypothesis one : forall q s st, inv st ->
    inv (snd (fst (step q s st))) /\
    step' q s (rep st) = let '(s1, st1, a) := step q s st in (s1, rep st1, a).
  Lemma steps_ok : forall l s st, inv st ->
    inv (snd (answers step l s st)) /\
    answers step' l s (rep st) = let '(r, s1, st1) := answers step l s st in (r, s1, rep st1).
  Proof.
    induction l as [|q l IH]; intros s st Hi; [split; [assumption | reflexivity]|].
    simpl. destruct (one q s st Hi) as [Hi' E]. rewrite E.
    destruct (step q s st) as [[s1 st1] a]. simpl in Hi'.
    destruct (IH s1 st1 Hi') as [Hi2 E2]. rewrite E2.
    destruct (answers step l s1 st1) as [[r s2] st2]. split; [exact Hi2 | reflexivity].
  Qed.
End Steps.

(** * The iterators of [core] *)
Section Reps.
  Context {V X : Type}.
  Notation val := (val V X).
  Definition opt_rep {A} (f : A -> val) (o : option A) : val :=
    match o with Some x => VData "Option" "Some" [("0", f x)] | None => VData "Option" "None" [] end.
  Definition user_rep (v : V) : val := VUser v.
  Definition item_rep {A} (f : A -> val) (o : option A) : val := VData "Item" "" [("opt", opt_rep f o)].
  Definition map_rep {A} (clos : val) (f : A -> val) (a : A) : val :=
    VData "MapIter" "" [("iter", f a); ("f", clos)].
  Definition chain_rep {A B} (f : A -> val) (g : B -> val) (a : option A * option B) : val :=
    VData "Chain" "" [("a", opt_rep f (fst a)); ("b", opt_rep g (snd a))].
  Definition tup_rep (a b : val) : val := VData "()" "" [("0", a); ("1", b)].
End Reps.

(** A value that is computed. *)
Ltac ask_step :=
  unfold ask_it, go; runs;
  match goal with
  | |- exists a, ?x = _ /\ _ =>
      let y := eval vm_compute in x in
      lazymatch y with Some (?a, _, _, _) => exists a; split; [vm_compute; reflexivity | ] end
  | |- exists it0, ?x = _ =>
      let y := eval vm_compute in x in
      lazymatch y with Some (_, _, ?i, _) => exists i; vm_compute; reflexivity end
  end.

(** How an iterator begins. *)
Definition begins {K V X S} (F : file K V X S) (U : user_fns K V S) (m : string) (arg self it : val V X) : Prop :=
  forall s, exists t,
  invoke F U old (f_trait F) (f_storage F) m [arg] [self] s = (CVal it, t, s) /\ self_in t = self /\
  at_self F it = true.
Ltac begin :=
  intro; unfold invoke, self_arg, go; repeat found; lazy beta iota zeta; runs;
  match goal with |- exists t, (_, ?x, _) = _ /\ _ => exists x; split; [|split]; vm_compute; reflexivity end.

(** What becomes of it. *)
Section Goes.
  Context {K V X S : Type} (F : file K V X S) (U : user_fns K V S) {A C : Type} (I : iterator C).
  Context {B : Type} (R : A -> B -> Prop) (both clones : bool).
  Variables (look bounds : list (val V X) -> val V X -> option A).
  Variables (lookm : option C -> B) (boundsm : nat * option nat -> B).
  Variables (rep : it_st I -> val V X) (inv : it_st I -> Prop) (self : val V X).
  Definition asks (f : list (val V X) -> val V X -> option A) (m : string) (it : it_st I) (b : B) (it' : it_st I)
    : Prop :=
    forall s, exists a, ask_it F U f m self (rep it) s = Some (a, self, rep it', s) /\ R a b.
  Record goes_on : Prop := MkGoes {
    g_next : forall it, inv it ->
      asks look "next" it (lookm (fst (it_next I it))) (snd (it_next I it)) /\
      inv (snd (it_next I it));
    g_hint : forall it, inv it -> asks bounds "size_hint" it (boundsm (it_hint I it)) it;
    g_clone : clones = true -> forall it, inv it -> inv (it_clone I it) /\ forall s, exists it0,
      ask_it F U (fun _ v => if at_self F v then Some v else None) "clone" self (rep it) s =
      Some (rep (it_clone I it), self, it0, s);
    g_back :
      match it_back I with
      | Some b => both = true /\
          forall it, inv it ->
          asks look "next_back" it (lookm (fst (b it))) (snd (b it)) /\ inv (snd (b it))
      | None => both = false
      end
  }.
  Lemma asking_ok : goes_on -> forall l it s, inv it -> exists l',
    asking_all F U both clones look bounds l self (rep it) s = Some (l', s) /\
    Forall2 R l' (say I clones lookm boundsm l it).
  Proof.
    intros [Hnext Hhint Hclone Hback].
    induction l as [|q l IH]; intros it s Hi; [exists []; split; [reflexivity | constructor]|].
    destruct q; simpl.
    - destruct (Hnext it Hi) as [Ha Hi']. destruct (Ha s) as (a & E & Hr). rewrite E.
      destruct (it_next I it) as [x it']. simpl in *.
      destruct (IH it' s Hi') as (l' & E' & Hl').
      rewrite E'. exists (a :: l'). split; [reflexivity | constructor; assumption].
    - destruct (it_back I) as [b|].
      + destruct Hback as (-> & Hb). destruct (Hb it Hi) as (Hn & Hk).
        destruct (Hn s) as (a & E & Hr). rewrite E.
        destruct (b it) as [x it']. simpl in *.
        destruct (IH it' s Hk) as (l' & E' & Hl').
        rewrite E'. exists (a :: l'). split; [reflexivity | constructor; assumption].
      + destruct both; [discriminate|]. apply IH. assumption.
    - destruct clones.
      + destruct (Hclone eq_refl it Hi) as (Hi' & Hc). destruct (Hc s) as (it0 & E). rewrite E. apply IH. auto.
      + apply IH. assumption.
    - destruct (Hhint it Hi s) as (a & E & Hr). rewrite E.
      destruct (IH it s Hi) as (l' & E' & Hl'). rewrite E'.
      exists (a :: l'). split; [reflexivity | constructor; assumption].
  Qed.
End Goes.

Section Whole.
  Context {K V X S : Type} (F : file K V X S) (U : user_fns K V S) {C : Type} (I : iterator C) (both : bool).
  Variables (rep : it_st I -> val V X) (inv : it_st I -> Prop).

  Lemma iterate_ok (clones : bool) (f : C -> option K * option V) self it m s :
    begins F U m (self_arg F (f_trait F) (f_storage F) m 0 self) self (rep it) -> inv it ->
    goes_on F U I eq both clones (item_of F) bounds_of (fun o => Item (option_map f o)) hint_of rep inv self ->
    forall l, iterate F U both clones m l s self = (s, self, shown I clones f l it).
  Proof.
    intros Hb Hi Hg l. unfold iterate. destruct (Hb s) as (t & E & Ht & Ha). rewrite E, Ha, Ht.
    destruct (asking_ok F U I eq both clones _ _ _ _ rep inv self Hg l it s Hi) as (x & E' & HF).
    rewrite E'. rewrite (Forall2_eq _ _ _ HF). reflexivity.
  Qed.

  Lemma iterate_mut_ok (ms : MapStorage K V) (f : C -> option K * ref) (repm : ms_St ms -> val V X)
    (good : ref -> Prop) (to : ref -> list step) st it m s :
    begins F U m (VRef (At 0 [])) (repm st) (rep it) -> inv it ->
    goes_on F U I (same_place good to) both false (place_of F) (fun t v => option_map inl (bounds_of t v))
      (fun o => match o with Some a => inr (f a) | None => inl (Item None) end) (fun h => inl (hint_of h))
      rep inv (repm st) ->
    (forall st r, good r -> seen_at F (repm st) (to r) = option_map (fun v => VUser v) (ms_load ms st r)) ->
    (forall st r v, good r -> ms_load ms st r <> None ->
       changed_at F (repm st) (to r) v = option_map repm (ms_store ms st r v)) ->
    forall g l, iterate_mut F U both m g l s (repm st) =
      let '(s1, st1, a) := items_mut ms I f g l it s st in (s1, repm st1, a).
  Proof.
    intros Hb Hi Hg Hr Hw g l. unfold iterate_mut, items_mut.
    destruct (Hb s) as (t & E & Ht & Ha). rewrite E, Ha, Ht.
    destruct (asking_ok F U I (same_place good to) both false _ _ _ _ rep inv (repm st) Hg l it s Hi) as (x & E' & HF).
    rewrite E'. rewrite (assign_ok F ms repm good to Hr Hw g x _ st HF).
    destruct (put_all ms g _ st) as [[items st']|]; reflexivity.
  Qed.
End Whole.

(** * From a new storage *)
Section New.
  Context {K V X S Q St : Type} (F : file K V X S) (U : user_fns K V S).
  Variables (step' : Q -> S -> val V X -> S * val V X * ans K V) (step : Q -> S -> St -> S * St * ans K V).
  Variables (rep : St -> val V X) (inv : St -> Prop) (new : world -> St) (cmp : S -> St -> St -> S * ans K V).
  Hypothesis news : forall w s, exists t,
    invoke F U w (f_trait F) (f_storage F) (maker F) [] [] s = (CVal (rep (new w)), t, s).
  Hypothesis new_inv : forall w, inv (new w).
  Hypothesis one : forall q s st, inv st ->
    inv (snd (fst (step q s st))) /\
    step' q s (rep st) = let '(s1, st1, a) := step q s st in (s1, rep st1, a).
  Hypothesis eqs : forall s a b, inv a -> inv b -> src_eq F U s (rep a) (rep b) = Some (cmp s a b).

  Lemma from_new_ok : forall w l s,
    from_new F U step' w l s =
    Some (let '(r, s1, st1) := answers step l s (new w) in (r, s1, rep st1)).
  Proof.
    intros w l s. unfold from_new. destruct (news w s) as [t E]. rewrite E. f_equal.
    apply (steps_ok step step' rep inv one). apply new_inv.
  Qed.
  Lemma new_told_ok : forall w l s, told_by F U step' w l s = Some (fst (answers step l s (new w))).
  Proof.
    intros w l s. unfold told_by. rewrite from_new_ok.
    destruct (answers step l s (new w)) as [[r s1] st1]. reflexivity.
  Qed.
  Lemma new_compare_ok : forall w1 w2 l1 l2 s,
    compare_new F U step' w1 w2 l1 l2 s = Some (compared step cmp (new w1) (new w2) l1 l2 s).
  Proof.
    intros w1 w2 l1 l2 s. unfold compare_new, compared. rewrite from_new_ok.
    destruct (steps_ok step step' rep inv one l1 s (new w1) (new_inv w1)) as [H1 _].
    destruct (answers step l1 s (new w1)) as [[r1 s1] a]. rewrite from_new_ok.
    destruct (steps_ok step step' rep inv one l2 s1 (new w2) (new_inv w2)) as [H2 _].
    destruct (answers step l2 s1 (new w2)) as [[r2 s2] b]. apply eqs; assumption.
  Qed.
End New.
Ltac new_step :=
  unfold invoke, go; repeat found; cbn iota; runs;
  match goal with |- exists t, (_, ?x, _) = _ => exists x; vm_compute; reflexivity end.

(** One request. *)
Ltac plain :=
  right_side; cbn [src_req src_sreq];
  unfold call_on, invoke, self_arg, reclone, go; repeat found; cbn iota; runs; finish.
Ltac entry :=
  right_side; cbn [src_req]; unfold do_entry, invoke, go; repeat found; lazy beta iota zeta; runs;
  lazy beta iota zeta;
  repeat match goal with |- context [at_self ?F ?e] => ev (at_self F e) end;
  unfold on_entry, self_arg, invoke, go; repeat found; lazy beta iota zeta; runs; finish.
