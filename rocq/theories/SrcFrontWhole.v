(** Running src/map.rs: whole programs over a [Map]; comparing, hashing and choosing maps;
    [from_iter]. *)
Require Import List Arith NArith Bool String Lia.
Import ListNotations.
From Verif Require Import Std Traits Api MapStorages SrcText SrcStd SrcParse SrcRun SrcSpec SrcFiles SrcFront
  SrcProofs SrcForeign SrcFrontMap SrcFrontEntry.
Open Scope string_scope.

(** Answers one after the other, as long as none of them is [Bad]. *)
Definition good {K V} (a : ans K V) : Prop := a <> Bad.
Lemma good_steps {S Q St St' K V} (step : Q -> S -> St -> S * St * ans K V)
  (step' : Q -> S -> St' -> S * St' * ans K V) (rep : St -> St') :
  (forall q s st, let '(s1, st1, a) := step q s st in good a -> step' q s (rep st) = (s1, rep st1, a)) ->
  forall l s st, Forall good (fst (fst (answers step l s st))) ->
  answers step' l s (rep st) = let '(r, s1, st1) := answers step l s st in (r, s1, rep st1).
Proof.
  intros H. induction l as [|q l IH]; intros s st; cbn [answers]; [reflexivity|].
  assert (Hq := H q s st). destruct (step q s st) as [[s1 st1] a].
  assert (Hl := IH s1 st1). destruct (answers step l s1 st1) as [[r s2] st2]. cbn [fst] in *.
  intros G. inversion G as [|? ? Ga Gr]; subst. rewrite (Hq Ga), (Hl Gr). reflexivity.
Qed.

Section FrontWhole.
  Context {K V S : Type} (m : MapStorage K V) (U : user_fns K V S) (E : entry_fns K V S).
  Hypothesis ext : forall (f g : retain_fn S K V) s st,
    (forall s k v, f s k v = g s k v) -> ms_retain m f s st = ms_retain m g s st.
  Notation F := (map_file (S := S) m None map_ast).
  Notation rep := (map_val m).

  Lemma front_entry_ok : forall k n e s st,
    let '(s1, st1, a) := entry_req m E k n e s st in
    good a -> front_entry m map_ast U E k n e s (rep st) = (s1, rep st1, a).
  Proof.
    intros k n e s st. unfold entry_req, front_entry, map_entry.
    destruct (entry_given m U k s st) as (t & -> & Ht). rewrite Ht. clear t Ht.
    destruct (ms_entry m st k) as [x| | |]; try (intros H; exfalso; apply H; reflexivity).
    replace (at_self F (entry_rep m x)) with true by (destruct x; reflexivity). cbn iota.
    assert (M := modifying_ok m U E n s st x).
    destruct (modify_all m E n s st x) as [[s2 st2] [y|a]].
    - rewrite M. assert (L := ended_ok m U E e s2 st2 y).
      destruct e; exact L.
    - intros G. rewrite (M G). reflexivity.
  Qed.

  Lemma step_ok : forall q s st,
    let '(s1, st1, a) := fmap_req m U E q s st in
    good a -> front_req m map_ast U E q s (rep st) = (s1, rep st1, a).
  Proof.
    assert (P : forall q, same_step m U E q -> forall s st,
      let '(s1, st1, a) := fmap_req m U E q s st in
      good a -> front_req m map_ast U E q s (rep st) = (s1, rep st1, a)).
    { intros q H s st. specialize (H s st). destruct (fmap_req m U E q s st) as [[s1 st1] a]. intros _. exact H. }
    intros [q|l|g l|k n e].
    2: apply P; apply ref_iter_ok. 2: apply P; apply ref_iter_mut_ok. 2: exact (front_entry_ok k n e).
    apply P. destruct q as [| |k|k|k v|k v|k| | | |[| | |] l|g l|g l|k a].
    - apply len_ok. - apply is_empty_ok. - apply contains_ok. - apply get_ok. - apply insert_ok. - apply set_ok.
    - apply remove_ok. - exact (retain_ok m U E ext). - apply clear_ok. - apply clone_ok. - apply iter_ok.
    - apply keys_ok. - apply values_ok. - apply into_iter_ok. - apply iter_mut_ok. - apply values_mut_ok.
    - apply entry_ok.
  Qed.
  Lemma news : forall w s, exists t,
    invoke F U w (f_trait F) (f_storage F) (maker F) [] [] s = (CVal (rep (map_new m w)), t, s).
  Proof.
    intros w s. unfold map_val, map_new, invoke, go; repeat found; cbn iota; front_runs.
    match goal with |- exists t, (_, ?x, _) = _ => exists x; vm_compute; reflexivity end.
  Qed.
  Lemma front_from_new : forall w l s,
    Forall good (fst (fst (answers (fmap_req m U E) l s (map_new m w)))) ->
    from_new F U (front_req m map_ast U E) w l s =
    Some (let '(r, s1, st1) := answers (fmap_req m U E) l s (map_new m w) in (r, s1, rep st1)).
  Proof.
    intros w l s G. unfold from_new. destruct (news w s) as [t ->].
    f_equal. apply (good_steps _ _ rep step_ok l s (map_new m w) G).
  Qed.
  Lemma front_told : forall w l s,
    Forall good (fst (fst (answers (fmap_req m U E) l s (map_new m w)))) ->
    told_by F U (front_req m map_ast U E) w l s = Some (fst (answers (fmap_req m U E) l s (map_new m w))).
  Proof.
    intros w l s G. unfold told_by. rewrite (front_from_new w l s G).
    destruct (answers (fmap_req m U E) l s (map_new m w)) as [[r s1] st1]. reflexivity.
  Qed.
  Lemma front_compared : forall w1 w2 l1 l2 s,
    (let '(r1, s1, _) := answers (fmap_req m U E) l1 s (map_new m w1) in
     Forall good r1 /\ Forall good (fst (fst (answers (fmap_req m U E) l2 s1 (map_new m w2))))) ->
    compare_new F U (front_req m map_ast U E) w1 w2 l1 l2 s =
    Some (compared (fmap_req m U E) (map_compare U m) (map_new m w1) (map_new m w2) l1 l2 s).
  Proof.
    intros w1 w2 l1 l2 s G. unfold compare_new, compared.
    assert (N1 := front_from_new w1 l1 s). revert G N1.
    destruct (answers (fmap_req m U E) l1 s (map_new m w1)) as [[r1 s1] a]. intros [G1 G2] N1.
    rewrite (N1 G1), (front_from_new w2 l2 s1 G2).
    destruct (answers (fmap_req m U E) l2 s1 (map_new m w2)) as [[r2 s2] b]. apply eq_ok.
  Qed.
  Lemma default_ok : forall w s, front_default m map_ast U w s = Some (rep (map_default m w), s).
  Proof.
    intros w s. unfold front_default, map_default, map_val, map_new, invoke, go; repeat found; cbn iota; front_runs.
    vm_compute; reflexivity.
  Qed.

  (** ** Comparing *)
  Variable ord : order_fns V S.
  Ltac order_step :=
    front_step;
    repeat match goal with
    | |- context [map_lt ?m ?f] => is_var m; destruct (map_lt m f) as [?|]
    | |- context [map_le ?m ?f] => is_var m; destruct (map_le m f) as [?|]
    | |- context [map_gt ?m ?f] => is_var m; destruct (map_gt m f) as [?|]
    | |- context [map_ge ?m ?f] => is_var m; destruct (map_ge m f) as [?|]
    | |- context [map_max ?m ?f] => is_var m; destruct (map_max m f) as [?|]
    | |- context [map_min ?m ?f] => is_var m; destruct (map_min m f) as [?|]
    | |- context [map_clamp ?m ?f] => is_var m; destruct (map_clamp m f) as [?|]
    | |- context [ms_partial_cmp_with ?m] => is_var m; destruct (ms_partial_cmp_with m) as [?|]
    | |- context [ms_cmp_with ?m] => is_var m; destruct (ms_cmp_with m) as [?|]
    | |- context [ms_hash_with ?m] => is_var m; destruct (ms_hash_with m) as [?|]
    end; cbn iota beta delta [option_map].
  Ltac order_runs :=
    repeat first
      [ match goal with
        | |- context [?p S (o_pcmp ord) ?s ?a ?b] => is_var p; destruct (p S (o_pcmp ord) s a b) as [? [[[| |]|]|]]
        | |- context [?p S (o_cmp ord) ?s ?a ?b] => is_var p; destruct (p S (o_cmp ord) s a b) as [? [[| |]|]]
        | |- context [?p S (o_word ord) (o_hash ord) ?s ?a] => is_var p; destruct (p S (o_word ord) (o_hash ord) s a) as [? [|]]
        | p : ms_St m -> ms_St m -> ms_St m -> res (ms_St m) |- context [?q ?a ?b ?c] =>
            constr_eq p q; destruct (p a b c) as [?| | |]
        end; cbn iota beta
      | drive1; repeat order_step; cbn iota beta ].
  Ltac orders := unfold map_val, invoke, go; repeat found; cbn iota; order_runs.
  Lemma order_ok : forall q s a b, front_order m map_ast U ord q s (rep a) (rep b) = map_order m ord q s a b.
  Proof.
    intros q s a b. destruct q; unfold front_order, order_trait, order_name, map_order, map_partial_cmp_with, map_cmp_with.
    all: orders; vm_compute; reflexivity.
  Qed.
  Lemma pick_ok : forall q s a b, front_pick m map_ast U ord q s (rep a) (rep b) =
    option_map (fun g => rep (g a b)) (match q with PMax => map_max m (o_cmp0 ord) | PMin => map_min m (o_cmp0 ord) end).
  Proof. intros q s a b. destruct q; unfold front_pick; orders; vm_compute; reflexivity. Qed.
  Lemma clamp_ok : forall s a b c,
    front_clamp m map_ast U ord s (rep a) (rep b) (rep c) =
    option_map (fun g => res_map rep (g a b c)) (map_clamp m (o_pcmp0 ord)).
  Proof.
    intros s a b c. unfold front_clamp, map_val, invoke, go; repeat found; cbn iota.
    drive1. front_step. unfold map_clamp.
    destruct (map_partial_cmp m (o_pcmp0 ord)) as [g|]; cbn iota beta delta [option_map].
    2: drive1; reflexivity.
    unfold ord_clamp. destruct (pc_le (g b c)); cbn iota beta; drive1; vm_compute; reflexivity.
  Qed.
  Lemma hash_ok : forall s a, front_hash m map_ast U ord s (rep a) =
    option_map (fun g => g s a) (map_hash_with m (o_word ord) (o_hash ord)).
  Proof. intros s a. unfold front_hash, map_hash_with; orders; vm_compute; reflexivity. Qed.
End FrontWhole.
