(** Proofs about the names in generated code. *)
Require Import List Arith NArith Bool String Lia.
Import ListNotations.
From Verif Require Import DeriveUnit Names NamesSpec.
Open Scope string_scope.

Lemma mem_in : forall x l, mem x l = true <-> In x l.
Proof.
  intros x l. unfold mem. rewrite existsb_exists. split.
  - intros (y & H & E). apply String.eqb_eq in E. subst. exact H.
  - intro H. exists x. split; [exact H|]. apply String.eqb_refl.
Qed.

Lemma mem_out : forall x l, mem x l = false <-> ~ In x l.
Proof. intros x l. rewrite <- mem_in. destruct (mem x l); intuition congruence. Qed.

Lemma resolve_free : forall s items params x, ~ In x params -> ~ In x items ->
  resolve_type s items params x = at_site s x.
Proof.
  intros s items params x P I. unfold resolve_type.
  apply mem_out in P. apply mem_out in I. rewrite P, I. reflexivity.
Qed.

Lemma resolve_caught : forall s i items params x, declared s i ->
  resolve_type s items params x = at_site s x -> ~ In x params /\ ~ In x items.
Proof.
  intros s i items params x [_ D] H. unfold resolve_type in H.
  assert (A : (forall y, at_site s x <> MParam y) /\ (forall y, at_site s x <> MGenerated y)).
  { unfold at_site. destruct (si_types s x) as [m|] eqn:E.
    - exact (D x m E).
    - split; intro y; discriminate. }
  destruct A as [A1 A2].
  destruct (mem x params) eqn:E1; [exfalso; exact (A1 x (eq_sym H))|].
  destruct (mem x items) eqn:E2; [exfalso; exact (A2 x (eq_sym H))|].
  apply mem_out in E1. apply mem_out in E2. split; assumption.
Qed.

Lemma ident_site : forall s i, declared s i -> at_site s (nm_ident i) = MEnum.
Proof. intros s i [D _]. unfold at_site. rewrite D. reflexivity. Qed.

Lemma core_site : forall s x, at_site s x = MCore x <->
  si_types s x = None \/ si_types s x = Some (MCore x).
Proof.
  intros s x. unfold at_site. destruct (si_types s x) as [m|]; intuition congruence.
Qed.

Lemma core_value : forall s x, resolve_value s x = MCore x <->
  si_values s x = None \/ si_values s x = Some (MCore x).
Proof.
  intros s x. unfold resolve_value. destruct (si_values s x) as [m|]; intuition congruence.
Qed.

(** A name the generated code looks up as a core type resolves at the site. *)
Lemma core_resolved : forall s items params x, resolve_type s items params x = MCore x ->
  at_site s x = MCore x.
Proof.
  intros s items params x. unfold resolve_type.
  destruct (mem x params); [discriminate|]. destruct (mem x items); [discriminate|]. trivial.
Qed.

(** Enough for a region to be right. *)
Lemma region_from : forall s i g r, declared s i -> clear_names s i g ->
  incl (items_of g) (reserved g) ->
  (rg_ident r = true \/ rg_fields r = true -> incl (rg_params r) (reserved g)) ->
  (rg_fields r = true -> match g with GenUnit _ _ => False | GenAny _ => True end) ->
  (forall x, In x (rg_types r) ->
     In x (needed_types g) /\ ~ In x (rg_params r) /\ ~ In x (items_of g)) ->
  incl (rg_values r) (needed_values g) ->
  incl (rg_binders r) (variables g) ->
  region_ok s (items_of g) i r.
Proof.
  intros s i g r D (C1 & C2 & C3 & C4 & C5) Hi Hp Hf Ht Hv Hb. repeat split.
  - intro E. rewrite resolve_free; [apply ident_site; exact D| |].
    + intro A. apply C1. apply (Hp (or_introl E)). exact A.
    + intro A. apply C1. apply Hi. exact A.
  - intros E f x Ff Fx. specialize (Hf E). destruct g as [b n|u]; [contradiction|].
    apply resolve_free; intro A; apply (C2 f x Ff Fx);
      [apply (Hp (or_intror E))|apply Hi]; exact A.
  - intros x Hx. destruct (Ht x Hx) as (A & B & C).
    rewrite resolve_free by assumption. apply core_site. apply C3. exact A.
  - intros x Hx. apply core_value. apply C4. apply Hv. exact Hx.
  - intros x Hx. unfold binds. rewrite (C5 x (Hb x Hx)). reflexivity.
Qed.

Lemma bits_types : forall n, In (bits_type n) ["u8"; "u16"; "u32"; "u64"; "u128"].
Proof.
  intro n. unfold bits_type, determine_bits.
  repeat match goal with |- context [if ?c then _ else _] => destruct c end; cbn; tauto.
Qed.

Lemma int_name_bits : forall n, int_name n = bits_type n.
Proof.
  intro n. unfold bits_type, determine_bits, int_name, find, fst, snd.
  assert (E : forall w, (N.of_nat n <=? N.of_nat w)%N = Nat.leb n w).
  { intros w. destruct (Nat.leb_spec n w); [apply N.leb_le|apply N.leb_gt]; lia. }
  pose proof (E 8). pose proof (E 16). pose proof (E 32). pose proof (E 64). pose proof (E 128).
  cbn [N.of_nat Pos.of_succ_nat Pos.succ] in *.
  repeat match goal with H : _ = Nat.leb _ _ |- _ => rewrite H; clear H end.
  destruct (Nat.leb n 8), (Nat.leb n 16), (Nat.leb n 32), (Nat.leb n 64), (Nat.leb n 128); reflexivity.
Qed.

Ltac lists :=
  unfold incl; cbn -[field_names bits_type int_name]; intros;
  repeat match goal with
  | H : context [some_none ?n] |- _ => destruct n; cbn -[field_names bits_type int_name] in *
  | H : context [match ?n with 0 => _ | S _ => _ end] |- _ =>
      destruct n; cbn -[field_names bits_type int_name] in *
  end;
  repeat rewrite in_app_iff in *; cbn -[field_names bits_type int_name] in *; try solve [tauto | intuition discriminate].

Ltac types :=
  intros ? ?; cbn -[bits_type int_name] in *;
  repeat match goal with H : _ \/ _ |- _ => destruct H as [<-|H] end; try contradiction;
  cbn -[bits_type int_name]; rewrite ?int_name_bits; repeat split;
  solve [ tauto
        | intuition discriminate
        | match goal with |- context [bits_type ?n] =>
            pose proof (bits_types n) as B; cbn -[bits_type int_name] in B;
            intuition congruence end ].

Ltac region D C :=
  eapply region_from;
  [ exact D | exact C | solve [lists] | solve [lists] | discriminate || solve [trivial]
  | types | solve [lists] | solve [lists] ].

(** The same by computation, for lists known in full. *)
Definition sub (l l' : list string) : bool := forallb (fun x => mem x l') l.

Lemma sub_incl : forall l l', sub l l' = true -> incl l l'.
Proof.
  intros l l' H x X. unfold sub in H. rewrite forallb_forall in H.
  apply mem_in. apply H. exact X.
Qed.

Definition region_fits (g : generator) (r : region) : bool :=
  sub (items_of g) (reserved g) &&
  (negb (rg_ident r || rg_fields r) || sub (rg_params r) (reserved g)) &&
  forallb (fun x => mem x (needed_types g) && negb (mem x (rg_params r)) &&
                    negb (mem x (items_of g))) (rg_types r) &&
  sub (rg_values r) (needed_values g) && sub (rg_binders r) (variables g).

Lemma region_fits_ok : forall s i u r, declared s i -> clear_names s i (GenAny u) ->
  region_fits (GenAny u) r = true -> region_ok s (items_of (GenAny u)) i r.
Proof.
  intros s i u r D C H. unfold region_fits in H. rewrite !andb_true_iff in H.
  destruct H as ((((H1 & H2) & H3) & H4) & H5).
  apply region_from; try assumption; try (apply sub_incl; assumption).
  - intro E. apply sub_incl. destruct (rg_ident r), (rg_fields r); cbn in H2;
      try exact H2; destruct E; discriminate.
  - intros _. exact I.
  - intros x X. rewrite forallb_forall in H3. specialize (H3 x X).
    rewrite !andb_true_iff, !negb_true_iff in H3. destruct H3 as ((A & B) & E).
    split; [apply mem_in; exact A|]. split; apply mem_out; assumption.
Qed.

Lemma clear_enough : forall s i g, declared s i -> clear_names s i g -> means_well s i g.
Proof.
  intros s i g D C r Hr. destruct g as [b n|u].
  - destruct b; cbn -[field_names some_none bits_type int_name] in Hr;
      repeat (destruct Hr as [<-|Hr]; [region D C|]); contradiction.
  - apply region_fits_ok; [exact D|exact C|].
    assert (A : forallb (region_fits (GenAny u)) (regions_of (GenAny u)) = true)
      by (destruct u; vm_compute; reflexivity).
    rewrite forallb_forall in A. apply A. exact Hr.
Qed.

(** What follows if all regions are right. *)
Lemma well_ident : forall s i g r, declared s i -> means_well s i g -> In r (regions_of g) ->
  rg_ident r = true -> ~ In (nm_ident i) (rg_params r) /\ ~ In (nm_ident i) (items_of g).
Proof.
  intros s i g r D W H E. destruct (W r H) as (A & _). specialize (A E).
  apply (resolve_caught s i); [exact D|]. rewrite A. symmetry. apply ident_site. exact D.
Qed.

Lemma well_field : forall s i g r f x, declared s i -> means_well s i g -> In r (regions_of g) ->
  rg_fields r = true -> In f (nm_fields i) -> In x (fst f) ->
  ~ In x (rg_params r) /\ ~ In x (items_of g).
Proof.
  intros s i g r f x D W H E F X. destruct (W r H) as (_ & A & _).
  apply (resolve_caught s i); [exact D|]. exact (A E f x F X).
Qed.

Lemma well_type : forall s i g x, means_well s i g ->
  (exists r, In r (regions_of g) /\ In x (rg_types r)) ->
  si_types s x = None \/ si_types s x = Some (MCore x).
Proof.
  intros s i g x W (r & H & X). destruct (W r H) as (_ & _ & A & _).
  apply core_site. eapply core_resolved. exact (A x X).
Qed.

Lemma well_value : forall s i g x, means_well s i g ->
  (exists r, In r (regions_of g) /\ In x (rg_values r)) ->
  si_values s x = None \/ si_values s x = Some (MCore x).
Proof.
  intros s i g x W (r & H & X). destruct (W r H) as (_ & _ & _ & A & _).
  apply core_value. exact (A x X).
Qed.

Lemma well_binder : forall s i g x, means_well s i g ->
  (exists r, In r (regions_of g) /\ In x (rg_binders r)) -> si_consts s x = false.
Proof.
  intros s i g x W (r & H & X). destruct (W r H) as (_ & _ & _ & _ & A).
  specialize (A x X). unfold binds in A. destruct (si_consts s x); [discriminate|reflexivity].
Qed.

Lemma somewhere : forall (f : region -> list string) (g : generator) (x : string),
  In x (List.concat (List.map f (regions_of g))) ->
  exists r, In r (regions_of g) /\ In x (f r).
Proof.
  intros f g x H. apply in_concat in H. destruct H as (l & A & B).
  apply in_map_iff in A. destruct A as (r & <- & C). exists r. split; assumption.
Qed.

(** Finds a name in a list, stepping over the names of the variants. *)
Ltac in_list :=
  first [ left; reflexivity
        | assumption
        | right; in_list
        | apply in_or_app; left; assumption
        | apply in_or_app; right; in_list ].

Ltac hunt :=
  cbn [List.map List.concat rg_types rg_values rg_binders];
  first [ apply in_or_app; left; solve [in_list]
        | apply in_or_app; right; hunt ].

Ltac found :=
  cbn -[field_names bits_type int_name List.map List.concat regions_of] in *;
  repeat rewrite in_app_iff in *; cbn -[field_names bits_type int_name List.map List.concat regions_of] in *;
  repeat match goal with
  | H : _ \/ _ |- _ => destruct H as [H|H]
  end; subst; try contradiction;
  rewrite ?int_name_bits; cbn -[field_names bits_type int_name List.map List.concat]; hunt.

Lemma clear_needed : forall s i g, declared s i -> means_well s i g -> clear_names s i g.
Proof.
  intros s i g D W.
  assert (T : incl (needed_types g) (List.concat (List.map rg_types (regions_of g)))).
  { intros x H. destruct g as [[|] [|n]|[|]]; found. }
  assert (V : incl (needed_values g) (List.concat (List.map rg_values (regions_of g)))).
  { intros x H. destruct g as [[|] [|n]|[|]]; found. }
  assert (B : incl (variables g) (List.concat (List.map rg_binders (regions_of g)))).
  { intros x H. destruct g as [[|] [|n]|[|]]; found. }
  assert (N : forall x, ~ In x ["F"; "V"] -> ~ In x (items_of g) -> ~ In x (reserved g)).
  { intros x A1 A2 A3.
    assert (S : incl (reserved g) (["F"; "V"] ++ items_of g))
      by (apply sub_incl; destruct g; vm_compute; reflexivity).
    apply S in A3. apply in_app_or in A3. destruct A3; contradiction. }
  split; [|split; [|split; [|split]]].
  - assert (R : exists r1, In r1 (regions_of g) /\ rg_ident r1 = true /\
                (rg_params r1 = ["F"; "V"])).
    { destruct g as [b n|u].
      - eexists. split; [do 11 right; left; reflexivity|]. split; reflexivity.
      - eexists. split; [do 13 right; left; reflexivity|]. split; reflexivity. }
    destruct R as (r & R1 & R2 & R3).
    destruct (well_ident s i g r D W R1 R2) as [A A']. rewrite R3 in A.
    apply N; assumption.
  - destruct g as [b n|u]; [exact I|]. intros f x F X.
    assert (R : exists r1, In r1 (regions_of (GenAny u)) /\ rg_fields r1 = true /\
                (rg_params r1 = ["F"; "V"])).
    { eexists. split; [do 13 right; left; reflexivity|]. split; reflexivity. }
    destruct R as (r & R1 & R2 & R3).
    destruct (well_field s i _ r f x D W R1 R2 F X) as [A A']. rewrite R3 in A.
    apply N; assumption.
  - intros x H. apply (well_type s i g x W). apply somewhere. apply T. exact H.
  - intros x H. apply (well_value s i g x W). apply somewhere. apply V. exact H.
  - intros x H. apply (well_binder s i g x W). apply somewhere. apply B. exact H.
Qed.

Lemma names_exact : forall s i g, declared s i -> (means_well s i g <-> clear_names s i g).
Proof.
  intros s i g D. split; [apply clear_needed|apply clear_enough]; exact D.
Qed.

Lemma errors_exact : forall i u, derive_errors i (GenAny u) = false <->
  forall f, In f (nm_fields i) -> snd f = 0.
Proof.
  intros i u. unfold derive_errors, element_parses. rewrite negb_false_iff, forallb_forall.
  split; intros H f F.
  - apply Nat.eqb_eq. apply H. exact F.
  - apply Nat.eqb_eq. apply H. exact F.
Qed.

(** The witnesses of the refutation. *)

(** A module that declares just the enum [x]. *)
Definition only (x : string) : site :=
  MkSite (fun y => if String.eqb y x then Some MEnum else None) (fun _ => None) (fun _ => false).

Lemma only_declared : forall x l, declared (only x) (MkNamed x l).
Proof.
  intros x l. split.
  - cbn. rewrite String.eqb_refl. reflexivity.
  - intros y m H. cbn in H. destruct (String.eqb y x); [|discriminate].
    injection H as <-. split; intro; discriminate.
Qed.

(** Such a module has no trouble unless the enum takes a name that is in use. *)
Lemma only_clear : forall x g, clear_names (only x) (MkNamed x []) g <->
  ~ In x (reserved g) /\ ~ In x (needed_types g).
Proof.
  intros x g. unfold clear_names. cbn [nm_ident nm_fields only si_types si_values si_consts].
  split.
  - intros (A & _ & B & _). split; [exact A|]. intro C. specialize (B x C).
    rewrite String.eqb_refl in B. destruct B; discriminate.
  - intros (A & B). split; [exact A|]. split; [destruct g; cbn; tauto|].
    split; [|split; auto]. intros y C. left. destruct (String.eqb y x) eqn:E; [|reflexivity].
    apply String.eqb_eq in E. subst. contradiction.
Qed.

Lemma names_refuted :
  ~ names_do_not_matter /\
  (exists s i, declared s i /\ nm_ident i = "V" /\ ~ means_well s i (GenUnit false 2)) /\
  (exists s i, declared s i /\ nm_fields i = [(["V"], 0)] /\ ~ means_well s i (GenAny false)) /\
  (exists s i, declared s i /\ (forall x, si_consts s x = true -> x = "value") /\
     nm_ident i = "Key" /\ ~ means_well s i (GenUnit false 2)) /\
  (exists s i, declared s i /\ means_well s i (GenAny true) /\
     derive_errors i (GenAny true) = true).
Proof.
  assert (A : ~ means_well (only "V") (MkNamed "V" []) (GenUnit false 2)).
  { rewrite names_exact by apply only_declared. rewrite only_clear. cbn. intuition. }
  split; [|split; [|split; [|split]]].
  - intro H. apply A. apply H. apply only_declared.
  - exists (only "V"), (MkNamed "V" []). split; [apply only_declared|]. split; [reflexivity|exact A].
  - exists (only "E"), (MkNamed "E" [(["V"], 0)]). split; [apply only_declared|].
    split; [reflexivity|]. rewrite names_exact by apply only_declared.
    intros (_ & B & _). apply (B (["V"], 0) "V"); cbn; tauto.
  - set (s := MkSite (si_types (only "Key")) (si_values (only "Key")) (String.eqb "value")).
    exists s, (MkNamed "Key" []).
    assert (D : declared s (MkNamed "Key" [])) by exact (only_declared "Key" []).
    split; [exact D|]. split; [intros x E; symmetry; apply String.eqb_eq; exact E|].
    split; [reflexivity|]. rewrite names_exact by exact D. intros (_ & _ & _ & _ & B).
    specialize (B "value"). cbn in B. assert (C : true = false) by (apply B; tauto). discriminate.
  - exists (only "Key"), (MkNamed "Key" [(["u8"], 1)]). split; [apply only_declared|].
    split; [|reflexivity]. apply names_exact; [apply only_declared|].
    destruct (proj2 (only_clear "Key" (GenAny true))) as (P & _ & Q).
    { cbn. intuition discriminate. }
    split; [exact P|]. split; [|exact Q]. intros f x [<-|[]] [<-|[]]. cbn. intuition discriminate.
Qed.

Lemma names_full : forall (s : site) (i : named) (g : generator), declared s i ->
  (means_well s i g <-> clear_names s i g) /\
  (forall u, g = GenAny u ->
     (derive_errors i g = false <-> forall f, In f (nm_fields i) -> snd f = 0)) /\
  (forall b n, g = GenUnit b n -> derive_errors i g = false).
Proof.
  intros s i g D. split; [exact (names_exact s i g D)|]. split.
  - intros u ->. exact (errors_exact i u).
  - intros b n ->. reflexivity.
Qed.

Lemma names_served : forall (s : site) (i : named) (g : generator), declared s i ->
  clear_names s i g -> (forall f, In f (nm_fields i) -> snd f = 0) ->
  derive_errors i g = false /\ means_well s i g.
Proof.
  intros s i g D C F. split; [|apply names_exact; assumption].
  destruct g as [b n|u]; [reflexivity|]. apply errors_exact. exact F.
Qed.
