(** A storage that obeys the laws never answers a request with [Bad]. *)
Require Import List Bool.
Import ListNotations.
From Verif Require Import Std Traits Spec MapCore IterLaws MapLaws ClearSpec ClearProofs EffectProofs SrcSpec.

(** The items that an iterator hands out are those that remained. *)
Lemma say_in {A B} (I : iterator A) (L : it_laws I) clones (f : option A -> B) h (P : B -> Prop) l :
  (forall n o, P (h (n, o))) -> P (f None) ->
  forall it, il_ok L it -> (forall a, In a (il_rem L it) -> P (f (Some a))) ->
  Forall P (say I clones f h l it).
Proof.
  intros Ph Pn. induction l as [|[] l IH]; intros it O Pa; cbn [say].
  - constructor.
  - destruct (il_next I L it O) as (it' & -> & O' & R). constructor.
    + destruct (il_rem L it) as [|a r]; [exact Pn|apply Pa; now left].
    + apply IH; [exact O'|]. intros a Ha. apply Pa. rewrite R in Ha.
      destruct (il_rem L it); [exact Ha|now right].
  - destruct (it_back I) as [b|] eqn:Eb; [|now apply IH].
    destruct (il_back I L b it Eb O) as (it' & -> & O' & R). 
    assert (Hl : forall a (r : list A), In a (removelast r) -> In a r).
    { clear. intros a r. induction r as [|x [|y r] IH]; [intros []|intros []|].
      intros [->|H]; [now left|right; now apply IH]. }
    constructor.
    + destruct (last_error (il_rem L it)) as [a|] eqn:El; [|exact Pn].
      apply Pa. unfold last_error in El. apply in_rev.
      destruct (rev (il_rem L it)); [discriminate|]. injection El as ->. now left.
    + apply IH; [exact O'|]. intros a Ha. apply Pa. rewrite R in Ha. now apply Hl.
  - rewrite (il_clone I L). destruct clones; now apply IH.
  - constructor; [|now apply IH]. now destruct (it_hint I it).
Qed.

Section Map.
  Context {K V S : Type} (m : MapStorage K V) {sp : KeySpec K} (L : MapLaws sp m) (U : user_fns K V S).
  Context (pl : K -> K -> spot).
  Hypothesis clears : forall D (dr : drop_fn D V),
    clears_at pl dr (fun k => k) (fun d st => ms_clear_drop m dr d st) (fun f s st => ms_retain m f s st).
  Hypothesis cloned : forall X (f : clone_fn X V),
    clones f (fun x st => ms_clone_with m f x st) (fun g x st => ms_retain m g x st) (ms_clone m).
  Notation C := (ml_core L).
  Notation inv := (c_inv C).
  Notation ents := (c_ents C).

  Lemma retain_inv X (f : retain_fn X K V) x st x' st' oc :
    inv st -> ms_retain m f x st = (x', st', oc) -> inv st'.
  Proof.
    intros I E. destruct (c_retain _ _ _ C X f x st I) as (x1 & st1 & oc1 & E1 & I1 & _).
    cbn in E1. rewrite E in E1. now injection E1 as <- <- <-.
  Qed.

  Lemma insert_inv st k v : inv st -> inv (snd (ms_insert m st k v)).
  Proof.
    intros I. destruct (lookup (ks_eqb sp) k (ents st)) as [[old r]|] eqn:E.
    - destruct (c_insert_some _ _ _ C st k v old r I E) as (st' & Es & Ei). cbn in Ei. rewrite Ei.
      now destruct (c_store _ _ _ C st r v st' I Es) as (_ & H & _).
    - destruct (c_insert_none _ _ _ C st k v I E) as (st' & Ei & H & _). cbn in Ei. now rewrite Ei.
  Qed.
  Lemma remove_inv st k : inv st -> inv (snd (ms_remove m st k)).
  Proof.
    intros I. destruct (c_remove _ _ _ C st k I) as (st' & E & H & _). cbn in E. now rewrite E.
  Qed.
  Lemma lookup_in k l v r : lookup (ks_eqb sp) k l = Some (v : V, r) -> In r (map eref l).
  Proof.
    induction l as [|[[k' v'] r'] l IH]; cbn; [discriminate|].
    destruct (ks_eqb sp k k'); [intros [= -> ->]; now left|]. intros H. right. auto.
  Qed.
  Lemma load_ok r (l : list (K * V * ref)) : In r (map eref l) -> exists v, load_ref r l = Some v.
  Proof.
    induction l as [|e l IH]; cbn; [intros []|]. intros H.
    destruct (ref_eqb r (eref e)) eqn:E; [now eexists|]. destruct H as [H|H]; [|auto].
    assert (X : ref_eqb r (eref e) = true) by now apply ref_eqb_eq. congruence.
  Qed.
  Lemma upd_refs r (v : V) (l : list (K * V * ref)) : map eref (upd_ref r v l) = map eref l.
  Proof. unfold upd_ref. rewrite map_map. reflexivity. Qed.

  Lemma put_ok st r v : inv st -> In r (map eref (ents st)) ->
    exists st', ms_store m st r v = Some st' /\ inv st' /\ map eref (ents st') = map eref (ents st).
  Proof.
    intros I H. destruct (c_store_ok _ _ _ C st r v I H) as (st' & E). cbn in E.
    exists st'. split; [exact E|]. destruct (c_store _ _ _ C st r v st' I E) as (_ & I' & ->).
    split; [exact I'|apply upd_refs].
  Qed.

  Lemma put_all_ok g l : forall st, inv st ->
    Forall (fun x => match x with inl _ => True | inr (_, r) => In r (map eref (ents st)) end) l ->
    exists l' st', put_all m g l st = Some (l', st') /\ inv st'.
  Proof.
    induction l as [|[a|[k r]] l IH]; intros st I H; cbn [put_all].
    - now exists [], st.
    - inversion H; subst. destruct (IH st I) as (l' & st' & -> & I'); [assumption|].
      now exists (a :: l'), st'.
    - inversion H as [|? ? Hr Hl]; subst.
      destruct (load_ok r (ents st) Hr) as (v & Ev). pose proof (c_load _ _ _ C st r I) as El. cbn in El.
      rewrite El, Ev. destruct (put_ok st r (g k v) I Hr) as (st1 & Es & I1 & E1). rewrite Es.
      destruct (IH st1 I1) as (l' & st' & -> & I'); [rewrite E1; exact Hl|].
      cbn. now eexists _, _.
  Qed.

  Definition fine (x : S * ms_St m * ans K V) : Prop := inv (snd (fst x)) /\ snd x <> Bad.

  Lemma items_fine {A} (J : iterator A) (LJ : it_laws J) f g l it s st :
    inv st -> il_ok LJ it -> (forall a, In a (il_rem LJ it) -> In (snd (f a)) (map eref (ents st))) ->
    fine (items_mut m J f g l it s st).
  Proof.
    intros I O H. unfold items_mut.
    destruct (put_all_ok g (say J false (fun o => match o with
                                           | Some a => inr (f a)
                                           | None => inl (Item None)
                                           end) (fun h => inl (hint_of h)) l it) st I) as (l' & st' & -> & I').
    - apply (say_in J LJ); auto. intros a Ha. specialize (H a Ha). now destruct (f a).
    - now split.
  Qed.

  Lemma req_fine q s st : inv st -> fine (map_req U m q s st).
  Proof.
    intros I. destruct q as [| |k|k|k v|k v|k| | | |i l|g l|g l|k a]; cbn [map_req].
    - now split.
    - now split.
    - now split.
    - now split.
    - pose proof (insert_inv st k v I) as H. destruct (ms_insert m st k v) as [o st']. now split.
    - pose proof (c_get_mut _ _ _ C st k I) as E. cbn in E. rewrite E.
      destruct (lookup (ks_eqb sp) k (ents st)) as [[old r]|] eqn:El; cbn [option_map snd]; [|now split].
      destruct (put_ok st r v I (lookup_in _ _ _ _ El)) as (st' & Es & I' & _).
      unfold put. rewrite Es. now split.
    - pose proof (remove_inv st k I) as H. destruct (ms_remove m st k) as [o st']. now split.
    - destruct (ms_retain m (keep_fn U) s st) as [[s' st'] o] eqn:E.
      split; [exact (retain_inv _ _ _ _ _ _ _ I E)|]. now destruct o.
    - destruct (ms_clear_drop m (u_drop U) s st) as [[s' st'] o] eqn:E.
      destruct (proj1 (clears S (u_drop U)) s st s' st' o E) as (w & _ & _ & Er).
      split; [exact (retain_inv _ _ _ _ _ _ _ I Er)|]. now destruct o.
    - pose proof (proj1 (cloned S (u_clone U)) s st) as E.
      destruct (ms_clone_with m (u_clone U) s st) as [s' [st'|]]; [|now split].
      split; [exact (retain_inv _ _ _ _ _ _ _ I E)|discriminate].
    - destruct i; now split.
    - destruct (ml_iter_mut _ _ L st I) as [O R]. apply (items_fine (ms_IterMut m) (ml_IterMut L)); auto.
      intros a Ha. rewrite R in Ha. apply in_map_iff in Ha as (e & <- & He). cbn. now apply in_map.
    - destruct (ml_values_mut _ _ L st I) as [O R]. apply (items_fine (ms_ValuesMut m) (ml_ValuesMut L)); auto.
      intros a Ha. rewrite R in Ha. exact Ha.
    - unfold use_entry. pose proof (ml_entry _ _ L st k I) as E.
      destruct (lookup (ks_eqb sp) k (ents st)) as [[old r]|] eqn:El.
      + destruct E as (o & -> & Ho). destruct (ml_occ _ _ L st o k r I Ho) as (v & Ev & E1 & E2 & E3 & E4 & E5 & E6).
        pose proof (lookup_in _ _ _ _ El) as Hr.
        destruct a as [| |x|x|x|]; unfold if_ok.
        * rewrite E1. now split.
        * rewrite E2. now split.
        * rewrite E3. unfold put. destruct (put_ok st r x I Hr) as (st' & -> & I' & _). now split.
        * rewrite E4. unfold put. destruct (put_ok st r x I Hr) as (st' & -> & I' & _). now split.
        * destruct (E5 x) as (st' & Es & ->). split; [|discriminate].
          now destruct (c_store _ _ _ C st r x st' I Es) as (_ & H & _).
        * rewrite E6. split; [|discriminate]. now apply remove_inv.
      + destruct E as (x & -> & Hx). destruct (ml_vac _ _ L st x k I Hx) as (_ & Ek & Ei).
        destruct a as [| |y|y|y|]; unfold if_ok; try (now split).
        destruct (Ei y) as (r & -> & Er). cbn [fst snd].
        pose proof (insert_inv st k y I) as I'. split; [exact I'|].
        pose proof (c_get_mut _ _ _ C _ k I') as Eg. cbn in Eg. rewrite Er in Eg.
        destruct (lookup (ks_eqb sp) k (ents (snd (ms_insert m st k y)))) as [[z r']|] eqn:El'; [|discriminate].
        injection Eg as ->. pose proof (c_load _ _ _ C _ r' I') as Ed. cbn in Ed. cbn. rewrite Ed.
        destruct (load_ok r' _ (lookup_in _ _ _ _ El')) as (z' & ->). discriminate.
  Qed.

  Lemma answers_fine l : forall s st, inv st -> ~ In Bad (fst (fst (answers (map_req U m) l s st))).
  Proof.
    induction l as [|q l IH]; intros s st I; cbn [answers]; [intros []|].
    pose proof (req_fine q s st I) as [I1 N]. destruct (map_req U m q s st) as [[s1 st1] a]. cbn in I1, N.
    specialize (IH s1 st1 I1). destruct (answers (map_req U m) l s1 st1) as [[r s2] st2].
    cbn in IH |- *. intros [H|H]; auto.
  Qed.
  Lemma new_answers_fine w l s : ~ In Bad (fst (fst (answers (map_req U m) l s (ms_empty m w)))).
  Proof. apply answers_fine. now destruct (ml_empty _ _ L w). Qed.
End Map.

Section Set_.
  Context {K V S : Type} (m : SetStorage K) (U : user_fns K V S).
  Lemma set_answers_fine l : forall s st, ~ In Bad (fst (fst (answers (set_req U m) l s st))).
  Proof.
    induction l as [|q l IH]; intros s st; cbn [answers]; [intros []|].
    destruct (set_req U m q s st) as [[s1 st1] a] eqn:E.
    assert (N : a <> Bad).
    { destruct q as [| |k|k|k| | | |[] l']; cbn [set_req] in E;
        try (injection E as _ _ <-; discriminate).
      - destruct (ss_insert m st k) as [b st']. injection E as _ _ <-. discriminate.
      - destruct (ss_remove m st k) as [b st']. injection E as _ _ <-. discriminate.
      - destruct (ss_retain m (keep1_fn U) s st) as [[? ?] []]; injection E as _ _ <-; discriminate. }
    specialize (IH s1 st1). destruct (answers (set_req U m) l s1 st1) as [[r s2] st2].
    cbn in IH |- *. intros [H|H]; auto.
  Qed.
End Set_.
