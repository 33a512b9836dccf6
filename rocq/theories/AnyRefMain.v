(** The code generated for enums with tuple variants is a map. *)
Require Import List Arith NArith Bool String Lia Permutation Sorted.
Import ListNotations.
From Verif Require Import Std Traits DeriveAny Key Spec KeyLaws EffectSpec IterLaws MapCore MapLaws MapFacts
  EffectProofs IterProofs ClearSpec ClearProofs Rust AnyCode AnyRun CodeSpec AnyCodeSpec AnyRetains AnyCodeMain AnyRefSpec AnyRef.
Open Scope list_scope.

Definition described (R : Type) : Type := (fields R * (R -> R -> Prop) * (R -> leaf) *
  ((R -> option R) * ((R -> R -> bool) * (R -> R -> spot))))%type.

Section Enum.
  Context {T : Type} (ty : T -> kty) (impl : forall t, KeyImpl (key (ty t))).
  Hypothesis from : forall t, derive (ty t) = Some (impl t).
  Notation R_of := (R_of (K := fun t => key (ty t))).

  Lemma flds_derived flds : exists fs, derive_fields (variants_in ty flds) = Some fs /\
    existT described (R_of flds) (fs_of impl flds, earlier ty flds, leaf_in ty flds, (other_in ty flds, (stays_in ty flds, together_in ty flds))) =
    existT described (keys (variants_in ty flds))
      (fs, keys_before (variants_in ty flds), leaves_of (variants_in ty flds),
       (siblings (variants_in ty flds),
        (in_one_bitset (variants_in ty flds), placed_in (variants_in ty flds)))).
  Proof.
    induction flds as [|[x [t|]] r (fs & E & IH)].
    - exists FNil. split; reflexivity.
    - exists (FTuple (impl t) fs). split; [cbn; now rewrite from, E|].
      exact (f_equal (fun p : {R : Type & described R} =>
        existT described (key (ty t) + projT1 p)%type
          (FTuple (impl t) (fst (fst (fst (projT2 p)))),
           fun a b => match a, b with
             | inl x, inl y => key_before (ty t) x y
             | inl _, inr _ => True
             | inr _, inl _ => False
             | inr x, inr y => snd (fst (fst (projT2 p))) x y
             end,
           fun k => match k with inl x => leaf_of (ty t) x | inr x => snd (fst (projT2 p)) x end,
           (fun k => match k with inl x => option_map inl (sibling (ty t) x)
              | inr x => option_map inr (fst (snd (projT2 p)) x) end,
            (fun a b => match a, b with
               | inl x, inl y => one_bitset (ty t) x y
               | inr x, inr y => fst (snd (snd (projT2 p))) x y
               | _, _ => false
               end,
             fun a b => match a, b with
               | inl x, inl y => placed (ty t) x y
               | inr x, inr y => snd (snd (snd (projT2 p))) x y
               | _, _ => Elsewhere
               end)))) IH).
    - exists (FUnit fs). split; [cbn; now rewrite E|].
      exact (f_equal (fun p : {R : Type & described R} =>
        existT described (unit + projT1 p)%type
          (FUnit (fst (fst (fst (projT2 p)))),
           fun a b : unit + projT1 p => match a return Prop with
             | inl _ => match b return Prop with inl _ => False | inr _ => True end
             | inr x => match b return Prop with inl _ => False | inr y => snd (fst (fst (projT2 p))) x y end
             end,
           fun k => match k with inl x => LVariant | inr x => snd (fst (projT2 p)) x end,
           (fun k => match k with inl _ => None | inr x => option_map inr (fst (snd (projT2 p)) x) end,
            (fun a b : unit + projT1 p => match a return bool with
               | inl _ => false
               | inr x => match b return bool with inl _ => false | inr y => fst (snd (snd (projT2 p))) x y end
               end,
             fun a b : unit + projT1 p => match a return spot with
               | inl _ => Elsewhere
               | inr x => match b return spot with inl _ => Elsewhere | inr y => snd (snd (snd (projT2 p))) x y end
               end)))) IH).
  Qed.

  Lemma not_units flds : (exists x t, In (x, Some t) flds) -> as_units (variants_in ty flds) = None.
  Proof.
    induction flds as [|[x [t|]] r IH]; intros (y & u & H); [destruct H|reflexivity|].
    destruct H as [H|H]; [discriminate|]. cbn. rewrite IH; [reflexivity|]. now exists y, u.
  Qed.

  Lemma all_retain t : retains (impl t).
  Proof. exact (proj1 derive_retains (ty t) (impl t) (from t)). Qed.

  Lemma flds_facts flds V : (exists x t, In (x, Some t) flds) ->
    let m := any_map_storage V (fs_of impl flds) in
    let both := hash_free_variants (variants_in ty flds) in
    exists sp, exists L : MapLaws sp m,
      (forall a b, ks_before sp a b <-> earlier ty flds a b) /\
      (forall k, ks_leaf sp k = LUnit <-> leaf_in ty flds k = LUnit) /\
      (forall D (dr : drop_fn D V),
         clears_at (together_in ty flds) dr (fun k => k) (fun d st => ms_clear_drop m dr d st)
           (fun f s st => ms_retain m f s st)) /\
      (forall X (f : clone_fn X V),
         clones f (fun x st => ms_clone_with m f x st) (fun g x st => ms_retain m g x st)
           (ms_clone m)) /\
      is_some (it_back (ms_Iter m)) = both /\ is_some (it_back (ms_Keys m)) = both /\
      is_some (it_back (ms_Values m)) = both /\ is_some (it_back (ms_IterMut m)) = both /\
      is_some (it_back (ms_ValuesMut m)) = both /\ is_some (it_back (ms_IntoIter m)) = both.
  Proof.
    intros Ht. pose proof (not_units flds Ht) as Hu.
    destruct (flds_derived flds) as (fs & Ef & Es). cbv zeta.
    set (vs := variants_in ty flds) in *.
    pose (Q := fun p : {R : Type & described R} =>
      let m := any_map_storage V (fst (fst (fst (projT2 p)))) in
      exists sp, exists L : MapLaws sp m,
        (forall a b, ks_before sp a b <-> snd (fst (fst (projT2 p))) a b) /\
        (forall k, ks_leaf sp k = LUnit <-> snd (fst (projT2 p)) k = LUnit) /\
        (forall D (dr : drop_fn D V),
           clears_at (snd (snd (snd (projT2 p)))) dr (fun k => k) (fun d st => ms_clear_drop m dr d st)
             (fun f s st => ms_retain m f s st)) /\
        (forall X (f : clone_fn X V),
           clones f (fun x st => ms_clone_with m f x st) (fun g x st => ms_retain m g x st)
             (ms_clone m)) /\
        is_some (it_back (ms_Iter m)) = hash_free_variants vs /\
        is_some (it_back (ms_Keys m)) = hash_free_variants vs /\
        is_some (it_back (ms_Values m)) = hash_free_variants vs /\
        is_some (it_back (ms_IterMut m)) = hash_free_variants vs /\
        is_some (it_back (ms_ValuesMut m)) = hash_free_variants vs /\
        is_some (it_back (ms_IntoIter m)) = hash_free_variants vs).
    change (Q (existT described (R_of flds) (fs_of impl flds, earlier ty flds, leaf_in ty flds, (other_in ty flds, (stays_in ty flds, together_in ty flds))))).
    rewrite Es. unfold Q. cbn [projT2 fst snd]. clear Es Q.
    assert (E : derive (KEnum false vs) = Some (derive_any fs)) by (cbn; now rewrite Hu, Ef).
    exists (key_spec (KEnum false vs)), (derive_map_laws (KEnum false vs) (derive_any fs) V E).
    split; [intros a b; exact (proj1 spec_before (KEnum false vs) a b)|].
    split; [intros k; pose proof (proj1 spec_leaf (KEnum false vs) k) as Hl;
            unfold key_spec in *; cbn in Hl |- *; rewrite Hl; reflexivity|].
    split; [intros D dr; 
            refine (proj1 derive_at (KEnum false vs) _ E V D dr _ (placed_in vs) (fun k => k) _);
            intros a b; cbn [placed]; now rewrite (as_units_none vs Hu)|].
    split; [intros X f; exact (proj1 derive_clones (KEnum false vs) _ E V X f)|].
    destruct (proj1 derive_ends (KEnum false vs) _ E) as [He _].
    destruct (He V) as (H1 & H2 & H3 & H4 & H5 & H6).
    repeat split; assumption.
  Qed.
End Enum.

Lemma is_a_map {T : Type} (T_dec : forall a b : T, {a = b} + {a <> b}) (ty : T -> kty)
  (impl : forall t, KeyImpl (key (ty t))) (V S : Type) (U : auser (fun t => key (ty t)) V S)
  (flds : vfields T) w l s :
  (forall t, derive (ty t) = Some (impl t)) -> NoDup (map fst flds) ->
  (exists x t, In (x, Some t) flds) ->
  exists rs s' self es,
    work T_dec impl U flds (do_task T_dec impl U flds) (any_map_code flds) w l s =
      Some (rs, s', self) /\
    ref_tasks (written flds) (earlier ty flds) (fun k => leaf_in ty flds k = LUnit)
      (a_keep2_fn U flds) (vf_clone (a_values U)) (vf_drop (a_values U)) (together_in ty flds)
      (hash_free_variants (variants_in ty flds)) l s [] rs s' es.
Proof.
  intros From N Ht.
  destruct (flds_facts ty impl From flds V Ht) as (sp & L & H1 & H2 & H3 & H4 & H5).
  destruct (ml_empty _ _ L w) as [I0 E0].
  pose proof (every_replies impl U flds sp L _ _ _ _ H1 H2 H3 H4 H5 l s _ I0) as Hr.
  rewrite (map_work T_dec impl U flds N (all_retain ty impl From) w l s).
  destruct (replies (model_task impl U flds) l s (ms_empty (any_map_storage V (fs_of impl flds)) w))
    as [[rs s'] st'].
  eexists rs, s', _, _. split; [reflexivity|]. cbv beta in Hr. rewrite E0 in Hr. exact Hr.
Qed.
