(** Laws of a whole map storage, and their proof for the storages of
    src/map/storage/ and for unit enums. *)
Require Import List Arith NArith Bool Lia Permutation Sorted.
Import ListNotations.
From Verif Require Import Std Traits OptionBucket Hashbrown MapStorages DeriveUnit
  DeriveAny Spec IterLaws DropLaws MapCore.

(** What the laws need to know about a key type. *)
Record KeySpec (K : Type) : Type := MkKeySpec {
  ks_eqb : K -> K -> bool;
  ks_before : K -> K -> Prop;
  ks_leaf : K -> leaf;
  ks_sib : K -> option K
}.
Arguments MkKeySpec {K}.
Arguments ks_eqb {K}.
Arguments ks_before {K}.
Arguments ks_leaf {K}.
Arguments ks_sib {K}.

Notation c_inv_of c := (c_inv c) (only parsing).

Record MapLaws {K V} (sp : KeySpec K) (m : MapStorage K V) : Type := MkMapLaws {
  ml_core : Core (ks_eqb sp) (ks_before sp) (ops_of m);
  ml_Iter : it_laws (ms_Iter m);
  ml_Keys : it_laws (ms_Keys m);
  ml_Values : it_laws (ms_Values m);
  ml_IterMut : it_laws (ms_IterMut m);
  ml_ValuesMut : it_laws (ms_ValuesMut m);
  ml_IntoIter : it_laws (ms_IntoIter m);
  ml_drops : drop_laws (fun a b => ks_before sp (fst a) (fst b)) ml_IntoIter;
  ml_occ_ok : ms_St m -> ms_Occ m -> K -> ref -> Prop;
  ml_vac_ok : ms_St m -> ms_Vac m -> K -> Prop;
  ml_empty : forall w, c_inv ml_core (ms_empty m w) /\ c_ents ml_core (ms_empty m w) = [];
  ml_iter : forall st, c_inv ml_core st ->
    il_ok ml_Iter (ms_iter m st) /\
    il_rem ml_Iter (ms_iter m st) = map fst (c_ents ml_core st);
  ml_keys : forall st, c_inv ml_core st ->
    il_ok ml_Keys (ms_keys m st) /\
    NoDup (il_rem ml_Keys (ms_keys m st)) /\
    StronglySorted (fun a b => ~ ks_before sp b a) (il_rem ml_Keys (ms_keys m st)) /\
    (forall k, In k (il_rem ml_Keys (ms_keys m st)) <->
               In k (map ekey (c_ents ml_core st)) \/ ks_leaf sp k = LUnit) /\
    filter (ms_contains_key m st) (il_rem ml_Keys (ms_keys m st)) =
      map ekey (c_ents ml_core st);
  ml_values : forall st, c_inv ml_core st ->
    il_ok ml_Values (ms_values m st) /\
    il_rem ml_Values (ms_values m st) = map evalue (c_ents ml_core st);
  ml_iter_mut : forall st, c_inv ml_core st ->
    il_ok ml_IterMut (ms_iter_mut m st) /\
    il_rem ml_IterMut (ms_iter_mut m st) =
      map (fun e => (ekey e, eref e)) (c_ents ml_core st);
  ml_values_mut : forall st, c_inv ml_core st ->
    il_ok ml_ValuesMut (ms_values_mut m st) /\
    il_rem ml_ValuesMut (ms_values_mut m st) = map eref (c_ents ml_core st);
  ml_into_iter : forall st, c_inv ml_core st ->
    il_ok ml_IntoIter (ms_into_iter m st) /\
    il_rem ml_IntoIter (ms_into_iter m st) = map fst (c_ents ml_core st);
  ml_drop : forall st, c_inv ml_core st ->
    dl_ok ml_drops (ms_into_iter m st) /\
    forall D (dr : drop_fn D V) (dr' : drop_fn D (K * V)) d,
      (forall d e, dr' d e = dr d (snd e)) ->
      ms_drop m dr d st = it_drop (ms_IntoIter m) dr' d (ms_into_iter m st);
  ml_entry : forall st k, c_inv ml_core st ->
    match lookup (ks_eqb sp) k (c_ents ml_core st) with
    | Some (_, r) => exists o, ms_entry m st k = Ok (Occupied o) /\ ml_occ_ok st o k r
    | None => exists x, ms_entry m st k = Ok (Vacant x) /\ ml_vac_ok st x k
    end;
  ml_occ : forall st o k r, c_inv ml_core st -> ml_occ_ok st o k r ->
    exists v, lookup (ks_eqb sp) k (c_ents ml_core st) = Some (v, r) /\
      ms_occ_key m st o = Ok k /\ ms_occ_get m st o = Ok v /\
      ms_occ_get_mut m st o = Ok r /\ ms_occ_into_mut m st o = Ok r /\
      (forall v', exists st', ms_store m st r v' = Some st' /\
                              ms_occ_insert m st o v' = Ok (v, st')) /\
      ms_occ_remove m st o = Ok (v, snd (ms_remove m st k));
  ml_occ_stable : forall st o k r v st', c_inv ml_core st -> ml_occ_ok st o k r ->
    ms_store m st r v = Some st' -> ml_occ_ok st' o k r;
  ml_vac : forall st x k, c_inv ml_core st -> ml_vac_ok st x k ->
    lookup (ks_eqb sp) k (c_ents ml_core st) = None /\ ms_vac_key m st x = k /\
    forall v, exists r, ms_vac_insert m st x v = Ok (r, snd (ms_insert m st k v)) /\
                        ms_get_mut m (snd (ms_insert m st k v)) k = Some r
}.
Arguments ml_core {K V sp m}.
Arguments ml_Iter {K V sp m}.
Arguments ml_Keys {K V sp m}.
Arguments ml_Values {K V sp m}.
Arguments ml_IterMut {K V sp m}.
Arguments ml_ValuesMut {K V sp m}.
Arguments ml_IntoIter {K V sp m}.
Arguments ml_drops {K V sp m}.
Arguments ml_occ_ok {K V sp m}.
Arguments ml_vac_ok {K V sp m}.

(** * Buckets *)
Section Buckets.
  Context {St V : Type} (c : cells St V) (st : St) (p : ref).

  Lemma bucket_new o : cell_get c st p = Some o ->
    option_bucket_new c st p =
    Ok (if is_some o then OBSome (MkSomeBucket p) else OBNone (MkNoneBucket p)).
  Proof.
    intros E. unfold option_bucket_new, some_new_unchecked, none_new_unchecked, cell_read.
    rewrite E. simpl. destruct o; reflexivity.
  Qed.

  Lemma bucket_as_ref v : cell_get c st p = Some (Some v) ->
    some_as_ref c st (MkSomeBucket p) = Ok v.
  Proof. intros E. unfold some_as_ref, cell_read. simpl. rewrite E. reflexivity. Qed.

  Lemma bucket_as_mut v : cell_get c st p = Some (Some v) ->
    some_as_mut c st (MkSomeBucket p) = Ok p.
  Proof. intros E. unfold some_as_mut, cell_read. simpl. rewrite E. reflexivity. Qed.

  Lemma bucket_into_mut v : cell_get c st p = Some (Some v) ->
    some_into_mut c st (MkSomeBucket p) = Ok p.
  Proof. intros E. unfold some_into_mut, cell_read. simpl. rewrite E. reflexivity. Qed.

  Lemma bucket_replace v v' st' : cell_get c st p = Some (Some v) ->
    cell_set c st p (Some v') = Some st' ->
    some_replace c st (MkSomeBucket p) v' = Ok (v, st').
  Proof.
    intros E1 E2. unfold some_replace. rewrite (bucket_as_mut v E1). simpl.
    unfold cell_read, cell_write. rewrite E1. simpl. rewrite E2. reflexivity.
  Qed.

  Lemma bucket_take v st' : cell_get c st p = Some (Some v) ->
    cell_set c st p None = Some st' ->
    some_take c st (MkSomeBucket p) = Ok (v, st').
  Proof.
    intros E1 E2. unfold some_take, cell_read, cell_write. simpl. rewrite E1. simpl.
    rewrite E2. reflexivity.
  Qed.

  Lemma bucket_insert v st' : cell_get c st p = Some None ->
    cell_set c st p (Some v) = Some st' -> cell_get c st' p = Some (Some v) ->
    none_insert c st (MkNoneBucket p) v = Ok (p, st').
  Proof.
    intros E1 E2 E3. unfold none_insert, cell_read, cell_write. simpl. rewrite E1. simpl.
    rewrite E2. simpl. rewrite E3. reflexivity.
  Qed.
End Buckets.

(** * Singleton *)

Definition unit_spec : KeySpec unit :=
  MkKeySpec unit_eqb no_order (fun _ => LUnit) (fun _ => None).

Lemma single_sim (V : Type) :
  sim (a := cell_ops V) (ea := unit_eqb) (ba := no_order)
      (ops_of (single_map_storage V)) unit_eqb no_order sm_inner (fun k => k) (fun k => k).
Proof.
  constructor; try reflexivity; auto.
  - intros [x] [y]; simpl; congruence.
  - intros X f x [o]. simpl. unfold sm_retain. simpl.
    destruct (retain_cell f x tt o) as [[? ?] ?] eqn:E; simpl.
    unfold retain_cell in *. destruct o as [v|]; [|congruence].
    destruct (f x tt v) as [[? ?] []]; congruence.
  - intros [[v|]] [|i r]; reflexivity.
  - intros [[v|]] [|i r] w; reflexivity.
Qed.

Definition single_laws (V : Type) : MapLaws unit_spec (single_map_storage V).
Proof.
  set (C := sim_core (cell_core V) _ _ _ _ _ _ (single_sim V)).
  refine {| ml_core := C : Core (ks_eqb unit_spec) (ks_before unit_spec) _;
            ml_Iter := opt_laws _ : it_laws (ms_Iter (single_map_storage V));
            ml_Keys := opt_laws _ : it_laws (ms_Keys (single_map_storage V));
            ml_Values := opt_laws _ : it_laws (ms_Values (single_map_storage V));
            ml_IterMut := opt_laws _ : it_laws (ms_IterMut (single_map_storage V));
            ml_ValuesMut := opt_laws _ : it_laws (ms_ValuesMut (single_map_storage V));
            ml_IntoIter := opt_laws _ : it_laws (ms_IntoIter (single_map_storage V));
            ml_drops := opt_drops _ _;
            ml_occ_ok := fun st o k r =>
              is_some (sm_inner st) = true /\ o = MkSomeBucket [] /\ r = [];
            ml_vac_ok := fun st x k =>
              is_some (sm_inner st) = false /\ x = MkNoneBucket [] |}.
  - intros w. split; [exact I|reflexivity].
  - intros [[v|]] _; simpl; auto.
  - intros [[v|]] _; simpl; repeat split; auto; try (repeat constructor; simpl; tauto).
    + destruct k; auto.
    + destruct k; auto.
  - intros [[v|]] _; simpl; auto.
  - intros [[v|]] _; simpl; auto.
  - intros [[v|]] _; simpl; auto.
  - intros [[v|]] _; simpl; auto.
  - intros [[v|]] _; (split; [exact I|]); intros D dr dr' d Hd; simpl; auto. now rewrite Hd.
  - intros [[v|]] [] _; simpl; eexists; repeat split; reflexivity.
  - intros [[v|]] o [] r _ ([=] & -> & ->). exists v. simpl.
    repeat split; try reflexivity. intros v'. eexists; split; reflexivity.
  - intros [[v|]] o [] r v' st' _ ([=] & -> & ->) [= <-]. simpl. auto.
  - intros [[v|]] x [] _ ([=] & ->). simpl. repeat split; try reflexivity.
    intros v. exists []. split; reflexivity.
Defined.

(** * bool *)

Definition bool_before (a b : bool) : Prop := a = true /\ b = false.
Definition bool_spec : KeySpec bool :=
  MkKeySpec Bool.eqb bool_before (fun _ => LBool) (fun b => Some (negb b)).

Definition two_cells_core (V : Type) :=
  sum_core (cell_core V) (sum_core (cell_core V) (nil_core V unit) (nil_no_root V unit))
           (sum_no_root _ _ _).

Definition bool_to (b : bool) : unit + (unit + Empty_set) :=
  if b then inl tt else inr (inl tt).
Definition bool_of (k : unit + (unit + Empty_set)) : bool :=
  match k with inl _ => true | inr _ => false end.

Lemma bool_sim (V : Type) :
  sim (a := sum_ops (cell_ops V) (sum_ops (cell_ops V) (nil_ops V unit)))
      (ea := sum_eqb unit_eqb (sum_eqb unit_eqb empty_eqb))
      (ba := sum_before no_order (sum_before no_order no_order))
      (ops_of (bool_map_storage V)) Bool.eqb bool_before
      (fun st => (bm_t st, (bm_f st, tt))) bool_to bool_of.
Proof.
  constructor.
  - intros [? ?] [? ?]; simpl; congruence.
  - intros []; reflexivity.
  - intros [[]|[[]|[]]]; reflexivity.
  - intros [] []; reflexivity.
  - intros [] [] [E1 E2]; try discriminate. exact I.
  - intros [[t|] [f|]]; reflexivity.
  - intros [[t|] [f|]]; reflexivity.
  - intros [t f] [] v; reflexivity.
  - intros [t f] []; reflexivity.
  - intros [t f] []; reflexivity.
  - intros [[t|] [f|]] []; reflexivity.
  - intros [t f] []; reflexivity.
  - intros X g x [t f]. simpl. unfold bm_retain. simpl.
    destruct t as [t|]; simpl.
    + destruct (g x true t) as [[? ?] []]; simpl; auto.
      * destruct f as [f|]; simpl; auto. destruct (g _ false f) as [[? ?] []]; reflexivity.
      * destruct f as [f|]; simpl; auto. destruct (g _ false f) as [[? ?] []]; reflexivity.
    + destruct f as [f|]; simpl; auto. destruct (g _ false f) as [[? ?] []]; reflexivity.
  - reflexivity.
  - intros [[t|] [f|]] [|[|[|i]] [|j r]]; reflexivity.
  - intros [[t|] [f|]] [|[|[|i]] [|j r]] v; reflexivity.
  - reflexivity.
  - intros veq [t f] [t' f']. simpl. rewrite andb_true_r. reflexivity.
Qed.

Definition bool_path (k : bool) : ref := if k then bm_path_t else bm_path_f.

Lemma one_key {V} (b : bool) (x y : V) :
  False <-> bool_before (fst (b, x)) (fst (b, y)).
Proof. unfold bool_before. cbn. intuition congruence. Qed.
Lemma bool_apart (V : Type) sa sb (x y : bool * V) :
  In x (il_rem (map_laws (fun v => (true, v)) _ (opt_laws V)) sa) ->
  In y (il_rem (map_laws (fun v => (false, v)) _ (opt_laws V)) sb) -> bool_before (fst x) (fst y).
Proof.
  intros Hx Hy. apply in_map_iff in Hx as (? & <- & _). apply in_map_iff in Hy as (? & <- & _).
  split; reflexivity.
Qed.

Definition bool_laws (V : Type) : MapLaws bool_spec (bool_map_storage V).
Proof.
  set (C := sim_core (two_cells_core V) _ _ _ _ _ _ (bool_sim V)).
  refine {| ml_core := C : Core (ks_eqb bool_spec) (ks_before bool_spec) _;
            ml_Iter := chain_laws _ _ (map_laws _ _ (opt_laws _)) (map_laws _ _ (opt_laws _))
              : it_laws (ms_Iter (bool_map_storage V));
            ml_Keys := bits_laws : it_laws (ms_Keys (bool_map_storage V));
            ml_Values := chain_laws _ _ (opt_laws _) (opt_laws _)
              : it_laws (ms_Values (bool_map_storage V));
            ml_IterMut := chain_laws _ _ (map_laws _ _ (opt_laws _)) (map_laws _ _ (opt_laws _))
              : it_laws (ms_IterMut (bool_map_storage V));
            ml_ValuesMut := chain_laws _ _ (opt_laws _) (opt_laws _)
              : it_laws (ms_ValuesMut (bool_map_storage V));
            ml_IntoIter := chain_laws _ _ (map_laws _ _ (opt_laws _)) (map_laws _ _ (opt_laws _))
              : it_laws (ms_IntoIter (bool_map_storage V));
            ml_drops := chain_drops _ _ _ _ _ (bool_apart V)
              (map_drops (fun v => (true, v)) (fun _ _ => False) (fun a b => bool_before (fst a) (fst b))
                 (one_key true) _ _ (opt_drops _ _))
              (map_drops (fun v => (false, v)) (fun _ _ => False) (fun a b => bool_before (fst a) (fst b))
                 (one_key false) _ _ (opt_drops _ _));
            ml_occ_ok := fun st o k r =>
              is_some (bm_get st k) = true /\ o = MkKeyed k (MkSomeBucket (bool_path k)) /\
              r = bool_path k;
            ml_vac_ok := fun st x k =>
              is_some (bm_get st k) = false /\ x = MkKeyed k (MkNoneBucket (bool_path k)) |}.
  - intros w. split; [repeat split|reflexivity].
  - intros [[t|] [f|]] _; split; reflexivity || (split; exact I).
  - intros [[t|] [f|]] _; (split; [reflexivity|]); simpl; unfold bits_rem; simpl; repeat split;
      try (repeat constructor; simpl; intuition congruence);
      try (unfold bool_before; repeat constructor; simpl; intuition congruence);
      try (destruct k; simpl in *; intuition congruence).
  - intros [[t|] [f|]] _; split; reflexivity || (split; exact I).
  - intros [[t|] [f|]] _; split; reflexivity || (split; exact I).
  - intros [[t|] [f|]] _; split; reflexivity || (split; exact I).
  - intros [[t|] [f|]] _; split; reflexivity || (split; exact I).
  - intros [t f] _. split; [split; exact I|]. intros D dr dr' d Hd. simpl.
    assert (E : forall d b o, opt_drop (fun d x => dr' d (b, x)) d o = opt_drop dr d o).
    { intros d0 b [v|]; simpl; auto. now rewrite Hd. }
    rewrite (E d true t). destruct (opt_drop dr d t) as [d1 p]. simpl. now rewrite (E d1 false f).
  - intros [[t|] [f|]] [] _; simpl; eexists; repeat split; reflexivity.
  - intros [[t|] [f|]] o [] r _ ([=] & -> & ->); eexists; simpl;
      (split; [reflexivity|]); repeat (split; [reflexivity|]);
      (split; [intros v'; eexists; split; reflexivity|reflexivity]).
  - intros [[t|] [f|]] o [] r v' st' _ ([=] & -> & ->) [= <-]; simpl; auto.
  - intros [[t|] [f|]] x [] _ ([=] & ->); simpl; repeat split; try reflexivity;
      intros v; eexists; split; reflexivity.
Defined.
