(** Properties of [Set].  [t] ranges over all key types; [set_reachable] sets are
    those that safe programs can build (without raw integers).  Each theorem is
    followed by a concrete instance of its hypotheses.

    The documented result of some operations is wrong for some key types; then
    [_refuted] gives a witness, [_partial] proves the documented result for the
    other keys, and [_exact] says what happens for all keys. *)
Require Import List Arith NArith ZArith Bool Lia Permutation.
Import ListNotations.
From Verif Require Import Std Traits Hashbrown MapStorages SetStorages DeriveUnit DeriveAny Key Api Spec
  Reach SetHistory MapCore MapLaws SetCore SetLaws KeyLaws IterFacts MapProofs SetFacts SetProofs
  KeyFacts TwinProofs Samples.

(** Key types for the examples: [()], [Option<()>], [Option<u8>]. *)
Notation unit_s := single_set_storage.
Notation opt_unit_s := (opt_set_storage single_set_storage).
Definition opt_unit_ki : KeyImpl (option unit) :=
  MkKeyImpl (fun V => opt_map_storage (single_map_storage V)) opt_unit_s.

(** * C14: new, default, clear *)

Theorem C14_set_empty : forall t ki (st : ss_St (ki_set ki)), derive t = Some ki ->
  (exists w, st = set_new (ki_set ki) w) \/ (exists w, st = set_default (ki_set ki) w) \/
  (exists st0, set_reachable (ki_set ki) st0 /\ st = set_clear (ki_set ki) st0) ->
  (forall k, set_contains (ki_set ki) st k = false) /\ set_len (ki_set ki) st = 0 /\
  yields (ss_Iter (ki_set ki)) (set_iter (ki_set ki) st) [] /\
  yields (ss_IntoIter (ki_set ki)) (set_into_iter (ki_set ki) st) [].
Proof. intros t ki st E H. exact (s_c14 (derive_set_laws t ki E) st H). Qed.
Print Assumptions C14_set_empty.

Example C14_set_example : set_reachable thing_s thing_set /\ set_len thing_s thing_set = 4 /\
  set_contains thing_s (set_clear thing_s thing_set) (k_flag true) = false /\
  set_len thing_s (set_clear thing_s thing_set) = 0.
Proof. split; [exact thing_set_reachable|]. repeat split. Qed.

(** * C25: histories *)

Theorem C25_set_history : forall t ki w ops, derive t = Some ki ->
  exists xs st n0,
    (forall n, n0 <= n -> run_sops (ki_set ki) n (set_new (ki_set ki) w) ops = (xs, st)) /\
    set_reachable (ki_set ki) st /\
    spec_all spec_contents (fun _ => false) ops xs (set_contains (ki_set ki) st).
Proof.
  intros t ki w ops E. set (L := derive_set_laws t ki E).
  exact (s_c25 L (set_new (ki_set ki) w) ops (fun _ => false) (sr_new _ w) (proj2 (proj2 (s_new L w)))).
Qed.
Print Assumptions C25_set_history.

Theorem C25_set_history_from : forall t ki (st : ss_St (ki_set ki)) ops, derive t = Some ki ->
  set_reachable (ki_set ki) st ->
  exists xs st' n0,
    (forall n, n0 <= n -> run_sops (ki_set ki) n st ops = (xs, st')) /\
    set_reachable (ki_set ki) st' /\
    spec_all spec_contents (set_contains (ki_set ki) st) ops xs (set_contains (ki_set ki) st').
Proof.
  intros t ki st ops E R.
  exact (s_c25 (derive_set_laws t ki E) st ops _ R (fun _ => eq_refl)).
Qed.
Print Assumptions C25_set_history_from.

(** Including all returned values, where the documentation is right. *)
Theorem C25_set_history_documented : forall t ki (st : ss_St (ki_set ki)) ops, derive t = Some ki ->
  (forall k, leaf_of t k = LHash \/ leaf_of t k = LVariant) ->
  set_reachable (ki_set ki) st ->
  exists xs st' n0,
    (forall n, n0 <= n -> run_sops (ki_set ki) n st ops = (xs, st')) /\
    set_reachable (ki_set ki) st' /\
    spec_all spec_sop (set_contains (ki_set ki) st) ops xs (set_contains (ki_set ki) st').
Proof.
  intros t ki st ops E F R. apply (s_c25_doc (derive_set_laws t ki E)); auto.
  - intros k. rewrite (proj1 spec_leaf). destruct (F k) as [-> | ->]; reflexivity.
  - intros k. rewrite (proj1 spec_leaf). destruct (F k) as [-> | ->]; discriminate.
  - intros k. apply no_bool_sib. destruct (F k) as [-> | ->]; discriminate.
  - intros k. reflexivity.
Qed.
Print Assumptions C25_set_history_documented.

(** Including all returned values, as they are, for all key types. *)
Theorem C25_set_history_exact : forall t ki (st : ss_St (ki_set ki)) ops, derive t = Some ki ->
  set_reachable (ki_set ki) st ->
  exists xs st' n0,
    (forall n, n0 <= n -> run_sops (ki_set ki) n st ops = (xs, st')) /\
    set_reachable (ki_set ki) st' /\
    spec_all (spec_exact (leaf_of t) (sibling t))
      (set_contains (ki_set ki) st) ops xs (set_contains (ki_set ki) st').
Proof.
  intros t ki st ops E R.
  destruct (s_c25_exact (derive_set_laws t ki E) st ops _ R (fun _ => eq_refl))
    as (xs & st' & n0 & H1 & H2 & H3).
  exists xs, st', n0. split; [exact H1|]. split; [exact H2|].
  eapply spec_all_mono; [|exact H3]. intros p o x q.
  apply spec_exact_leaf; [exact (proj1 spec_leaf t)|exact (proj1 spec_sib t)].
Qed.
Print Assumptions C25_set_history_exact.

Example C25_example : derive thing_t = Some thing_ki /\
  (exists st, run_sops thing_s 9 (set_new thing_s w0)
    [SInsert k_unit; SInsert (k_sub west); SInsert (k_sub west); SRemove k_unit; SContains (k_sub west);
     SLen; SInsert (k_num (Some 4%Z)); SRetain (fun log _ => if length log =? 0 then Keep else Discard);
     SIter; SClear; SLen]
  = ([QBool true; QBool true; QBool false; QBool true; QBool true; QNat 1; QBool true;
      QRetain [k_num (Some 4%Z); k_sub west] Done; QList [k_num (Some 4%Z)]; QUnit; QNat 0], st)) /\
  (forall k, leaf_of dir_t k = LHash \/ leaf_of dir_t k = LVariant).
Proof.
  split; [reflexivity|]. split; [eexists; vm_compute; reflexivity|].
  intros k. right. exact (leaves_units dir_vs k eq_refl).
Qed.

(** * C26: the result of insert *)

Theorem C26_insert_refuted : exists t ki (st : ss_St (ki_set ki)) k,
  derive t = Some ki /\ set_reachable (ki_set ki) st /\
  fst (set_insert (ki_set ki) st k) <> negb (set_contains (ki_set ki) st k).
Proof.
  exists KBool, bool_ki, (set_new (ki_set bool_ki) w0), true.
  split; [reflexivity|]. split; [constructor|]. discriminate.
Qed.
Print Assumptions C26_insert_refuted.

(** The same for [Set<Option<u8>>::insert(None)]. *)
Theorem C26_insert_none_refuted : exists ki (st : ss_St (ki_set ki)),
  derive (KOption (KPrim PU8)) = Some ki /\ set_reachable (ki_set ki) st /\
  fst (set_insert (ki_set ki) st None) <> negb (set_contains (ki_set ki) st None).
Proof.
  exists opt_ki, (set_new (ki_set opt_ki) w0).
  split; [reflexivity|]. split; [constructor|]. discriminate.
Qed.
Print Assumptions C26_insert_none_refuted.

Theorem C26_insert_partial : forall t ki (st : ss_St (ki_set ki)) k, derive t = Some ki ->
  set_reachable (ki_set ki) st -> leaf_of t k <> LBool -> leaf_of t k <> LNone ->
  fst (set_insert (ki_set ki) st k) = negb (set_contains (ki_set ki) st k).
Proof.
  intros t ki st k E R N1 N2. rewrite (s_c26 (derive_set_laws t ki E) st k R), (proj1 spec_leaf).
  destruct (leaf_of t k); try reflexivity; contradiction.
Qed.
Print Assumptions C26_insert_partial.

Theorem C26_insert_exact : forall t ki (st : ss_St (ki_set ki)) k, derive t = Some ki ->
  set_reachable (ki_set ki) st ->
  fst (set_insert (ki_set ki) st k) =
    match leaf_of t k with
    | LBool | LNone => set_contains (ki_set ki) st k
    | LUnit | LHash | LVariant => negb (set_contains (ki_set ki) st k)
    end.
Proof.
  intros t ki st k E R. rewrite (s_c26 (derive_set_laws t ki E) st k R), (proj1 spec_leaf).
  destruct (leaf_of t k); reflexivity.
Qed.
Print Assumptions C26_insert_exact.

Example C26_example : set_reachable thing_s thing_set /\
  leaf_of thing_t (k_sub south) = LVariant /\ leaf_of thing_t (k_num (Some 7%Z)) = LHash /\
  fst (set_insert thing_s thing_set (k_sub south)) = false /\
  fst (set_insert thing_s thing_set (k_sub west)) = true /\
  leaf_of thing_t (k_flag true) = LBool /\ fst (set_insert thing_s thing_set (k_flag true)) = true.
Proof. split; [exact thing_set_reachable|]. repeat split. Qed.

(** * C27: the result of remove *)

Theorem C27_remove_refuted : exists t ki (st : ss_St (ki_set ki)) k,
  derive t = Some ki /\ set_reachable (ki_set ki) st /\
  fst (set_remove (ki_set ki) st k) <> set_contains (ki_set ki) st k.
Proof.
  exists KBool, bool_ki, (build_set (ki_set bool_ki) [true]), false.
  split; [reflexivity|]. split; [apply build_set_reachable|]. discriminate.
Qed.
Print Assumptions C27_remove_refuted.

Theorem C27_remove_partial : forall t ki (st : ss_St (ki_set ki)) k, derive t = Some ki ->
  set_reachable (ki_set ki) st -> leaf_of t k <> LBool ->
  fst (set_remove (ki_set ki) st k) = set_contains (ki_set ki) st k.
Proof.
  intros t ki st k E R N. rewrite (s_c27 (derive_set_laws t ki E) st k R), no_bool_sib by exact N.
  apply orb_false_r.
Qed.
Print Assumptions C27_remove_partial.

Theorem C27_remove_exact : forall t ki (st : ss_St (ki_set ki)) k, derive t = Some ki ->
  set_reachable (ki_set ki) st ->
  fst (set_remove (ki_set ki) st k) =
    set_contains (ki_set ki) st k ||
    match sibling t k with Some k' => set_contains (ki_set ki) st k' | None => false end.
Proof.
  intros t ki st k E R. rewrite (s_c27 (derive_set_laws t ki E) st k R), (proj1 spec_sib).
  reflexivity.
Qed.
Print Assumptions C27_remove_exact.

Example C27_example : set_reachable thing_s thing_set /\
  leaf_of thing_t (k_sub south) <> LBool /\
  fst (set_remove thing_s thing_set (k_sub south)) = true /\
  fst (set_remove thing_s thing_set (k_num None)) = false /\
  sibling thing_t (k_flag false) = Some (k_flag true) /\
  fst (set_remove thing_s thing_set (k_flag false)) = true.
Proof. split; [exact thing_set_reachable|]. split; [discriminate|]. repeat split. Qed.

(** * C28: len and is_empty *)

Theorem C28_set_len : forall t ki (st : ss_St (ki_set ki)), derive t = Some ki ->
  set_reachable (ki_set ki) st ->
  exists l, yields (ss_Iter (ki_set ki)) (set_iter (ki_set ki) st) l /\
    elements (set_contains (ki_set ki) st) l /\ set_len (ki_set ki) st = length l.
Proof.
  intros t ki st E R. destruct (s_c30 (derive_set_laws t ki E) st R) as (l & H1 & _ & H2 & _ & H3).
  exists l. auto.
Qed.
Print Assumptions C28_set_len.

Theorem C28_is_empty_refuted :
  (exists t ki (st : ss_St (ki_set ki)),
    derive t = Some ki /\ set_reachable (ki_set ki) st /\
    set_len (ki_set ki) st = 0 /\ set_is_empty (ki_set ki) st = false) /\
  (exists t ki (st : ss_St (ki_set ki)),
    derive t = Some ki /\ set_reachable (ki_set ki) st /\
    set_len (ki_set ki) st = 1 /\ set_is_empty (ki_set ki) st = true).
Proof.
  split.
  - exists (KOption (KPrim PU8)), opt_ki, (set_new (ki_set opt_ki) w0).
    split; [reflexivity|]. split; [constructor|]. split; reflexivity.
  - exists (KOption (KPrim PU8)), opt_ki, (build_set (ki_set opt_ki) [None]).
    split; [reflexivity|]. split; [apply build_set_reachable|]. split; reflexivity.
Qed.
Print Assumptions C28_is_empty_refuted.

Theorem C28_is_empty_partial : forall t ki (st : ss_St (ki_set ki)), derive t = Some ki ->
  set_reachable (ki_set ki) st -> (forall k, leaf_of t k <> LNone) ->
  (set_is_empty (ki_set ki) st = true <-> set_len (ki_set ki) st = 0).
Proof.
  intros t ki st E R N. set (L := derive_set_laws t ki E).
  rewrite (s_c28 L st R), (s_none L st R). split; intros H k; specialize (N k);
    specialize (H k); rewrite (proj1 spec_leaf) in *.
  - apply not_true_is_false. intros C. apply N, H, C.
  - rewrite H. split; [discriminate|]. intros C. contradiction.
Qed.
Print Assumptions C28_is_empty_partial.

Theorem C28_is_empty_exact : forall t ki (st : ss_St (ki_set ki)), derive t = Some ki ->
  set_reachable (ki_set ki) st ->
  (set_is_empty (ki_set ki) st = true <->
   forall k, set_contains (ki_set ki) st k = true <-> leaf_of t k = LNone).
Proof.
  intros t ki st E R. rewrite (s_c28 (derive_set_laws t ki E) st R).
  split; intros H k; specialize (H k); rewrite (proj1 spec_leaf) in *; exact H.
Qed.
Print Assumptions C28_is_empty_exact.

Example C28_example : set_reachable thing_s thing_set /\ set_len thing_s thing_set = 4 /\
  (forall k, leaf_of dir_t k <> LNone) /\
  set_is_empty (ki_set dir_ki) (build_set (ki_set dir_ki) [south]) = false /\
  set_is_empty (ki_set dir_ki) (set_new (ki_set dir_ki) w0) = true /\
  set_is_empty thing_s (build_set thing_s [k_num None]) = true.
Proof.
  split; [exact thing_set_reachable|]. split; [reflexivity|].
  split; [intros k; rewrite (leaves_units dir_vs k eq_refl : leaf_of dir_t k = _); discriminate|].
  repeat split.
Qed.

(** * C29: retain *)

Theorem C29_retain_refuted : exists t ki (st : ss_St (ki_set ki)) (f : set_retain_fn nat (key t)) k,
  derive t = Some ki /\ set_reachable (ki_set ki) st /\ set_len (ki_set ki) st = 0 /\
  (forall n x, f n x = (S n, Keep)) /\
  let '(calls, st', o) := set_retain (ki_set ki) f 0 st in
  calls = 1 /\ o = Done /\ set_contains (ki_set ki) st k = false /\
  set_contains (ki_set ki) st' k = true.
Proof.
  exists KUnit, (MkKeyImpl single_map_storage single_set_storage), (set_new unit_s w0),
    (fun n _ => (S n, Keep)), tt.
  split; [reflexivity|]. split; [constructor|]. repeat split.
Qed.
Print Assumptions C29_retain_refuted.

Theorem C29_retain_partial : forall t ki S (f : set_retain_fn S (key t)) s (st : ss_St (ki_set ki)),
  derive t = Some ki -> set_reachable (ki_set ki) st -> (forall k, leaf_of t k <> LUnit) ->
  exists l s' l' o st',
    yields (ss_Iter (ki_set ki)) (set_iter (ki_set ki) st) l /\
    retain_elems f s l = (s', l', o) /\ set_retain (ki_set ki) f s st = (s', st', o) /\
    set_reachable (ki_set ki) st' /\
    (o = Done -> yields (ss_Iter (ki_set ki)) (set_iter (ki_set ki) st') l' /\
                 elements (set_contains (ki_set ki) st') l').
Proof.
  intros t ki S f s st E R N.
  assert (N' : forall k, ks_leaf (key_spec t) k <> LUnit) by (intros k; rewrite (proj1 spec_leaf); auto).
  destruct (s_c29_free (derive_set_laws t ki E) S f s st N' R) as (l & s' & l' & o & st' & H1 & H2 & H3 & H4 & H5).
  exists l, s', l', o, st'. split; [exact H1|]. split; [exact H2|]. split; [exact H3|].
  split; [exact H5|]. intros ->. exact H4.
Qed.
Print Assumptions C29_retain_partial.

(** For all key types: the predicate is also called for absent [()] keys, and
    these are inserted if it accepts them. *)
Theorem C29_retain_exact : forall t ki S (f : set_retain_fn S (key t)) s (st : ss_St (ki_set ki)),
  derive t = Some ki -> set_reachable (ki_set ki) st ->
  exists l vs s' l' o st',
    yields (ss_Iter (ki_set ki)) (set_iter (ki_set ki) st) l /\
    NoDup vs /\ sorted_by (key_before t) vs /\
    (forall k, In k vs <-> set_contains (ki_set ki) st k = true \/ leaf_of t k = LUnit) /\
    filter (set_contains (ki_set ki) st) vs = l /\
    retain_elems f s vs = (s', l', o) /\ set_retain (ki_set ki) f s st = (s', st', o) /\
    set_reachable (ki_set ki) st' /\
    (o = Done -> yields (ss_Iter (ki_set ki)) (set_iter (ki_set ki) st') l' /\
                 elements (set_contains (ki_set ki) st') l').
Proof.
  intros t ki S f s st E R.
  destruct (s_c29 (derive_set_laws t ki E) S f s st R)
    as (l & vs & s' & l' & o & st' & H1 & H2 & H3 & H4 & H5 & H6 & H7 & H8 & H9).
  exists l, vs, s', l', o, st'. split; [exact H1|]. split; [exact H2|].
  split; [exact (sorted_by_ext _ _ _ (fun a b => proj2 (proj1 spec_before t a b)) H3)|].
  split. { intros k. rewrite H4, (proj1 spec_leaf). reflexivity. }
  split; [exact H5|]. split; [exact H6|]. split; [exact H7|]. split; [exact H9|].
  intros ->. exact H8.
Qed.
Print Assumptions C29_retain_exact.

(** Keep every other element. *)
Definition every_other {T} : set_retain_fn bool T := fun b _ => (negb b, if b then Discard else Keep).

Example C29_example : set_reachable thing_s thing_set /\ (forall k, leaf_of thing_t k <> LUnit) /\
  fst (fst (set_retain thing_s every_other false thing_set)) = false /\
  drain (ss_Iter thing_s) 9
    (set_iter thing_s (snd (fst (set_retain thing_s every_other false thing_set)))) =
  Some [k_flag true; k_num (Some 9%Z)].
Proof.
  split; [exact thing_set_reachable|].
  split; [intros [[]|[b|[[z|]|[[[]|[[]|[[]|[[]|[]]]]]|[]]]]]; discriminate|]. split; reflexivity.
Qed.

(** * C38: unwinding out of retain *)

(** An absent [Some(())] is accepted and thereby added, then the predicate
    unwinds at [None]. *)
Theorem C38_retain_unwind_refuted : exists t ki (st : ss_St (ki_set ki)) (f : set_retain_fn nat (key t)) k,
  derive t = Some ki /\ set_reachable (ki_set ki) st /\
  snd (set_retain (ki_set ki) f 0 st) = Unwound /\
  set_contains (ki_set ki) st k = false /\
  set_contains (ki_set ki) (snd (fst (set_retain (ki_set ki) f 0 st))) k = true.
Proof.
  exists (KOption KUnit), opt_unit_ki, (build_set opt_unit_s [None]),
    (fun n _ => (S n, match n with 0 => Keep | _ => Unwind end)), (Some tt).
  split; [reflexivity|]. split; [apply build_set_reachable|]. repeat split.
Qed.
Print Assumptions C38_retain_unwind_refuted.

Theorem C38_retain_unwind_partial : forall t ki S (f : set_retain_fn S (key t)) s s'
    (st st' : ss_St (ki_set ki)),
  derive t = Some ki -> set_reachable (ki_set ki) st -> (forall k, leaf_of t k <> LUnit) ->
  set_retain (ki_set ki) f s st = (s', st', Unwound) ->
  set_reachable (ki_set ki) st' /\
  (forall k, set_contains (ki_set ki) st' k = true -> set_contains (ki_set ki) st k = true) /\
  exists l l', yields (ss_Iter (ki_set ki)) (set_iter (ki_set ki) st) l /\
    retain_elems f s l = (s', l', Unwound) /\
    forall k, In k l' -> set_contains (ki_set ki) st' k = true.
Proof.
  intros t ki S f s s' st st' E R N H.
  assert (N' : forall k, ks_leaf (key_spec t) k <> LUnit) by (intros k; rewrite (proj1 spec_leaf); auto).
  destruct (s_c29_free (derive_set_laws t ki E) S f s st N' R) as (l & x' & l' & o & st2 & H1 & H2 & H3 & H4 & H5).
  rewrite H in H3. injection H3 as <- <- <-. split; [exact H5|]. split; [exact (proj1 H4)|].
  exists l, l'. split; [exact H1|]. split; [exact H2|exact (proj2 H4)].
Qed.
Print Assumptions C38_retain_unwind_partial.

(** For all key types: the set then holds what was accepted, being tested or not yet
    visited, and in addition the rejected elements of the bit set in which the predicate
    unwound, if it did so in one.  ([retain_undo] also says which element that was.) *)
Theorem C38_retain_unwind_exact : forall t ki S (f : set_retain_fn S (key t)) s
    (st : ss_St (ki_set ki)),
  derive t = Some ki -> set_reachable (ki_set ki) st ->
  exists vs s' l' at_ st',
    NoDup vs /\ sorted_by (key_before t) vs /\
    (forall k, In k vs <-> set_contains (ki_set ki) st k = true \/ leaf_of t k = LUnit) /\
    yields (ss_Iter (ki_set ki)) (set_iter (ki_set ki) st) (filter (set_contains (ki_set ki) st) vs) /\
    retain_undo f (one_bitset t) (set_contains (ki_set ki) st) s vs = (s', l', at_) /\
    set_retain (ki_set ki) f s st = (s', st', match at_ with Some _ => Unwound | None => Done end) /\
    set_reachable (ki_set ki) st' /\
    yields (ss_Iter (ki_set ki)) (set_iter (ki_set ki) st') l' /\
    elements (set_contains (ki_set ki) st') l'.
Proof.
  intros t ki S f s st E R.
  destruct (s_c38 (derive_set_laws t ki E) S f s st R)
    as (vs & s' & l' & w & st' & H1 & H2 & H3 & H4 & H5 & H6 & H7 & H8 & H9).
  exists vs, s', l', w, st'. split; [exact H1|].
  split; [exact (sorted_by_ext _ _ _ (fun a b => proj2 (proj1 spec_before t a b)) H2)|].
  split. { intros k. rewrite H3, (proj1 spec_leaf). reflexivity. }
  split; [exact H4|]. split.
  - rewrite <- H5. apply undo_late. intros a b. symmetry. exact (derive_late t ki E a b).
  - split; [exact H6|]. split; [exact H7|]. split; [exact H8|exact H9].
Qed.
Print Assumptions C38_retain_unwind_exact.

(** Reject the first element, accept the second, unwind at the third. *)
Definition crash_third {T} : set_retain_fn nat T :=
  fun n _ => (S n, match n with 0 => Discard | 1 => Keep | _ => Unwind end).

Example C38_example : set_reachable thing_s thing_set /\ (forall k, leaf_of thing_t k <> LUnit) /\
  snd (set_retain thing_s crash_third 0 thing_set) = Unwound /\
  drain (ss_Iter thing_s) 9
    (set_iter thing_s (snd (fst (set_retain thing_s crash_third 0 thing_set)))) =
  Some [k_num (Some 7%Z); k_num (Some 9%Z); k_sub south].
Proof.
  split; [exact thing_set_reachable|].
  split; [intros [[]|[b|[[z|]|[[[]|[[]|[[]|[[]|[]]]]]|[]]]]]; discriminate|]. split; reflexivity.
Qed.

(** The rejected element stays in a bit set and is gone from an array of flags. *)
Example C38_bits_example : derive bit_t = Some bit_ki /\ derive dir_t = Some dir_ki /\
  one_bitset bit_t east north = true /\ one_bitset dir_t east north = false /\
  let crash m := set_retain (ki_set m) crash_third 0 (build_set (ki_set m) [north; east; south; west]) in
  snd (crash bit_ki) = Unwound /\ snd (crash dir_ki) = Unwound /\
  drain (ss_Iter (ki_set bit_ki)) 9 (set_iter (ki_set bit_ki) (snd (fst (crash bit_ki)))) =
    Some [north; east; south; west] /\
  drain (ss_Iter (ki_set dir_ki)) 9 (set_iter (ki_set dir_ki) (snd (fst (crash dir_ki)))) =
    Some [east; south; west].
Proof. repeat split. Qed.

(** * C30: iteration *)

Theorem C30_set_iter : forall t ki (st : ss_St (ki_set ki)), derive t = Some ki ->
  set_reachable (ki_set ki) st ->
  exists l, yields (ss_Iter (ki_set ki)) (set_iter (ki_set ki) st) l /\
    yields (ss_IntoIter (ki_set ki)) (set_into_iter (ki_set ki) st) l /\
    elements (set_contains (ki_set ki) st) l /\ sorted_by (key_before t) l.
Proof.
  intros t ki st E R. destruct (s_c30 (derive_set_laws t ki E) st R) as (l & H1 & H2 & H3 & H4 & _).
  exists l. split; [exact H1|]. split; [exact H2|]. split; [exact H3|].
  exact (sorted_by_ext _ _ _ (fun a b => proj2 (proj1 spec_before t a b)) H4).
Qed.
Print Assumptions C30_set_iter.

Theorem C30_set_iter_history_free : forall t ki (a b : ss_St (ki_set ki)), derive t = Some ki ->
  hash_free t = true -> set_reachable (ki_set ki) a -> set_reachable (ki_set ki) b ->
  (forall k, set_contains (ki_set ki) a k = set_contains (ki_set ki) b k) ->
  exists l, yields (ss_Iter (ki_set ki)) (set_iter (ki_set ki) a) l /\
            yields (ss_Iter (ki_set ki)) (set_iter (ki_set ki) b) l.
Proof.
  intros t ki a b E F Ra Rb G. set (L := derive_set_laws t ki E).
  destruct (s_c30 L a Ra) as (la & Ya & _). destruct (s_c30 L b Rb) as (lb & Yb & _).
  exists la. split; [exact Ya|]. rewrite (s_c30_unique L a b) with (la := la) (lb := lb); auto.
  apply spec_total; auto.
Qed.
Print Assumptions C30_set_iter_history_free.

Example C30_example : set_reachable thing_s thing_set /\
  drain (ss_Iter thing_s) 9 (set_iter thing_s thing_set) =
  Some [k_flag true; k_num (Some 7%Z); k_num (Some 9%Z); k_sub south] /\
  hash_free dir_t = true /\
  drain (ss_Iter (ki_set dir_ki)) 9
    (set_iter (ki_set dir_ki) (build_set (ki_set dir_ki) [west; north; south])) =
  Some [north; south; west].
Proof. split; [exact thing_set_reachable|]. repeat split. Qed.

(** * C31: intersection *)

Theorem C31_intersection : forall t ki (a b : ss_St (ki_set ki)), derive t = Some ki ->
  set_reachable (ki_set ki) a -> set_reachable (ki_set ki) b ->
  exists l,
    (** exactly the common elements, each once, in iteration order *)
    elements (fun k => set_contains (ki_set ki) a k && set_contains (ki_set ki) b k) l /\
    sorted_by (key_before t) l /\
    returns (fun n => inter_drain (ki_set ki) n (set_intersection (ki_set ki) a b)) l /\
    (** [fold] visits the same sequence *)
    (forall B (f : B -> key t -> B) init,
       returns (fun n => inter_fold (ki_set ki) n (set_intersection (ki_set ki) a b) init f)
               (fold_left f l init)) /\
    (** after [k] calls of [next] *)
    (forall k, exists x',
       returns (fun n => inter_run (ki_set ki) n k (set_intersection (ki_set ki) a b))
               (fst (deque (repeat Front k) l), x') /\
       returns (fun n => inter_drain (ki_set ki) n x') (snd (deque (repeat Front k) l)) /\
       fst (inter_hint (ki_set ki) x') <= length (snd (deque (repeat Front k) l)) /\
       match snd (inter_hint (ki_set ki) x') with
       | Some u => length (snd (deque (repeat Front k) l)) <= u
       | None => True
       end /\
       (forall B (f : B -> key t -> B) init,
         returns (fun n => inter_fold (ki_set ki) n x' init f)
                 (fold_left f (snd (deque (repeat Front k) l)) init))).
Proof.
  intros t ki a b E Ra Rb.
  destruct (s_c31 (derive_set_laws t ki E) a b Ra Rb) as (l & H1 & H2 & H3).
  exists l. split; [exact H1|].
  split; [exact (sorted_by_ext _ _ _ (fun a b => proj2 (proj1 spec_before t a b)) H2)|exact H3].
Qed.
Print Assumptions C31_intersection.

Theorem C31_intersection_symmetric : forall t ki (a b : ss_St (ki_set ki)), derive t = Some ki ->
  set_reachable (ki_set ki) a -> set_reachable (ki_set ki) b ->
  exists l l',
    returns (fun n => inter_drain (ki_set ki) n (set_intersection (ki_set ki) a b)) l /\
    returns (fun n => inter_drain (ki_set ki) n (set_intersection (ki_set ki) b a)) l' /\
    Permutation l l'.
Proof. intros t ki a b E Ra Rb. exact (s_c31_sym (derive_set_laws t ki E) a b Ra Rb). Qed.
Print Assumptions C31_intersection_symmetric.

Definition other_things : ss_St thing_s :=
  build_set thing_s [k_unit; k_num (Some 9%Z); k_flag false; k_sub south; k_num None].

Example C31_example : set_reachable thing_s thing_set /\ set_reachable thing_s other_things /\
  inter_drain thing_s 9 (set_intersection thing_s thing_set other_things) =
    Some [k_num (Some 9%Z); k_sub south] /\
  inter_drain thing_s 9 (set_intersection thing_s other_things thing_set) =
    Some [k_num (Some 9%Z); k_sub south].
Proof.
  split; [exact thing_set_reachable|]. split; [apply build_set_reachable|]. split; reflexivity.
Qed.

(** * C32: equality *)

Theorem C32_set_eq : forall t ki (a b : ss_St (ki_set ki)), derive t = Some ki ->
  set_reachable (ki_set ki) a -> set_reachable (ki_set ki) b ->
  (set_eq (ki_set ki) a b = true <->
   forall k, set_contains (ki_set ki) a k = set_contains (ki_set ki) b k).
Proof. intros t ki a b E Ra Rb. exact (s_c32 (derive_set_laws t ki E) a b Ra Rb). Qed.
Print Assumptions C32_set_eq.

(** The same elements inserted in another order, with a detour. *)
Definition same_things : ss_St thing_s :=
  snd (set_remove thing_s
    (build_set thing_s [k_num (Some 9%Z); k_num None; k_sub south; k_num (Some 7%Z); k_flag true])
    (k_num None)).

Example C32_example : set_reachable thing_s thing_set /\ set_reachable thing_s same_things /\
  set_eq thing_s thing_set same_things = true /\ set_eq thing_s thing_set other_things = false.
Proof.
  split; [exact thing_set_reachable|]. split; [apply sr_remove, build_set_reachable|].
  split; reflexivity.
Qed.

(** * C20: clone *)

Theorem C20_set_clone : forall t ki (st : ss_St (ki_set ki)), derive t = Some ki ->
  set_reachable (ki_set ki) st ->
  (forall k, set_contains (ki_set ki) (set_clone (ki_set ki) st) k = set_contains (ki_set ki) st k) /\
  set_eq (ki_set ki) (set_clone (ki_set ki) st) st = true /\
  exists l, yields (ss_Iter (ki_set ki)) (set_iter (ki_set ki) st) l /\
            yields (ss_Iter (ki_set ki)) (set_iter (ki_set ki) (set_clone (ki_set ki) st)) l.
Proof. intros t ki st E R. exact (s_c20 (derive_set_laws t ki E) st R). Qed.
Print Assumptions C20_set_clone.

(** Later operations on the clone and on the original give the same results. *)
Theorem C20_set_clone_history : forall t ki (st : ss_St (ki_set ki)) ops n, derive t = Some ki ->
  run_sops (ki_set ki) n (set_clone (ki_set ki) st) ops = run_sops (ki_set ki) n st ops.
Proof.
  intros t ki st ops n E. rewrite (s_clone (derive_set_laws t ki E) st). reflexivity.
Qed.
Print Assumptions C20_set_clone_history.

Example C20_set_example : set_reachable thing_s thing_set /\
  set_contains thing_s (set_clone thing_s thing_set) (k_num (Some 7%Z)) = true /\
  set_len thing_s (set_clone thing_s thing_set) = 4.
Proof. split; [exact thing_set_reachable|]. repeat split. Qed.

(** * C23: collecting *)

Theorem C23_set_from_iter : forall t ki w l, derive t = Some ki ->
  set_reachable (ki_set ki) (set_from_iter (ki_set ki) w l) /\
  forall k, set_contains (ki_set ki) (set_from_iter (ki_set ki) w l) k = true <-> In k l.
Proof. intros t ki w l E. exact (s_c23 (derive_set_laws t ki E) w l). Qed.
Print Assumptions C23_set_from_iter.

Example C23_set_example : derive thing_t = Some thing_ki /\
  set_len thing_s (set_from_iter thing_s w0 [k_flag true; k_num None; k_flag true; k_unit]) = 3.
Proof. split; reflexivity. Qed.

(** * C24: serde *)

Theorem C24_set_serialize : forall t ki Out Err (z : serializer (key t) Out Err) (st : ss_St (ki_set ki)),
  derive t = Some ki -> set_reachable (ki_set ki) st ->
  exists l, yields (ss_Iter (ki_set ki)) (set_iter (ki_set ki) st) l /\
    set_len (ki_set ki) st = length l /\
    returns (fun n => set_serialize (ki_set ki) z n st) (feed_all z l).
Proof. intros t ki Out Err z st E R. exact (s_c24_ser (derive_set_laws t ki E) z st R). Qed.
Print Assumptions C24_set_serialize.

Theorem C24_set_deserialize : forall t ki D Err (acc : access D (key t) Err) w d l,
  derive t = Some ki -> supplies acc d l ->
  exists st, returns (fun n => set_visit (ki_set ki) acc n w d) (inl st) /\
    set_reachable (ki_set ki) st /\ forall k, set_contains (ki_set ki) st k = true <-> In k l.
Proof.
  intros t ki D Err acc w d l E Hs. set (L := derive_set_laws t ki E).
  exists (set_from_iter (ki_set ki) w l). split; [exact (s_c24_visit acc w d l Hs)|exact (s_c23 L w l)].
Qed.
Print Assumptions C24_set_deserialize.

Theorem C24_set_deserialize_error : forall t ki D Err (acc : access D (key t) Err) w d l e,
  derive t = Some ki -> breaks acc d l e ->
  returns (fun n => set_visit (ki_set ki) acc n w d) (inr e).
Proof. intros t ki D Err acc w d l e E Hs. exact (s_c24_breaks acc w d l e Hs). Qed.
Print Assumptions C24_set_deserialize_error.

Theorem C24_set_roundtrip : forall t ki D Err (acc : access D (key t) Err) w d l (st : ss_St (ki_set ki)),
  derive t = Some ki -> set_reachable (ki_set ki) st ->
  yields (ss_Iter (ki_set ki)) (set_iter (ki_set ki) st) l -> supplies acc d l ->
  exists st', returns (fun n => set_visit (ki_set ki) acc n w d) (inl st') /\
    (forall k, set_contains (ki_set ki) st' k = set_contains (ki_set ki) st k) /\
    set_eq (ki_set ki) st' st = true.
Proof.
  intros t ki D Err acc w d l st E R Y Hs.
  exact (s_c24_round (derive_set_laws t ki E) acc w d l st R Y Hs).
Qed.
Print Assumptions C24_set_roundtrip.

(** A serializer that records what it is given, and an input that is a list. *)
Definition set_recorder {T} : serializer T (option nat * list T) Empty_set :=
  MkSer _ (fun n => inl (n, [])) (fun s x => inl (fst s, snd s ++ [x])) (fun s => inl s).
Definition set_list_access {T} : access (list T) T nat :=
  fun d => match d with [] => (inl None, []) | x :: d => (inl (Some x), d) end.

Example C24_set_example : set_reachable thing_s thing_set /\
  set_serialize thing_s set_recorder 9 thing_set =
    Some (inl (Some 4, [k_flag true; k_num (Some 7%Z); k_num (Some 9%Z); k_sub south])) /\
  supplies set_list_access [k_flag true; k_unit; k_flag true] [k_flag true; k_unit; k_flag true].
Proof.
  split; [exact thing_set_reachable|]. split; [reflexivity|].
  repeat (eapply sup_item; [reflexivity|]). eapply sup_end. reflexivity.
Qed.

(** * C34: bitsets and array sets *)

Theorem C34_bitset_same_as_array : forall vs k1 k2 ops w1 w2, all_units vs = true ->
  derive (KEnum true vs) = Some k1 -> derive (KEnum false vs) = Some k2 ->
  Forall returning ops ->
  exists xs a b n0,
    (forall n, n0 <= n -> run_sops (ki_set k1) n (set_new (ki_set k1) w1) ops = (xs, a) /\
                          run_sops (ki_set k2) n (set_new (ki_set k2) w2) ops = (xs, b)) /\
    set_reachable (ki_set k1) a /\ set_reachable (ki_set k2) b /\
    same_set (set_contains (ki_set k1) a) (set_contains (ki_set k2) b).
Proof.
  intros vs k1 k2 ops w1 w2 U E1 E2 F.
  pose (L1 := derive_set_laws (KEnum true vs) k1 E1). pose (L2 := derive_set_laws (KEnum false vs) k2 E2).
  apply (s_c34 L1 L2); auto.
  - exact (spec_total (KEnum true vs) (hash_free_units vs U)).
  - constructor.
  - constructor.
  - intros k. destruct (s_new L1 w1) as (_ & _ & A). destruct (s_new L2 w2) as (_ & _ & B).
    rewrite A, B. reflexivity.
Qed.
Print Assumptions C34_bitset_same_as_array.

(** Operations on two sets. *)
Theorem C34_bitset_same_as_array_two : forall vs k1 k2 (a a' : ss_St (ki_set k1)) (b b' : ss_St (ki_set k2)),
  all_units vs = true ->
  derive (KEnum true vs) = Some k1 -> derive (KEnum false vs) = Some k2 ->
  set_reachable (ki_set k1) a -> set_reachable (ki_set k1) a' ->
  set_reachable (ki_set k2) b -> set_reachable (ki_set k2) b' ->
  same_set (set_contains (ki_set k1) a) (set_contains (ki_set k2) b) ->
  same_set (set_contains (ki_set k1) a') (set_contains (ki_set k2) b') ->
  set_eq (ki_set k1) a a' = set_eq (ki_set k2) b b' /\
  exists l, returns (fun n => inter_drain (ki_set k1) n (set_intersection (ki_set k1) a a')) l /\
            returns (fun n => inter_drain (ki_set k2) n (set_intersection (ki_set k2) b b')) l.
Proof.
  intros vs k1 k2 a a' b b' U E1 E2.
  apply (s_c34_eq (derive_set_laws (KEnum true vs) k1 E1) (derive_set_laws (KEnum false vs) k2 E2)).
  exact (spec_total (KEnum true vs) (hash_free_units vs U)).
Qed.
Print Assumptions C34_bitset_same_as_array_two.

(** When the predicate of [retain] unwinds they differ: the bitset is left as it
    was, the array set has lost the elements rejected before. *)
Theorem C34_unwind_refuted : exists k1 k2 (f : set_retain_fn nat (keys dir_vs))
    (a : ss_St (ki_set k1)) (b : ss_St (ki_set k2)) k,
  derive (KEnum true dir_vs) = Some k1 /\ derive (KEnum false dir_vs) = Some k2 /\
  set_reachable (ki_set k1) a /\ set_reachable (ki_set k2) b /\
  same_set (set_contains (ki_set k1) a) (set_contains (ki_set k2) b) /\
  set_contains (ki_set k1) (snd (fst (set_retain (ki_set k1) f 0 a))) k = true /\
  set_contains (ki_set k2) (snd (fst (set_retain (ki_set k2) f 0 b))) k = false.
Proof.
  exists bit_ki, dir_ki, crash_third, (build_set (ki_set bit_ki) [north; east; south]),
    (build_set (ki_set dir_ki) [north; east; south]), north.
  split; [reflexivity|]. split; [reflexivity|]. split; [apply build_set_reachable|].
  split; [apply build_set_reachable|]. split; [|split; reflexivity].
  intros [[]|[[]|[[]|[[]|[]]]]]; reflexivity.
Qed.
Print Assumptions C34_unwind_refuted.

Example C34_example : all_units dir_vs = true /\ derive (KEnum true dir_vs) = Some bit_ki /\
  derive (KEnum false dir_vs) = Some dir_ki /\
  let ops := [SInsert south; SInsert north; SInsert south; SRetain (fun log _ => match log with [] => Keep | _ => Discard end);
              SIter; SIsEmpty; SRemove north; SIsEmpty] in
  Forall returning ops /\
  fst (run_sops (ki_set bit_ki) 9 (set_new (ki_set bit_ki) w0) ops) =
    [QBool true; QBool true; QBool false; QRetain [north; south] Done; QList [north]; QBool false; QBool true; QBool true] /\
  fst (run_sops (ki_set dir_ki) 9 (set_new (ki_set dir_ki) w0) ops) =
    fst (run_sops (ki_set bit_ki) 9 (set_new (ki_set bit_ki) w0) ops).
Proof.
  split; [reflexivity|]. split; [reflexivity|]. split; [reflexivity|]. split; [|split; reflexivity].
  repeat constructor. intros [|]; discriminate.
Qed.

(** * C40: a set as the keys of a map *)

Theorem C40_set_as_map_keys : forall t ki w w' ops, derive t = Some ki ->
  let st := set_kops (ki_set ki) (set_new (ki_set ki) w) ops in
  let sm := map_kops (ki_map ki unit) (map_new (ki_map ki unit) w') ops in
  (forall k, set_contains (ki_set ki) st k = map_contains_key (ki_map ki unit) sm k) /\
  set_len (ki_set ki) st = map_len (ki_map ki unit) sm /\
  (hash_free t = true ->
   exists l, yields (ss_Iter (ki_set ki)) (set_iter (ki_set ki) st) l /\
             yields (ms_Iter (ki_map ki unit)) (map_iter (ki_map ki unit) sm) (map (fun k => (k, tt)) l)).
Proof.
  intros t ki w w' ops E.
  destruct (s_c40 (derive_set_laws t ki E) (derive_map_laws t ki unit E) w w' ops) as (H1 & H2 & H3).
  split; [exact H1|]. split; [exact H2|]. intros F. exact (H3 (spec_total t F)).
Qed.
Print Assumptions C40_set_as_map_keys.

Example C40_example : derive thing_t = Some thing_ki /\ hash_free dir_t = true /\
  let ops := [KInsert (k_num None); KInsert (k_flag true); KRemove (k_num None); KInsert (k_sub west)] in
  set_len thing_s (set_kops thing_s (set_new thing_s w0) ops) = 2 /\
  map_len (ki_map thing_ki unit) (map_kops (ki_map thing_ki unit) (map_new (ki_map thing_ki unit) w0) ops) = 2.
Proof. repeat split. Qed.
