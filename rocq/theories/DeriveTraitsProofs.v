(** The functions that the text of the macro writes for the traits of enums without fields
    answer like the model. *)
Require Import List Arith NArith ZArith Bool String Lia.
Import ListNotations.
From Verif Require Import Std Traits OptionBucket DeriveUnit DeriveAny SrcFiles Reach SrcSupport SrcSupportSpec
  PropsSupportText.
From Verif Require Import DeriveText DeriveQuote DeriveRead DeriveCode DeriveItems DeriveTraits.
Open Scope string_scope.

(** ** Slices and arrays *)
Lemma slice_clone_arr {S V R} (f : clone_fn S V) (u : units R) s a :
  slice_clone f s (arr_elems u a) =
  let '(s', r) := arr_clone_with f u s a in (s', option_map (arr_elems u) r).
Proof.
  revert s. induction u as [|R u IH]; intros s; cbn; [reflexivity|].
  destruct (clone_cell f s (fst a)) as [s1 [o|]]; [|reflexivity].
  rewrite IH. destruct (arr_clone_with f u s1 (snd a)) as [s2 [r|]]; reflexivity.
Qed.
Lemma slice_eq_arr {S V R} (f : eq_fn S V) (u : units R) s a b :
  slice_eq f s (arr_elems u a) (arr_elems u b) = arr_eq_with f u s a b.
Proof.
  revert s. induction u as [|R u IH]; intros s; cbn; [reflexivity|].
  destruct (eq_cell f s (fst a) (fst b)) as [s1 [[]|]]; cbn; auto.
Qed.

(** ** The functions *)
Lemma map_trait_of {V S} clone eq word hash pcmp cmp bitset trait f n (s : S) (ds : list (list (option V))) :
  map_trait clone eq word hash pcmp cmp bitset trait f n s ds =
  trait_call (map_lib clone eq word hash pcmp cmp n) (if bitset then bitset_its else unit_its)
    trait "__MapStorage" f s ds.
Proof. unfold map_trait. destruct bitset; [rewrite bitset_items|rewrite unit_items]; reflexivity. Qed.
Lemma set_trait_of trait f n ds :
  set_trait trait f n ds = trait_call (set_lib n) unit_its trait "__SetStorage" f Datatypes.tt ds.
Proof. unfold set_trait. rewrite unit_items. reflexivity. Qed.
Lemma bits_trait_of trait f ds :
  bits_trait trait f ds = trait_call bits_lib bitset_its trait "__SetStorage" f Datatypes.tt ds.
Proof. unfold bits_trait. rewrite bitset_items. reflexivity. Qed.

Section Maps.
  Context {V S : Type} (clone : clone_fn S V) (eq : eq_fn S V) (word : hash_fn S Z) (hash : hash_fn S V)
    (pcmp : pcmp_fn S V) (cmp : cmp_fn S V) (bitset : bool) (n : nat) (s : S).
  Notation L := (map_lib clone eq word hash pcmp cmp n).
  Notation call := (map_trait clone eq word hash pcmp cmp bitset).
  Lemma clone_is a : call "Clone" "clone" n s [a] =
    match L ["core"; "clone"; "Clone"; "clone"] s [HandData a] with
    | Some (s', Some (GotData d)) => Some (s', Some (GotStorage d))
    | Some (s', None) => Some (s', None)
    | _ => None
    end.
  Proof. rewrite map_trait_of. destruct bitset; reflexivity. Qed.
  Lemma eq_is a b : call "PartialEq" "eq" n s [a; b] =
    L ["core"; "cmp"; "PartialEq"; "eq"] s [HandData a; HandData b].
  Proof. rewrite map_trait_of. destruct bitset; reflexivity. Qed.
  Lemma hash_is a : call "Hash" "hash" n s [a] =
    match L ["core"; "hash"; "Hash"; "hash"] s [HandData a; HandState] with
    | Some (s', Some _) => Some (s', Some GotUnit)
    | Some (s', None) => Some (s', None)
    | None => None
    end.
  Proof. rewrite map_trait_of. destruct bitset; reflexivity. Qed.
  Lemma partial_cmp_is a b : call "PartialOrd" "partial_cmp" n s [a; b] =
    L ["fixed_map"; "macro_support"; "__storage_iterator_partial_cmp"] s [HandData a; HandData b].
  Proof. rewrite map_trait_of. destruct bitset; reflexivity. Qed.
  Lemma cmp_is a b : call "Ord" "cmp" n s [a; b] =
    L ["fixed_map"; "macro_support"; "__storage_iterator_cmp"] s [HandData a; HandData b].
  Proof. rewrite map_trait_of. destruct bitset; reflexivity. Qed.
End Maps.
Lemma set_partial_cmp_is n a b : set_trait "PartialOrd" "partial_cmp" n [a; b] =
  set_lib n ["fixed_map"; "macro_support"; "__storage_iterator_partial_cmp_bool"] Datatypes.tt [HandData a; HandData b].
Proof. rewrite set_trait_of. reflexivity. Qed.
Lemma set_cmp_is n a b : set_trait "Ord" "cmp" n [a; b] =
  set_lib n ["fixed_map"; "macro_support"; "__storage_iterator_cmp_bool"] Datatypes.tt [HandData a; HandData b].
Proof. rewrite set_trait_of. reflexivity. Qed.

Lemma returns_ext {A} (f g : nat -> option A) x : (forall n, g n = f n) -> returns f x -> returns g x.
Proof. intros E [n0 H]. exists n0. intros n Hn. rewrite E. exact (H n Hn). Qed.
Lemma returns_map {A B} (f : nat -> option A) (g : nat -> option B) h x :
  (forall n y, f n = Some y -> g n = Some (h y)) -> returns f x -> returns g (h x).
Proof. intros E [n0 H]. exists n0. intros n Hn. exact (E n x (H n Hn)). Qed.
Lemma returns_const {A} (x : A) (g : nat -> option A) : (forall n, g n = Some x) -> returns g x.
Proof. intros H. exists 0. intros n _. exact (H n). Qed.

(** ** Equality in terms of positions *)
(** Two places hold the same (unit_variants.rs:192). *)
Definition equal_at {V} (e : V -> V -> bool) (x y : option V) : Prop :=
  match x, y with
  | None, None => True
  | Some v, Some w => e v w = true
  | _, _ => False
  end.
Lemma slice_eq_pure {V} (e : V -> V -> bool) a : forall b,
  exists r, slice_eq (fun s v w => (s, Some (e v w))) Datatypes.tt a b = (Datatypes.tt, Some r) /\
    (r = true <-> Forall2 (equal_at e) a b).
Proof.
  induction a as [|x a IH]; intros [|y b]; cbn.
  - exists true. now split.
  - exists false. split; [reflexivity|]. split; [discriminate|]. intros H. inversion H.
  - exists false. split; [reflexivity|]. split; [discriminate|]. intros H. inversion H.
  - destruct (IH b) as [r [E Hr]]. destruct x as [v|], y as [w|]; cbn.
    + destruct (e v w) eqn:Ev; cbn.
      * exists r. split; [exact E|]. rewrite Hr. split; [now constructor|]. intros H. now inversion H.
      * exists false. split; [reflexivity|]. split; [discriminate|]. intros H. inversion H; subst. cbn in *. congruence.
    + exists false. split; [reflexivity|]. split; [discriminate|]. intros H. inversion H; subst. now cbn in *.
    + exists false. split; [reflexivity|]. split; [discriminate|]. intros H. inversion H; subst. now cbn in *.
    + exists r. split; [exact E|]. rewrite Hr. split; [now constructor|]. intros H. now inversion H.
Qed.

(** ** The traits *)
(** What storages of enums without fields have besides their storage traits
    (unit_variants.rs:174-219, 422-436, 589-603). *)
Definition unit_traits : list string := ["Clone"; "Copy"; "PartialEq"; "Eq"; "Hash"; "PartialOrd"; "Ord"].
Lemma traits_unit : traits_of false true = Some (unit_traits ++ ["MapStorage"], unit_traits ++ ["SetStorage"])%list.
Proof. vm_cast_no_check (@eq_refl (option (list string * list string)) (Some (unit_traits ++ ["MapStorage"], unit_traits ++ ["SetStorage"])%list)). Qed.
Lemma traits_bitset : traits_of true true
  = Some (unit_traits ++ ["MapStorage"], unit_traits ++ ["SetStorage"; "RawStorage"])%list.
Proof. vm_cast_no_check (@eq_refl (option (list string * list string)) (Some (unit_traits ++ ["MapStorage"], unit_traits ++ ["SetStorage"; "RawStorage"])%list)). Qed.
Lemma traits_any : traits_of false false
  = Some (["MapStorage"; "PartialEq"; "Eq"; "Clone"; "Copy"], ["SetStorage"; "PartialEq"; "Eq"; "Clone"; "Copy"]).
Proof. vm_cast_no_check (@eq_refl (option (list string * list string)) (Some (["MapStorage"; "PartialEq"; "Eq"; "Clone"; "Copy"], ["SetStorage"; "PartialEq"; "Eq"; "Clone"; "Copy"]))). Qed.

(** ** Together *)
Lemma unit_kinds : forall R (u : units R) V bitset ki m s, derive_unit bitset u = Some ki ->
  traits_of bitset true = Some (m, s) ->
  (In "Hash" m /\ ms_hash_with (ki_map ki V) <> None) /\ (In "Hash" s /\ ss_hash (ki_set ki) <> None) /\
  (In "PartialOrd" m /\ ms_partial_cmp_with (ki_map ki V) <> None) /\ (In "PartialOrd" s /\ ss_partial_cmp (ki_set ki) <> None) /\
  (In "Ord" m /\ ms_cmp_with (ki_map ki V) <> None) /\ (In "Ord" s /\ ss_cmp (ki_set ki) <> None) /\
  (In "RawStorage" s <-> ss_raw (ki_set ki) <> None).
Proof.
  intros R u V bitset ki m s D T. unfold derive_unit in D.
  destruct bitset; [rewrite traits_bitset in T|rewrite traits_unit in T]; injection T as <- <-.
  - destruct (determine_bits _) as [w|]; [|discriminate]. injection D as <-.
    repeat split; try discriminate; cbn; tauto.
  - injection D as <-. repeat split; try discriminate; cbn; try tauto; try congruence.
    intros H. repeat destruct H as [H|H]; try discriminate; contradiction.
Qed.
Lemma any_kinds : forall R (fs : fields R) V m s, traits_of false false = Some (m, s) ->
  (~ In "Hash" m /\ ms_hash_with (any_map_storage V fs) = None) /\
  (~ In "Hash" s /\ ss_hash (any_set_storage fs) = None) /\
  (~ In "PartialOrd" m /\ ms_partial_cmp_with (any_map_storage V fs) = None) /\
  (~ In "PartialOrd" s /\ ss_partial_cmp (any_set_storage fs) = None) /\
  (~ In "Ord" m /\ ms_cmp_with (any_map_storage V fs) = None) /\
  (~ In "Ord" s /\ ss_cmp (any_set_storage fs) = None) /\
  (~ In "RawStorage" s /\ ss_raw (any_set_storage fs) = None).
Proof.
  intros R fs V m s T. rewrite traits_any in T. injection T as <- <-.
  repeat split; try reflexivity; intros H; cbn in H; repeat destruct H as [H|H]; try discriminate; contradiction.
Qed.
Lemma clone_ok : forall R V (u : units R) S (clone : clone_fn S V) eq word hash pcmp cmp bitset s
    (a : ms_St (unit_map_storage u V)),
  returns (fun n => map_trait clone eq word hash pcmp cmp bitset "Clone" "clone" n s [arr_elems u (um_data a)])
    (let '(s', r) := ms_clone_with (unit_map_storage u V) clone s a in
     (s', option_map (fun m => GotStorage (arr_elems u (um_data m))) r)).
Proof.
  intros. apply returns_const. intros n. rewrite clone_is. cbn [map_lib]. rewrite slice_clone_arr.
  cbn [ms_clone_with unit_map_storage].
  destruct (arr_clone_with clone u s (um_data a)) as [s' [r|]]; reflexivity.
Qed.
Lemma eq_ok : forall R V (u : units R) S clone (eq : eq_fn S V) word hash pcmp cmp bitset s
    (a b : ms_St (unit_map_storage u V)),
  returns (fun n => map_trait clone eq word hash pcmp cmp bitset "PartialEq" "eq" n s
      [arr_elems u (um_data a); arr_elems u (um_data b)])
    (let '(s', r) := ms_eq_with (unit_map_storage u V) eq s a b in (s', option_map GotBool r)).
Proof.
  intros. apply returns_const. intros n. rewrite eq_is. cbn [map_lib]. rewrite slice_eq_arr.
  cbn [ms_eq_with unit_map_storage].
  destruct (arr_eq_with eq u s (um_data a) (um_data b)) as [s' r]; reflexivity.
Qed.
Lemma hash_ok : forall R V (u : units R) S clone eq word (hash : hash_fn S V) pcmp cmp bitset s
    (a : ms_St (unit_map_storage u V)),
  exists f, ms_hash_with (unit_map_storage u V) = Some f /\
  returns (fun n => map_trait clone eq word hash pcmp cmp bitset "Hash" "hash" n s [arr_elems u (um_data a)])
    (let '(s', unwound) := f S word hash s a in (s', if unwound then None else Some GotUnit)).
Proof.
  intros. eexists. split; [reflexivity|]. apply returns_const. intros n. rewrite hash_is. cbn [map_lib].
  destruct (hash_array_with word (hash_option_with word hash) s (arr_elems u (um_data a))) as [s' []]; reflexivity.
Qed.
Lemma partial_cmp_trait_ok : forall R V (u : units R) S clone eq word hash (pcmp : pcmp_fn S V) cmp bitset s
    (a b : ms_St (unit_map_storage u V)),
  exists f, ms_partial_cmp_with (unit_map_storage u V) = Some f /\
  returns (fun n => map_trait clone eq word hash pcmp cmp bitset "PartialOrd" "partial_cmp" n s
      [arr_elems u (um_data a); arr_elems u (um_data b)])
    (let '(s', r) := f S pcmp s a b in (s', option_map GotOrder r)).
Proof.
  intros. eexists. split; [reflexivity|].
  refine (returns_map _ _ (fun p => let '(s', r) := p in (s', option_map GotOrder r)) _ _
            (C72_partial_cmp V S pcmp cmp s (arr_elems u (um_data a)) (arr_elems u (um_data b)))).
  intros n [s' r] E. rewrite partial_cmp_is. cbn [map_lib]. rewrite E. reflexivity.
Qed.
Lemma cmp_trait_ok : forall R V (u : units R) S clone eq word hash pcmp (cmp : cmp_fn S V) bitset s
    (a b : ms_St (unit_map_storage u V)),
  exists f, ms_cmp_with (unit_map_storage u V) = Some f /\
  returns (fun n => map_trait clone eq word hash pcmp cmp bitset "Ord" "cmp" n s
      [arr_elems u (um_data a); arr_elems u (um_data b)])
    (let '(s', r) := f S cmp s a b in (s', option_map (fun o => GotOrder (Some o)) r)).
Proof.
  intros. eexists. split; [reflexivity|].
  assert (H := returns_map _ (fun n => map_trait clone eq word hash pcmp cmp bitset "Ord" "cmp" n s
      [arr_elems u (um_data a); arr_elems u (um_data b)])
     (fun p => let '(s', r) := p in (s', option_map GotOrder r)) _
            ltac:(intros n [s' r] E; rewrite cmp_is; cbn [map_lib]; rewrite E; reflexivity)
            (C72_cmp V S pcmp cmp s (arr_elems u (um_data a)) (arr_elems u (um_data b)))).
  destruct (storage_iterator_cmp_with cmp s (arr_elems u (um_data a)) (arr_elems u (um_data b))) as [s' [o|]]; exact H.
Qed.
Lemma set_partial_cmp_ok : forall a b r,
  returns (fun n => bool_call (program support_text) "__storage_iterator_partial_cmp_bool" n Datatypes.tt a b) (Datatypes.tt, Some r) ->
  returns (fun n => set_trait "PartialOrd" "partial_cmp" n [a; b]) (Datatypes.tt, Some (GotOrder r)).
Proof.
  intros a b r H. refine (returns_map _ _ (fun p => let '(s', r) := p in (s', option_map GotOrder r)) _ _ H).
  intros n [s' q] E. rewrite set_partial_cmp_is. cbn [set_lib]. rewrite E. reflexivity.
Qed.
Lemma set_cmp_ok : forall a b r,
  returns (fun n => bool_call (program support_text) "__storage_iterator_cmp_bool" n Datatypes.tt a b) (Datatypes.tt, Some r) ->
  returns (fun n => set_trait "Ord" "cmp" n [a; b]) (Datatypes.tt, Some (GotOrder r)).
Proof.
  intros a b r H. refine (returns_map _ _ (fun p => let '(s', r) := p in (s', option_map GotOrder r)) _ _ H).
  intros n [s' q] E. rewrite set_cmp_is. cbn [set_lib]. rewrite E. reflexivity.
Qed.
Lemma sets_ok : forall R (u : units R) (a b : ss_St (unit_set_storage u)),
  exists f g, ss_partial_cmp (unit_set_storage u) = Some f /\ ss_cmp (unit_set_storage u) = Some g /\
  returns (fun n => set_trait "PartialOrd" "partial_cmp" n [arr_elems u (us_data u a); arr_elems u (us_data u b)])
    (Datatypes.tt, Some (GotOrder (f a b))) /\
  returns (fun n => set_trait "Ord" "cmp" n [arr_elems u (us_data u a); arr_elems u (us_data u b)])
    (Datatypes.tt, Some (GotOrder (Some (g a b)))).
Proof.
  intros. eexists _, _. split; [reflexivity|]. split; [reflexivity|]. split.
  - apply set_partial_cmp_ok, C72_partial_cmp_bool.
  - apply set_cmp_ok, C72_cmp_bool.
Qed.
Lemma bitsets_ok : forall R (u : units R) width (a b : ss_St (bit_set_storage u width)),
  exists f g, ss_partial_cmp (bit_set_storage u width) = Some f /\ ss_cmp (bit_set_storage u width) = Some g /\
  bits_trait "PartialOrd" "partial_cmp" [bt_data a; bt_data b] = Some (Datatypes.tt, Some (GotOrder (f a b))) /\
  bits_trait "Ord" "cmp" [bt_data a; bt_data b] = Some (Datatypes.tt, Some (GotOrder (Some (g a b)))).
Proof.
  intros. eexists _, _. split; [reflexivity|]. split; [reflexivity|]. rewrite !bits_trait_of. split; reflexivity.
Qed.
Lemma equal_ok : forall V (e : V -> V -> bool) clone word hash pcmp cmp bitset a b,
  exists r, (r = true <-> Forall2 (equal_at e) a b) /\
  returns (fun n => map_trait clone (fun s v w => (s, Some (e v w))) word hash pcmp cmp bitset
      "PartialEq" "eq" n Datatypes.tt [a; b]) (Datatypes.tt, Some (GotBool r)).
Proof.
  intros. destruct (slice_eq_pure e a b) as [r [E H]]. exists r. split; [exact H|].
  apply returns_const. intros n. rewrite eq_is. cbn [map_lib]. rewrite E. reflexivity.
Qed.
Lemma order_ok : forall V (c : V -> V -> comparison) clone eq word hash bitset a b, List.length a = List.length b ->
  let call := map_trait clone eq word hash (fun s v w => (s, Some (Some (c v w)))) (fun s v w => (s, Some (c v w))) bitset in
  exists o, compares c a b o /\
    returns (fun n => call "Ord" "cmp" n Datatypes.tt [a; b]) (Datatypes.tt, Some (GotOrder (Some o))) /\
    returns (fun n => call "PartialOrd" "partial_cmp" n Datatypes.tt [a; b]) (Datatypes.tt, Some (GotOrder (Some o))).
Proof.
  intros V c clone eq word hash bitset a b L. cbv zeta. destruct (C72_order V c a b L) as [o [H [H1 H2]]].
  exists o. split; [exact H|]. split.
  - refine (returns_map _ _ (fun p => let '(s', r) := p in (s', option_map GotOrder r)) _ _ H1).
    intros n [s' r] E. rewrite cmp_is. cbn [map_lib]. rewrite E. reflexivity.
  - refine (returns_map _ _ (fun p => let '(s', r) := p in (s', option_map GotOrder r)) _ _ H2).
    intros n [s' r] E. rewrite partial_cmp_is. cbn [map_lib]. rewrite E. reflexivity.
Qed.
Lemma set_order_ok : forall a b, List.length a = List.length b ->
  exists o, compares bool_cmp (map flag a) (map flag b) o /\
    returns (fun n => set_trait "Ord" "cmp" n [a; b]) (Datatypes.tt, Some (GotOrder (Some o))) /\
    returns (fun n => set_trait "PartialOrd" "partial_cmp" n [a; b]) (Datatypes.tt, Some (GotOrder (Some o))).
Proof.
  intros a b L. destruct (C72_set_order a b L) as [o [H [H1 H2]]]. exists o. split; [exact H|]. split.
  - apply set_cmp_ok, H1.
  - apply set_partial_cmp_ok, H2.
Qed.
