(** Laws of the map storage generated for enums with tuple variants. *)
Require Import List Arith NArith ZArith Bool Lia Permutation Sorted.
Import ListNotations.
From Verif Require Import Std Traits OptionBucket MapStorages SetStorages DeriveUnit
  DeriveAny Spec IterLaws DropLaws MapCore MapLaws UnitLaws.

(** Something known about the key implementation of every tuple variant. *)
Fixpoint flaws (P : forall K, KeyImpl K -> Type) {R} (fs : fields R) : Type :=
  match fs with
  | FNil => unit
  | FUnit fs' => flaws P fs'
  | FTuple ki fs' => (P _ ki * flaws P fs')%type
  end.

Fixpoint fspec {P : forall K, KeyImpl K -> Type}
  (pspec : forall K ki, P K ki -> KeySpec K) {R} (fs : fields R) : flaws P fs -> KeySpec R :=
  match fs in fields R return flaws P fs -> KeySpec R with
  | FNil => fun _ => nil_spec
  | FUnit fs' => fun L => sum_spec cell_spec (fspec pspec fs' L)
  | FTuple ki fs' => fun L => sum_spec (pspec _ ki (fst L)) (fspec pspec fs' (snd L))
  end.

Lemma ent_map_id {K V} (l : list (ent K V)) : map (ent_map (fun k => k) id_ref) l = l.
Proof. rewrite <- (map_id l) at 2. apply map_ext. intros [[k v] r]. reflexivity. Qed.

Section Acc.
  Context {V : Type}.

  Lemma any_len_acc {R} (fs : fields R) n st :
    any_len_from V fs n st = n + any_len_from V fs 0 st.
  Proof.
    revert n; induction fs; intros n; simpl.
    - lia.
    - rewrite IHfs, (IHfs _ (usize_from _)). lia.
    - rewrite IHfs, (IHfs _ (ms_len _ _)). lia.
  Qed.

  Lemma any_is_empty_acc {R} (fs : fields R) b st :
    any_is_empty_from V fs b st = b && any_is_empty_from V fs true st.
  Proof.
    revert b; induction fs; intros b; simpl.
    - rewrite andb_true_r. reflexivity.
    - rewrite IHfs, (IHfs _ (is_none _)), andb_assoc. reflexivity.
    - rewrite IHfs, (IHfs _ (ms_is_empty _ _)), andb_assoc. reflexivity.
  Qed.

  Lemma any_retain_inj {S R} (fs : fields R) : forall T (f : retain_fn S T V) inj s st,
    any_retain V f fs inj s st =
    any_retain V (fun s k v => f s (inj k) v) fs (fun k => k) s st.
  Proof.
    induction fs as [|R fs IH|K R ki fs IH]; intros T f inj s st; simpl; auto.
    - unfold retain_cell. destruct (fst st) as [v|]; simpl.
      + destruct (f s (inj (inl tt)) v) as [[s1 v1] []]; auto;
          rewrite (IH _ f), (IH _ (fun s k v => f s (inj k) v)); reflexivity.
      + rewrite (IH _ f), (IH _ (fun s k v => f s (inj k) v)); reflexivity.
    - destruct (ms_retain (ki_map ki V) _ s (fst st)) as [[s1 o1] []]; auto.
      rewrite (IH _ f), (IH _ (fun s k v => f s (inj k) v)); reflexivity.
  Qed.
End Acc.

Section Any.
  Context {P : forall K, KeyImpl K -> Type} (pspec : forall K ki, P K ki -> KeySpec K)
          (V : Type)
          (pmap : forall K ki (p : P K ki), MapLaws (pspec K ki p) (ki_map ki V)).

  Local Notation spec := (fspec pspec).
  Local Notation core p := (ml_core (pmap _ _ p)).

  Lemma any_nil_sim :
    sim (a := nil_ops V unit) (ea := empty_eqb) (ba := no_order)
        (ops_of (any_map_storage V FNil)) empty_eqb no_order
        (fun st => st) (fun k => k) (fun k => k).
  Proof.
    constructor; try (intros; simpl; auto; fail); try (intros st []; fail);
      try (intros []; fail).
  Qed.

  Lemma any_unit_sim {R} (fs : fields R) (L : flaws P fs) :
    sim (a := sum_ops (cell_ops V) (ops_of (any_map_storage V fs)))
        (ea := sum_eqb unit_eqb (ks_eqb (spec fs L)))
        (ba := sum_before no_order (ks_before (spec fs L)))
        (ops_of (any_map_storage V (FUnit fs)))
        (ks_eqb (spec (FUnit fs) L)) (ks_before (spec (FUnit fs) L))
        (fun st => st) (fun k => k) (fun k => k).
  Proof.
    constructor; try (intros; simpl; auto; fail).
    - intros [a r]. simpl. rewrite any_len_acc. reflexivity.
    - intros [a r]. simpl. rewrite any_is_empty_acc. reflexivity.
    - intros [a r] [[]|k] v; simpl; auto. destruct (any_insert V fs r k v); reflexivity.
    - intros [[v|] r] [[]|k]; reflexivity.
    - intros [a r] [[]|k]; simpl; auto. destruct (any_remove V fs r k); reflexivity.
    - intros X f x [[v|] r]; simpl.
      + destruct (f x (inl tt) v) as [[x1 v1] []]; auto;
          rewrite any_retain_inj; destruct (any_retain V _ fs _ x1 r) as [[? ?] ?]; reflexivity.
      + rewrite any_retain_inj; destruct (any_retain V _ fs _ x r) as [[? ?] ?]; reflexivity.
    - intros [[v0|] r] [|[|i] [|j p]] v; try reflexivity; simpl;
        match goal with |- context [any_store V fs r ?q v] => destruct (any_store V fs r q v) end;
        reflexivity.
    - intros veq [a r] [b s]. simpl. destruct (option_eq veq a b); reflexivity.
  Qed.

  Lemma any_tuple_sim {K R} (ki : KeyImpl K) (fs : fields R) (L : flaws P (FTuple ki fs)) :
    sim (a := sum_ops (ops_of (ki_map ki V)) (ops_of (any_map_storage V fs)))
        (ea := sum_eqb (ks_eqb (pspec _ ki (fst L))) (ks_eqb (spec fs (snd L))))
        (ba := sum_before (ks_before (pspec _ ki (fst L))) (ks_before (spec fs (snd L))))
        (ops_of (any_map_storage V (FTuple ki fs)))
        (ks_eqb (spec (FTuple ki fs) L)) (ks_before (spec (FTuple ki fs) L))
        (fun st => st) (fun k => k) (fun k => k).
  Proof.
    constructor; try (intros; simpl; auto; fail).
    - intros [a r]. simpl. rewrite any_len_acc. reflexivity.
    - intros [a r]. simpl. rewrite any_is_empty_acc. reflexivity.
    - intros [a r] [k|k] v; simpl.
      + destruct (ms_insert (ki_map ki V) a k v); reflexivity.
      + destruct (any_insert V fs r k v); reflexivity.
    - intros [a r] [k|k]; simpl.
      + destruct (ms_remove (ki_map ki V) a k); reflexivity.
      + destruct (any_remove V fs r k); reflexivity.
    - intros X f x [a r]; simpl.
      destruct (ms_retain (ki_map ki V) _ x a) as [[x1 a1] []]; auto.
      rewrite any_retain_inj; destruct (any_retain V _ fs _ x1 r) as [[? ?] ?]; reflexivity.
    - intros [a r] [|[|i] p] v; try reflexivity; simpl.
      + destruct (ms_store (ki_map ki V) a p v); reflexivity.
      + destruct (any_store V fs r (i :: p) v); reflexivity.
    - intros veq [a r] [b s]. simpl. destruct (ms_eq (ki_map ki V) veq a b); reflexivity.
  Qed.

  Fixpoint any_core {R} (fs : fields R)
    : forall L : flaws P fs,
      { c : Core (ks_eqb (spec fs L)) (ks_before (spec fs L)) (ops_of (any_map_storage V fs))
        | no_root c } :=
    match fs in fields R
      return forall L : flaws P fs,
        { c : Core (ks_eqb (spec fs L)) (ks_before (spec fs L)) (ops_of (any_map_storage V fs))
          | no_root c } with
    | FNil => fun _ =>
        exist _ (sim_core (nil_core V _) _ _ _ _ _ _ any_nil_sim)
                (sim_no_root _ _ _ _ _ _ _ _ (nil_no_root V _))
    | FUnit fs' => fun L =>
        let H := proj2_sig (any_core fs' L) in
        exist _ (sim_core (sum_core (cell_core V) (proj1_sig (any_core fs' L)) H) _ _ _ _ _ _
                   (any_unit_sim fs' L))
                (sim_no_root _ _ _ _ _ _ _ _ (sum_no_root _ _ H))
    | FTuple ki fs' => fun L =>
        let H := proj2_sig (any_core fs' (snd L)) in
        exist _ (sim_core (sum_core (core (fst L)) (proj1_sig (any_core fs' (snd L))) H)
                   _ _ _ _ _ _ (any_tuple_sim ki fs' L))
                (sim_no_root _ _ _ _ _ _ _ _ (sum_no_root _ _ H))
    end.

  Local Notation acore fs L := (proj1_sig (any_core fs L)).

  Lemma any_ents_unit {R} (fs : fields R) L st :
    c_ents (acore (FUnit fs) L) st = sum_ents (cell_ents (fst st)) (c_ents (acore fs L) (snd st)).
  Proof. simpl. apply ent_map_id. Qed.

  Lemma any_ents_tuple {K R} (ki : KeyImpl K) (fs : fields R) L st :
    c_ents (acore (FTuple ki fs) L) st =
    sum_ents (c_ents (core (fst L)) (fst st)) (c_ents (acore fs (snd L)) (snd st)).
  Proof. simpl. apply ent_map_id. Qed.

  Lemma any_inv_unit {R} (fs : fields R) L st :
    c_inv (acore (FUnit fs) L) st <-> c_inv (acore fs L) (snd st).
  Proof. simpl. tauto. Qed.

  Lemma any_inv_tuple {K R} (ki : KeyImpl K) (fs : fields R) L st :
    c_inv (acore (FTuple ki fs) L) st <->
    c_inv (core (fst L)) (fst st) /\ c_inv (acore fs (snd L)) (snd st).
  Proof. simpl. tauto. Qed.

  Lemma any_empty_laws {R} (fs : fields R) L : forall i w,
    c_inv (acore fs L) (any_empty V fs i w) /\ c_ents (acore fs L) (any_empty V fs i w) = [].
  Proof.
    induction fs as [|R fs IH|K R ki fs IH]; intros i w.
    - split; [exact I|reflexivity].
    - destruct (IH L (S i) w) as [H1 H2]. split.
      + apply (proj2 (any_inv_unit _ _ _)). exact H1.
      + rewrite any_ents_unit. simpl in *. rewrite H2. reflexivity.
    - destruct (IH (snd L) (S i) w) as [H1 H2].
      destruct (ml_empty _ _ (pmap _ _ (fst L)) (sub_world i w)) as [H3 H4]. split.
      + apply (proj2 (any_inv_tuple _ _ _ _)). auto.
      + rewrite any_ents_tuple. simpl in *. rewrite H2, H4. reflexivity.
  Qed.

  (** ** Iterators *)

  Definition add_ref (i : nat) (r : ref) : ref :=
    match r with j :: q => (i + j) :: q | [] => [] end.

  Lemma add_shift i r : add_ref i (shift_ref r) = add_ref (S i) r.
  Proof. destruct r; simpl; auto. f_equal. lia. Qed.

  Section Fields.
    Context {T A : Type} (simple : nat -> T -> iterator A)
            (complex : nat -> forall K, KeyImpl K -> (K -> T) -> iterator A)
            (sinit : forall i t, option V -> it_st (simple i t))
            (cinit : forall i K (ki : KeyImpl K) inj, cx_map V K ki -> it_st (complex i K ki inj))
            (Ls : forall i t, it_laws (simple i t))
            (Lc : forall i K ki (p : P K ki) inj, it_laws (complex i K ki inj)).

    Fixpoint f_all_laws {R} (fs : fields R) (i : nat)
      : forall inj, flaws P fs -> all_laws (field_its simple complex i fs inj) :=
      match fs in fields R
        return forall inj, flaws P fs -> all_laws (field_its simple complex i fs inj) with
      | FNil => fun _ _ => tt
      | FUnit fs' => fun inj L => (Ls i _, f_all_laws fs' (S i) _ L)
      | FTuple ki fs' => fun inj L => (Lc i _ ki (fst L) _, f_all_laws fs' (S i) _ (snd L))
      end.

    Variable g : ent T V -> A.
    Hypothesis Hs : forall i t o, il_ok (Ls i t) (sinit i t o) /\
      il_rem (Ls i t) (sinit i t o) =
      map g (match o with Some v => [(t, v, [i])] | None => [] end).
    Hypothesis Hc : forall i K ki (p : P K ki) inj (s : cx_map V K ki), c_inv (core p) s ->
      il_ok (Lc i K ki p inj) (cinit i K ki inj s) /\
      il_rem (Lc i K ki p inj) (cinit i K ki inj s) =
      map g (map (ent_map inj (cons i)) (c_ents (core p) s)).

    Lemma f_rems {R} (fs : fields R) : forall L i inj st, c_inv (acore fs L) st ->
      all_ok _ (f_all_laws fs i inj L) (field_init simple complex sinit cinit i fs inj st) /\
      concat (all_rems _ (f_all_laws fs i inj L)
                (field_init simple complex sinit cinit i fs inj st)) =
      map g (map (ent_map inj (add_ref i)) (c_ents (acore fs L) st)).
    Proof.
      induction fs as [|R fs IH|K R ki fs IH]; intros L i inj st Hi.
      - split; [exact I|reflexivity].
      - apply (proj1 (any_inv_unit _ _ _)) in Hi. rewrite any_ents_unit. unfold sum_ents.
        destruct (IH L (S i) (fun k => inj (inr k)) (snd st) Hi) as [H1 H2].
        destruct (Hs i (inj (inl tt)) (fst st)) as [H3 H4].
        split; [split; [exact H3|exact H1]|].
        cbn [field_its f_all_laws field_init all_rems concat fst snd].
        rewrite H2, H4, !map_app. f_equal.
        + destruct (fst st); simpl; auto. unfold ent_map. simpl. rewrite Nat.add_0_r. reflexivity.
        + rewrite !map_map. apply map_ext. intros [[k v] r]. unfold ent_map. simpl.
          unfold eref. simpl. rewrite add_shift. reflexivity.
      - apply (proj1 (any_inv_tuple _ _ _ _)) in Hi as [Hi1 Hi2]. rewrite any_ents_tuple. unfold sum_ents.
        destruct (IH (snd L) (S i) (fun k => inj (inr k)) (snd st) Hi2) as [H1 H2].
        destruct (Hc i _ ki (fst L) (fun k => inj (inl k)) (fst st) Hi1) as [H3 H4].
        split; [split; [exact H3|exact H1]|].
        cbn [field_its f_all_laws field_init all_rems concat fst snd].
        rewrite H2, H4, !map_app. f_equal.
        + rewrite !map_map. apply map_ext. intros [[k v] r]. unfold ent_map. simpl.
          unfold eref. simpl. rewrite Nat.add_0_r. reflexivity.
        + rewrite !map_map. apply map_ext. intros [[k v] r]. unfold ent_map. simpl.
          unfold eref. simpl. rewrite add_shift. reflexivity.
    Qed.
  End Fields.

  Lemma field_its_len {R T A} (fs : fields R) (simple : nat -> T -> iterator A) complex :
    forall i inj, length (field_its simple complex i fs inj) = fields_len fs.
  Proof. induction fs; intros; simpl; auto. Qed.

  Lemma struct_all {A} (its : list (iterator A)) (L : all_laws its) n st :
    n = length its ->
    struct_rem its L (0, n, st) = concat (all_rems its L st).
  Proof.
    intros ->. unfold struct_rem, range_rem. simpl. rewrite Nat.sub_0_r.
    rewrite <- (all_rems_length its L st), firstn_all. reflexivity.
  Qed.

  Lemma ent_map_add0 {K} (l : list (ent K V)) : map (ent_map (fun k => k) (add_ref 0)) l = l.
  Proof.
    rewrite <- (map_id l) at 2. apply map_ext. intros [[k v] [|i r]]; reflexivity.
  Qed.

  Definition f_struct_laws {R A} (fs : fields R) (simple : nat -> R -> iterator A)
    (complex : nat -> forall K, KeyImpl K -> (K -> R) -> iterator A)
    (Ls : forall i t, it_laws (simple i t))
    (Lc : forall i K ki (p : P K ki) inj, it_laws (complex i K ki inj)) (L : flaws P fs)
    : it_laws (struct_it (field_its simple complex 0 fs (fun k => k))) :=
    struct_laws _ (f_all_laws simple complex Ls Lc fs 0 (fun k => k) L).

  Lemma f_struct_rem {R A} (fs : fields R) (simple : nat -> R -> iterator A)
    (complex : nat -> forall K, KeyImpl K -> (K -> R) -> iterator A) sinit cinit
    (Ls : forall i t, it_laws (simple i t))
    (Lc : forall i K ki (p : P K ki) inj, it_laws (complex i K ki inj)) (g : ent R V -> A) :
    (forall i t o, il_ok (Ls i t) (sinit i t o) /\
      il_rem (Ls i t) (sinit i t o) =
      map g (match o with Some v => [(t, v, [i])] | None => [] end)) ->
    (forall i K ki (p : P K ki) inj (s : cx_map V K ki), c_inv (core p) s ->
      il_ok (Lc i K ki p inj) (cinit i K ki inj s) /\
      il_rem (Lc i K ki p inj) (cinit i K ki inj s) =
      map g (map (ent_map inj (cons i)) (c_ents (core p) s))) ->
    forall L st, c_inv (acore fs L) st ->
    il_ok (f_struct_laws fs simple complex Ls Lc L)
      (0, fields_len fs, field_init simple complex sinit cinit 0 fs (fun k => k) st) /\
    il_rem (f_struct_laws fs simple complex Ls Lc L)
      (0, fields_len fs, field_init simple complex sinit cinit 0 fs (fun k => k) st) =
    map g (c_ents (acore fs L) st).
  Proof.
    intros Hs Hc L st Hi.
    destruct (f_rems simple complex sinit cinit Ls Lc g Hs Hc fs L 0 (fun k => k) st Hi) as [H1 H2].
    split.
    - simpl. split; [rewrite field_its_len; auto|exact H1].
    - etransitivity; [apply struct_all; rewrite field_its_len; auto|].
      rewrite H2, ent_map_add0. reflexivity.
  Qed.

  (** ** Keys *)

  Fixpoint any_keysl {R} (fs : fields R) : flaws P fs -> any_map V fs -> list R :=
    match fs in fields R return flaws P fs -> any_map V fs -> list R with
    | FNil => fun _ _ => []
    | FUnit fs' => fun L st =>
        (if is_some (fst st) then [inl tt] else []) ++ map inr (any_keysl fs' L (snd st))
    | FTuple ki fs' => fun L st =>
        map inl (il_rem (ml_Keys (pmap _ ki (fst L))) (ms_keys (ki_map ki V) (fst st))) ++
        map inr (any_keysl fs' (snd L) (snd st))
    end.

  Definition keys_Ls {T} (i : nat) (t : T) : it_laws (keys_simple i t) := flag_laws t.
  Definition keys_Lc {T} (i : nat) K (ki : KeyImpl K) (p : P K ki) (inj : K -> T)
    : it_laws (keys_cx V i K ki inj) := map_laws inj _ (ml_Keys (pmap _ ki p)).

  Lemma any_keys_rems {R} (fs : fields R) : forall T L i (inj : R -> T) st,
    c_inv (acore fs L) st ->
    let s := field_init (Cx := cx_map V) keys_simple (keys_cx V) (fun _ _ o => is_some o)
               (fun _ K ki _ s => ms_keys (ki_map ki V) s) i fs inj st in
    all_ok _ (f_all_laws _ _ keys_Ls keys_Lc fs i inj L) s /\
    concat (all_rems _ (f_all_laws _ _ keys_Ls keys_Lc fs i inj L) s) =
    map inj (any_keysl fs L st).
  Proof.
    induction fs as [|R fs IH|K R ki fs IH]; intros T L i inj st Hi; cbv zeta.
    - split; [exact I|reflexivity].
    - apply (proj1 (any_inv_unit _ _ _)) in Hi.
      destruct (IH T L (S i) (fun k => inj (inr k)) (snd st) Hi) as [H1 H2].
      split; [split; [exact I|exact H1]|].
      cbn [field_its f_all_laws field_init all_rems concat fst snd any_keysl].
      rewrite H2, map_app, map_map. f_equal. simpl. destruct (fst st); reflexivity.
    - apply (proj1 (any_inv_tuple _ _ _ _)) in Hi as [Hi1 Hi2].
      destruct (IH T (snd L) (S i) (fun k => inj (inr k)) (snd st) Hi2) as [H1 H2].
      destruct (ml_keys _ _ (pmap _ ki (fst L)) _ Hi1) as (H3 & _).
      split; [split; [exact H3|exact H1]|].
      cbn [field_its f_all_laws field_init all_rems concat fst snd any_keysl].
      rewrite H2, map_app, !map_map. f_equal.
  Qed.

  Lemma filter_map_comm {A B} (g : A -> B) (f : B -> bool) l :
    filter f (map g l) = map g (filter (fun x => f (g x)) l).
  Proof. induction l as [|x l IH]; simpl; auto. destruct (f (g x)); simpl; congruence. Qed.

  Lemma sum_keys_laws {A B} (a : KeySpec A) (b : KeySpec B) la lb (ea : list (ent A V))
    (eb : list (ent B V)) (c : A + B -> bool) :
    NoDup la -> StronglySorted (fun x y => ~ ks_before a y x) la ->
    (forall k, In k la <-> In k (map ekey ea) \/ ks_leaf a k = LUnit) ->
    filter (fun k => c (inl k)) la = map ekey ea ->
    NoDup lb -> StronglySorted (fun x y => ~ ks_before b y x) lb ->
    (forall k, In k lb <-> In k (map ekey eb) \/ ks_leaf b k = LUnit) ->
    filter (fun k => c (inr k)) lb = map ekey eb ->
    NoDup (map inl la ++ map inr lb) /\
    StronglySorted (fun x y => ~ ks_before (sum_spec a b) y x) (map inl la ++ map inr lb) /\
    (forall k, In k (map inl la ++ map inr lb) <->
               In k (map ekey (sum_ents ea eb)) \/ ks_leaf (sum_spec a b) k = LUnit) /\
    filter c (map inl la ++ map inr lb) = map ekey (sum_ents ea eb).
  Proof.
    intros A1 A2 A3 A4 B1 B2 B3 B4. split; [|split; [|split]].
    - apply NoDup_app_disj.
      + apply NoDup_map_inj; [congruence|auto].
      + apply NoDup_map_inj; [congruence|auto].
      + intros x H1 H2. apply in_map_iff in H1 as (? & <- & _).
        apply in_map_iff in H2 as (? & [=] & _).
    - apply StronglySorted_app.
      + eapply StronglySorted_map; [|exact A2]. auto.
      + eapply StronglySorted_map; [|exact B2]. auto.
      + intros x y H1 H2. apply in_map_iff in H1 as (? & <- & _).
        apply in_map_iff in H2 as (? & <- & _). simpl. auto.
    - intros k. unfold sum_ents.
      rewrite map_app, !in_app_iff, !map_ekey_ent_map, !in_map_iff. destruct k as [k|k]; simpl.
      + split.
        * intros [(x & [= ->] & Hx)|(x & [=] & _)]. apply A3 in Hx as [Hx|Hx]; eauto.
        * intros [[(x & [= ->] & Hx)|(x & [=] & _)]|Hx]; left; exists k; split; auto;
            apply A3; auto.
      + split.
        * intros [(x & [=] & _)|(x & [= ->] & Hx)]. apply B3 in Hx as [Hx|Hx]; eauto.
        * intros [[(x & [=] & _)|(x & [= ->] & Hx)]|Hx]; right; exists k; split; auto;
            apply B3; auto.
    - unfold sum_ents. rewrite filter_app, map_app, !filter_map_comm, !map_ekey_ent_map, A4, B4.
      reflexivity.
  Qed.

  Lemma any_keysl_laws {R} (fs : fields R) : forall L st, c_inv (acore fs L) st ->
    NoDup (any_keysl fs L st) /\
    StronglySorted (fun a b => ~ ks_before (spec fs L) b a) (any_keysl fs L st) /\
    (forall k, In k (any_keysl fs L st) <->
               In k (map ekey (c_ents (acore fs L) st)) \/ ks_leaf (spec fs L) k = LUnit) /\
    filter (any_contains_key V fs st) (any_keysl fs L st) =
      map ekey (c_ents (acore fs L) st).
  Proof.
    induction fs as [|R fs IH|K R ki fs IH]; intros L st Hi.
    - simpl. repeat split; try constructor; destruct k.
    - apply (proj1 (any_inv_unit _ _ _)) in Hi. rewrite any_ents_unit.
      destruct (IH L (snd st) Hi) as (B1 & B2 & B3 & B4).
      cbn [any_keysl fspec].
      replace (if is_some (fst st) then [inl tt] else []) with
        (map (@inl unit R) (if is_some (fst st) then [tt] else [])) by (destruct (fst st); auto).
      apply sum_keys_laws; auto.
      + destruct (fst st); simpl; repeat constructor; auto.
      + destruct (fst st); simpl; repeat constructor; auto.
      + intros []. simpl. destruct (fst st); simpl; intuition discriminate.
      + simpl. destruct (fst st); reflexivity.
    - apply (proj1 (any_inv_tuple _ _ _ _)) in Hi as [Hi1 Hi2]. rewrite any_ents_tuple.
      destruct (IH (snd L) (snd st) Hi2) as (B1 & B2 & B3 & B4).
      destruct (ml_keys _ _ (pmap _ ki (fst L)) _ Hi1) as (_ & A1 & A2 & A3 & A4).
      cbn [any_keysl fspec]. apply sum_keys_laws; auto.
  Qed.

  (** ** Entries *)

  Fixpoint simple_pos {R} (fs : fields R) : R -> option nat :=
    match fs in fields R return R -> option nat with
    | FNil => fun _ => None
    | FUnit fs' => fun k =>
        match k with inl _ => Some 0 | inr k' => option_map S (simple_pos fs' k') end
    | FTuple _ fs' => fun k =>
        match k with inl _ => None | inr k' => option_map S (simple_pos fs' k') end
    end.

  Lemma simple_cell {R} (fs : fields R) : forall k n st, simple_pos fs k = Some n ->
    any_cell_get V fs st [n] = Some (any_get V fs st k) /\
    any_get_mut V fs st k = opt_as_mut [n] (any_get V fs st k) /\
    (forall v, any_store V fs st [n] v =
       match any_get V fs st k with
       | Some _ => any_cell_set V fs st [n] (Some v)
       | None => None
       end) /\
    (forall o, exists st', any_cell_set V fs st [n] o = Some st' /\ any_get V fs st' k = o) /\
    (forall v, any_cell_set V fs st [n] (Some v) = Some (snd (any_insert V fs st k v))) /\
    any_cell_set V fs st [n] None = Some (snd (any_remove V fs st k)).
  Proof.
    induction fs as [|R fs IH|K R ki fs IH]; intros k n st E; simpl in E.
    - discriminate.
    - destruct k as [[]|k].
      + injection E as <-. simpl. repeat split; auto.
        intros o. eexists. split; reflexivity.
      + destruct (simple_pos fs k) as [n'|] eqn:E'; [|discriminate]. injection E as <-.
        destruct (IH k n' (snd st) E') as (H1 & H2 & H3 & H4 & H5 & H6). simpl.
        rewrite H1, H2. split; [auto|]. split; [destruct (any_get V fs (snd st) k); auto|].
        split; [|split; [|split]].
        * intros v. rewrite H3. destruct (any_get V fs (snd st) k); auto.
        * intros o. destruct (H4 o) as (st' & Ea & Eb). rewrite Ea.
          exists (fst st, st'). auto.
        * intros v. rewrite H5. destruct (any_insert V fs (snd st) k v); reflexivity.
        * rewrite H6. destruct (any_remove V fs (snd st) k); reflexivity.
    - destruct k as [k|k]; [discriminate|].
      destruct (simple_pos fs k) as [n'|] eqn:E'; [|discriminate]. injection E as <-.
      destruct (IH k n' (snd st) E') as (H1 & H2 & H3 & H4 & H5 & H6). simpl.
      rewrite H1, H2. split; [auto|]. split; [destruct (any_get V fs (snd st) k); auto|].
      split; [|split; [|split]].
      * intros v. rewrite H3. destruct (any_get V fs (snd st) k); auto.
      * intros o. destruct (H4 o) as (st' & Ea & Eb). rewrite Ea.
        exists (fst st, st'). auto.
      * intros v. rewrite H5. destruct (any_insert V fs (snd st) k v); reflexivity.
      * rewrite H6. destruct (any_remove V fs (snd st) k); reflexivity.
  Qed.

  Fixpoint occ_cx_ok {R} (fs : fields R)
    : flaws P fs -> any_map V fs -> any_occ_cx V fs -> R -> ref -> Prop :=
    match fs in fields R
      return flaws P fs -> any_map V fs -> any_occ_cx V fs -> R -> ref -> Prop with
    | FNil => fun _ _ _ _ _ => False
    | FUnit fs' => fun L st e k r =>
        exists k' r', k = inr k' /\ r = shift_ref r' /\ occ_cx_ok fs' L (snd st) e k' r'
    | FTuple ki fs' => fun L st e k r =>
        match e with
        | inl o => exists k' r', k = inl k' /\ r = 0 :: r' /\
                     ml_occ_ok (pmap _ ki (fst L)) (fst st) o k' r'
        | inr e' => exists k' r', k = inr k' /\ r = shift_ref r' /\
                      occ_cx_ok fs' (snd L) (snd st) e' k' r'
        end
    end.

  Fixpoint vac_cx_ok {R} (fs : fields R)
    : flaws P fs -> any_map V fs -> any_vac_cx V fs -> R -> Prop :=
    match fs in fields R
      return flaws P fs -> any_map V fs -> any_vac_cx V fs -> R -> Prop with
    | FNil => fun _ _ _ _ => False
    | FUnit fs' => fun L st e k =>
        exists k', k = inr k' /\ vac_cx_ok fs' L (snd st) e k'
    | FTuple ki fs' => fun L st e k =>
        match e with
        | inl o => exists k', k = inl k' /\ ml_vac_ok (pmap _ ki (fst L)) (fst st) o k'
        | inr e' => exists k', k = inr k' /\ vac_cx_ok fs' (snd L) (snd st) e' k'
        end
    end.

  Lemma arms_simple {R} (fs : fields R) : forall A B i simple (occ : _ -> A) (vac : _ -> B) st k n,
    simple_pos fs k = Some n ->
    any_entry_arms V fs i simple occ vac st k = simple [i + n].
  Proof.
    induction fs as [|R fs IH|K R ki fs IH]; intros A B i simple occ vac st k n E; simpl in *.
    - discriminate.
    - destruct k as [|k]; [injection E as <-; rewrite Nat.add_0_r; auto|].
      destruct (simple_pos fs k) as [n'|] eqn:E'; [|discriminate]. injection E as <-.
      rewrite (IH _ _ _ _ _ _ _ _ _ E'). do 2 f_equal. lia.
    - destruct k as [|k]; [discriminate|].
      destruct (simple_pos fs k) as [n'|] eqn:E'; [|discriminate]. injection E as <-.
      rewrite (IH _ _ _ _ _ _ _ _ _ E'). do 2 f_equal. lia.
  Qed.

  Lemma arms_complex {R} (fs : fields R) : forall L A B i simple (occ : _ -> A) (vac : _ -> B) st k,
    c_inv (acore fs L) st -> simple_pos fs k = None ->
    match lookup (ks_eqb (spec fs L)) k (c_ents (acore fs L) st) with
    | Some (_, r) => exists c,
        any_entry_arms V fs i simple occ vac st k = Ok (Occupied (occ c)) /\
        occ_cx_ok fs L st c k r
    | None => exists x,
        any_entry_arms V fs i simple occ vac st k = Ok (Vacant (vac x)) /\
        vac_cx_ok fs L st x k
    end.
  Proof.
    induction fs as [|R fs IH|K R ki fs IH]; intros L A B i simple occ vac st k Hi E.
    - destruct k.
    - apply (proj1 (any_inv_unit _ _ _)) in Hi. rewrite any_ents_unit. simpl in E.
      destruct k as [k|k]; [discriminate|].
      assert (E' : simple_pos fs k = None) by (destruct (simple_pos fs k); [discriminate|auto]).
      cbn [fspec sum_spec ks_eqb]. rewrite sum_lookup_r.
      pose proof (IH L A B (S i) simple occ vac (snd st) k Hi E') as H.
      destruct (lookup _ k _) as [[v r]|]; simpl.
      + destruct H as (c & H1 & H2). exists c. split; auto. exists k, r. auto.
      + destruct H as (c & H1 & H2). exists c. split; auto. exists k. auto.
    - apply (proj1 (any_inv_tuple _ _ _ _)) in Hi as [Hi1 Hi2]. rewrite any_ents_tuple. simpl in E.
      cbn [fspec sum_spec ks_eqb].
      destruct k as [k|k].
      + rewrite sum_lookup_l. pose proof (ml_entry _ _ (pmap _ ki (fst L)) (fst st) k Hi1) as H.
        destruct (lookup _ k _) as [[v r]|]; simpl.
        * destruct H as (o & H1 & H2). exists (inl o). rewrite H1. split; auto.
          exists k, r. auto.
        * destruct H as (o & H1 & H2). exists (inl o). rewrite H1. split; auto.
          exists k. auto.
      + assert (E' : simple_pos fs k = None) by (destruct (simple_pos fs k); [discriminate|auto]).
        rewrite sum_lookup_r.
        pose proof (IH (snd L) A B (S i) simple (fun o => occ (inr o)) (fun v => vac (inr v))
                      (snd st) k Hi2 E') as H.
        destruct (lookup _ k _) as [[v r]|]; simpl.
        * destruct H as (c & H1 & H2). exists (inr c). split; auto. exists k, r. auto.
        * destruct H as (c & H1 & H2). exists (inr c). split; auto. exists k. auto.
  Qed.

  Lemma acore_not_root {R} (fs : fields R) L st k v r :
    lookup (ks_eqb (spec fs L)) k (c_ents (acore fs L) st) = Some (v, r) ->
    exists i p, r = i :: p.
  Proof.
    intros H. destruct r; [|eauto]. exfalso.
    apply (lookup_in _ (c_keqb _ _ _ (acore fs L))) in H.
    apply (proj2_sig (any_core fs L) st). apply in_map_iff. exists (k, v, []). auto.
  Qed.

  Lemma occ_cx_laws {R} (fs : fields R) : forall L st c k r,
    c_inv (acore fs L) st -> occ_cx_ok fs L st c k r ->
    exists v, lookup (ks_eqb (spec fs L)) k (c_ents (acore fs L) st) = Some (v, r) /\
      any_occ_key_cx V fs st c = Ok k /\ any_occ_get_cx V fs st c = Ok v /\
      any_occ_get_mut_cx V fs st c = Ok r /\ any_occ_into_mut_cx V fs st c = Ok r /\
      (forall v', exists st', any_store V fs st r v' = Some st' /\
                              any_occ_insert_cx V fs st c v' = Ok (v, st')) /\
      any_occ_remove_cx V fs st c = Ok (v, snd (any_remove V fs st k)).
  Proof.
    induction fs as [|R fs IH|K R ki fs IH]; intros L st c k r Hi Ho.
    - destruct Ho.
    - apply (proj1 (any_inv_unit _ _ _)) in Hi. rewrite any_ents_unit.
      destruct Ho as (k' & r' & -> & -> & Ho).
      destruct (IH L (snd st) c k' r' Hi Ho) as (v & H1 & H2 & H3 & H4 & H5 & H6 & H7).
      cbn [fspec sum_spec ks_eqb]. rewrite sum_lookup_r.
      destruct (acore_not_root _ _ _ _ _ _ H1) as (i & q & ->).
      exists v. rewrite H1. simpl. rewrite H2, H3, H4, H5, H7. simpl.
      do 5 (split; [reflexivity|]). split.
      + intros v'. destruct (H6 v') as (st' & Ea & Eb). rewrite Ea, Eb.
        eexists; split; reflexivity.
      + destruct (any_remove V fs (snd st) k'); reflexivity.
    - destruct st as [a s], L as [p L]. apply (proj1 (any_inv_tuple _ _ _ _)) in Hi as [Hi1 Hi2]. cbn [fst snd] in *. rewrite any_ents_tuple.
      cbn [fspec sum_spec ks_eqb fst snd]. destruct c as [o|c].
      + destruct Ho as (k' & r' & -> & -> & Ho). rewrite sum_lookup_l.
        destruct (ml_occ _ _ (pmap _ ki p) _ _ _ _ Hi1 Ho)
          as (v & H1 & H2 & H3 & H4 & H5 & H6 & H7).
        exists v. rewrite H1. simpl. rewrite H2, H3, H4, H5, H7. simpl.
        do 5 (split; [reflexivity|]). split.
        * intros v'. destruct (H6 v') as (st' & Ea & Eb). rewrite Ea, Eb.
          eexists; split; reflexivity.
        * destruct (ms_remove (ki_map ki V) a k'); reflexivity.
      + destruct Ho as (k' & r' & -> & -> & Ho).
        destruct (IH L s c k' r' Hi2 Ho) as (v & H1 & H2 & H3 & H4 & H5 & H6 & H7).
        rewrite sum_lookup_r.
        destruct (acore_not_root _ _ _ _ _ _ H1) as (i & q & ->).
        exists v. rewrite H1. simpl. rewrite H2, H3, H4, H5, H7. simpl.
        do 5 (split; [reflexivity|]). split.
        * intros v'. destruct (H6 v') as (st' & Ea & Eb). rewrite Ea, Eb.
          eexists; split; reflexivity.
        * destruct (any_remove V fs s k'); reflexivity.
  Qed.

  Lemma occ_cx_stable {R} (fs : fields R) : forall L st c k r v st',
    c_inv (acore fs L) st -> occ_cx_ok fs L st c k r ->
    any_store V fs st r v = Some st' -> occ_cx_ok fs L st' c k r.
  Proof.
    induction fs as [|R fs IH|K R ki fs IH]; intros L st c k r v st' Hi Ho.
    - destruct Ho.
    - apply (proj1 (any_inv_unit _ _ _)) in Hi. destruct Ho as (k' & r' & -> & -> & Ho).
      destruct (occ_cx_laws _ _ _ _ _ _ Hi Ho) as (v0 & H1 & _).
      destruct (acore_not_root _ _ _ _ _ _ H1) as (i & q & ->). simpl.
      destruct (any_store V fs (snd st) (i :: q) v) as [s|] eqn:E; [|discriminate].
      intros [= <-]. exists k', (i :: q). simpl. repeat split; eauto.
    - destruct st as [a s], L as [p L]. apply (proj1 (any_inv_tuple _ _ _ _)) in Hi as [Hi1 Hi2]. cbn [fst snd] in *. destruct c as [o|c].
      + destruct Ho as (k' & r' & -> & -> & Ho). simpl.
        destruct (ms_store (ki_map ki V) a r' v) as [s'|] eqn:E; [|discriminate].
        intros [= <-]. exists k', r'. simpl. repeat split; auto.
        eapply (ml_occ_stable _ _ (pmap _ ki p)); eauto.
      + destruct Ho as (k' & r' & -> & -> & Ho).
        destruct (occ_cx_laws _ _ _ _ _ _ Hi2 Ho) as (v0 & H1 & _).
        destruct (acore_not_root _ _ _ _ _ _ H1) as (i & q & ->). simpl.
        destruct (any_store V fs s (i :: q) v) as [s'|] eqn:E; [|discriminate].
        intros [= <-]. exists k', (i :: q). simpl. repeat split; eauto.
  Qed.

  Lemma vac_cx_laws {R} (fs : fields R) : forall L st x k,
    c_inv (acore fs L) st -> vac_cx_ok fs L st x k ->
    lookup (ks_eqb (spec fs L)) k (c_ents (acore fs L) st) = None /\
    any_vac_key_cx V fs st x = k /\
    forall v, exists r, any_vac_insert_cx V fs st x v = Ok (r, snd (any_insert V fs st k v)) /\
                        any_get_mut V fs (snd (any_insert V fs st k v)) k = Some r.
  Proof.
    induction fs as [|R fs IH|K R ki fs IH]; intros L st x k Hi Ho.
    - destruct Ho.
    - apply (proj1 (any_inv_unit _ _ _)) in Hi. rewrite any_ents_unit.
      destruct Ho as (k' & -> & Ho).
      destruct (IH L (snd st) x k' Hi Ho) as (H1 & H2 & H3).
      cbn [fspec sum_spec ks_eqb]. rewrite sum_lookup_r, H1. simpl. rewrite H2.
      split; [auto|]. split; [auto|]. intros v. destruct (H3 v) as (r & Ea & Eb).
      rewrite Ea. exists (shift_ref r). simpl.
      destruct (any_insert V fs (snd st) k' v) as [? s] eqn:E. simpl in *. rewrite Eb. auto.
    - destruct st as [a s], L as [p L]. apply (proj1 (any_inv_tuple _ _ _ _)) in Hi as [Hi1 Hi2]. cbn [fst snd] in *. rewrite any_ents_tuple.
      cbn [fspec sum_spec ks_eqb fst snd]. destruct x as [x|x].
      + destruct Ho as (k' & -> & Ho). rewrite sum_lookup_l.
        destruct (ml_vac _ _ (pmap _ ki p) _ _ _ Hi1 Ho) as (H1 & H2 & H3).
        rewrite H1. simpl. rewrite H2.
        split; [auto|]. split; [auto|]. intros v. destruct (H3 v) as (r & Ea & Eb).
        rewrite Ea. exists (0 :: r). simpl.
        destruct (ms_insert (ki_map ki V) a k' v) as [? s'] eqn:E. simpl in *.
        rewrite Eb. auto.
      + destruct Ho as (k' & -> & Ho).
        destruct (IH L s x k' Hi2 Ho) as (H1 & H2 & H3).
        rewrite sum_lookup_r, H1. simpl. rewrite H2.
        split; [auto|]. split; [auto|]. intros v. destruct (H3 v) as (r & Ea & Eb).
        rewrite Ea. exists (shift_ref r). simpl.
        destruct (any_insert V fs s k' v) as [? s'] eqn:E. simpl in *. rewrite Eb. auto.
  Qed.

  Definition any_occ_ok {R} (fs : fields R) (L : flaws P fs) (st : any_map V fs)
    (o : any_occ V fs) (k : R) (r : ref) : Prop :=
    match o with
    | inl s => exists n, simple_pos fs k = Some n /\ r = [n] /\
                 s = MkKeyed k (MkSomeBucket [n]) /\ is_some (any_get V fs st k) = true
    | inr c => occ_cx_ok fs L st c k r
    end.

  Definition any_vac_ok {R} (fs : fields R) (L : flaws P fs) (st : any_map V fs)
    (x : any_vac V fs) (k : R) : Prop :=
    match x with
    | inl s => exists n, simple_pos fs k = Some n /\
                 s = MkKeyed k (MkNoneBucket [n]) /\ is_some (any_get V fs st k) = false
    | inr c => vac_cx_ok fs L st c k
    end.

  Lemma simple_lookup {R} (fs : fields R) L st k n :
    c_inv (acore fs L) st -> simple_pos fs k = Some n ->
    lookup (ks_eqb (spec fs L)) k (c_ents (acore fs L) st) =
    option_map (fun v => (v, [n])) (any_get V fs st k).
  Proof.
    intros Hi E. destruct (simple_cell fs k n st E) as (_ & H & _).
    pose proof (c_get _ _ _ (acore fs L) st k Hi) as H1.
    pose proof (c_get_mut _ _ _ (acore fs L) st k Hi) as H2.
    simpl o_get in H1. simpl o_get_mut in H2. rewrite H, H1 in H2. rewrite H1.
    destruct (lookup _ k _) as [[v r]|]; simpl in *; [|reflexivity].
    injection H2 as <-. reflexivity.
  Qed.

  (** ** Dropping *)

  (** [inj] keeps the order. *)
  Definition lists_drops {R T} (fs : fields R) (L : flaws P fs) (bf : T -> T -> Prop) (inj : R -> T) : Prop :=
    forall a b, ks_before (spec fs L) a b <-> bf (inj a) (inj b).
  Definition by_key {T} (bf : T -> T -> Prop) : T * V -> T * V -> Prop := fun a b => bf (fst a) (fst b).

  Lemma keeps_unit {R T} (fs : fields R) (L : flaws P (FUnit fs)) (bf : T -> T -> Prop) inj :
    lists_drops (FUnit fs) L bf inj -> lists_drops fs L bf (fun k => inj (inr k)).
  Proof. intros H a b. exact (H (inr a) (inr b)). Qed.
  Lemma keeps_tuple {R T K} (ki : KeyImpl K) (fs : fields R) (L : flaws P (FTuple ki fs))
    (bf : T -> T -> Prop) inj :
    lists_drops (FTuple ki fs) L bf inj -> lists_drops fs (snd L) bf (fun k => inj (inr k)).
  Proof. intros H a b. exact (H (inr a) (inr b)). Qed.
  Lemma keeps_one {R T} (fs : fields R) (L : flaws P (FUnit fs)) (bf : T -> T -> Prop) inj :
    lists_drops (FUnit fs) L bf inj -> forall x y : V, False <-> by_key bf (inj (inl tt), x) (inj (inl tt), y).
  Proof. intros H x y. exact (H (inl tt) (inl tt)). Qed.
  Lemma keeps_in {R T K} (ki : KeyImpl K) (fs : fields R) (L : flaws P (FTuple ki fs))
    (bf : T -> T -> Prop) inj :
    lists_drops (FTuple ki fs) L bf inj -> forall x y : K * V,
    ks_before (pspec _ ki (fst L)) (fst x) (fst y) <->
    by_key bf (inj (inl (fst x)), snd x) (inj (inl (fst y)), snd y).
  Proof. intros H x y. exact (H (inl (fst x)) (inl (fst y))). Qed.

  Fixpoint into_drops {R T} (bf : T -> T -> Prop) (fs : fields R)
    : forall (L : flaws P fs) (i : nat) (inj : R -> T), lists_drops fs L bf inj ->
    all_drops (by_key bf) (field_its pair_simple (into_iter_cx V) i fs inj)
      (f_all_laws pair_simple (into_iter_cx V) (fun i t => map_laws _ _ (opt_laws V))
         (fun i K ki p inj => map_laws _ _ (ml_IntoIter (pmap _ ki p))) fs i inj L) :=
    match fs in fields R return forall (L : flaws P fs) (i : nat) (inj : R -> T), lists_drops fs L bf inj ->
      all_drops (by_key bf) (field_its pair_simple (into_iter_cx V) i fs inj)
        (f_all_laws pair_simple (into_iter_cx V) (fun i t => map_laws _ _ (opt_laws V))
           (fun i K ki p inj => map_laws _ _ (ml_IntoIter (pmap _ ki p))) fs i inj L) with
    | FNil => fun _ _ _ _ => tt
    | FUnit fs' => fun L i inj H =>
        (map_drops (fun x => (inj (inl tt), x)) (fun _ _ => False) _ (keeps_one fs' L bf inj H) _ _ (opt_drops V _),
         into_drops bf fs' L (S i) (fun k => inj (inr k)) (keeps_unit fs' L bf inj H))
    | FTuple ki fs' => fun L i inj H =>
        (map_drops (fun e => (inj (inl (fst e)), snd e)) _ _ (keeps_in ki fs' L bf inj H) _ _
           (ml_drops (pmap _ ki (fst L))),
         into_drops bf fs' (snd L) (S i) (fun k => inj (inr k)) (keeps_tuple ki fs' L bf inj H))
    end.

  Lemma into_keys {R T} (fs : fields R) : forall (L : flaws P fs) i (inj : R -> T) s y,
    In y (concat (all_rems _ (f_all_laws pair_simple (into_iter_cx V) (fun i t => map_laws _ _ (opt_laws V))
         (fun i K ki p inj => map_laws _ _ (ml_IntoIter (pmap _ ki p))) fs i inj L) s)) ->
    exists k, fst y = inj k.
  Proof.
    induction fs as [|R fs IH|K R ki fs IH]; intros L i inj s y Hy; cbn in Hy.
    - destruct Hy.
    - apply in_app_iff in Hy as [Hy|Hy].
      + apply in_map_iff in Hy as (x & <- & _). now exists (inl tt).
      + destruct (IH _ _ _ _ _ Hy) as [k E]. now exists (inr k).
    - apply in_app_iff in Hy as [Hy|Hy].
      + apply in_map_iff in Hy as (x & <- & _). now exists (inl (fst x)).
      + destruct (IH _ _ _ _ _ Hy) as [k E]. now exists (inr k).
  Qed.

  Lemma into_apart {R T} (bf : T -> T -> Prop) (fs : fields R) : forall (L : flaws P fs) i (inj : R -> T),
    lists_drops fs L bf inj ->
    all_sep (by_key bf) _ (f_all_laws pair_simple (into_iter_cx V) (fun i t => map_laws _ _ (opt_laws V))
         (fun i K ki p inj => map_laws _ _ (ml_IntoIter (pmap _ ki p))) fs i inj L).
  Proof.
    induction fs as [|R fs IH|K R ki fs IH]; intros L i inj H.
    - exact I.
    - split; [|exact (IH L (S i) _ (keeps_unit fs L bf inj H))].
      intros si sr x y Hx Hy. apply in_map_iff in Hx as (z & <- & _).
      destruct (into_keys fs _ _ _ _ _ Hy) as [k E]. unfold by_key. rewrite E.
      apply (H (inl tt) (inr k)). exact I.
    - split; [|exact (IH (snd L) (S i) _ (keeps_tuple ki fs L bf inj H))].
      intros si sr x y Hx Hy. apply in_map_iff in Hx as (z & <- & _).
      destruct (into_keys fs _ _ _ _ _ Hy) as [k E]. unfold by_key. rewrite E.
      apply (H (inl (fst z)) (inr k)). exact I.
  Qed.

  Lemma into_drops_ok {R T} (bf : T -> T -> Prop) (fs : fields R) : forall (L : flaws P fs) i (inj : R -> T) H st,
    c_inv (acore fs L) st ->
    let s := field_init (Cx := cx_map V) pair_simple (into_iter_cx V) (fun _ _ o => o)
               (fun _ K ki _ s => ms_into_iter (ki_map ki V) s) i fs inj st in
    all_dl _ _ (into_drops bf fs L i inj H) s /\
    forall D (dr : drop_fn D V) (dr' : drop_fn D (T * V)) d,
      (forall d e, dr' d e = dr d (snd e)) ->
      any_drop V dr fs d st = drop_states _ dr' d s.
  Proof.
    induction fs as [|R fs IH|K R ki fs IH]; intros L i inj Hk st Hi; cbv zeta.
    - split; [exact I|]. reflexivity.
    - apply (proj1 (any_inv_unit _ _ _)) in Hi.
      destruct (IH L (S i) (fun k => inj (inr k)) (keeps_unit fs L bf inj Hk) (snd st) Hi) as [H1 H2].
      split; [split; [exact I|exact H1]|]. intros D dr dr' d Hd.
      cbn [any_drop field_its field_init drop_states fst snd].
      assert (E : opt_drop dr d (fst st) =
        it_drop (pair_simple i (inj (inl tt))) dr' d (fst st)).
      { destruct (fst st) as [v|]; simpl; auto. now rewrite Hd. }
      rewrite E. destruct (it_drop _ _ _ _) as [d1 p]. simpl. now rewrite (H2 D dr dr' d1 Hd).
    - apply (proj1 (any_inv_tuple _ _ _ _)) in Hi as [Hi1 Hi2].
      destruct (IH (snd L) (S i) (fun k => inj (inr k)) (keeps_tuple ki fs L bf inj Hk) (snd st) Hi2) as [H1 H2].
      destruct (ml_drop _ _ (pmap _ ki (fst L)) _ Hi1) as [H3 H4].
      split; [split; [exact H3|exact H1]|]. intros D dr dr' d Hd.
      cbn [any_drop field_its field_init drop_states fst snd].
      assert (E : ms_drop (ki_map ki V) dr d (fst st) =
        it_drop (into_iter_cx V i K ki (fun k => inj (inl k))) dr' d (ms_into_iter (ki_map ki V) (fst st))).
      { apply H4. intros d0 [k v]. apply Hd. }
      rewrite E. destruct (it_drop _ _ _ _) as [d1 p]. simpl. now rewrite (H2 D dr dr' d1 Hd).
  Qed.

  Definition any_laws {R} (fs : fields R) (L : flaws P fs)
    : MapLaws (spec fs L) (any_map_storage V fs).
  Proof.
    refine {| ml_core := acore fs L;
      ml_Iter := f_struct_laws fs pair_simple (iter_cx V)
                   (fun i t => map_laws _ _ (opt_laws V))
                   (fun i K ki p inj => map_laws _ _ (ml_Iter (pmap _ ki p))) L
                 : it_laws (ms_Iter (any_map_storage V fs));
      ml_Keys := f_struct_laws fs keys_simple (keys_cx V) keys_Ls keys_Lc L
                 : it_laws (ms_Keys (any_map_storage V fs));
      ml_Values := f_struct_laws fs val_simple (values_cx V)
                   (fun i t => opt_laws V) (fun i K ki p inj => ml_Values (pmap _ ki p)) L
                 : it_laws (ms_Values (any_map_storage V fs));
      ml_IterMut := f_struct_laws fs pair_simple (iter_mut_cx V)
                   (fun i t => map_laws _ _ (opt_laws ref))
                   (fun i K ki p inj => map_laws _ _ (ml_IterMut (pmap _ ki p))) L
                 : it_laws (ms_IterMut (any_map_storage V fs));
      ml_ValuesMut := f_struct_laws fs val_simple (values_mut_cx V)
                   (fun i t => opt_laws ref)
                   (fun i K ki p inj => map_laws _ _ (ml_ValuesMut (pmap _ ki p))) L
                 : it_laws (ms_ValuesMut (any_map_storage V fs));
      ml_IntoIter := f_struct_laws fs pair_simple (into_iter_cx V)
                   (fun i t => map_laws _ _ (opt_laws V))
                   (fun i K ki p inj => map_laws _ _ (ml_IntoIter (pmap _ ki p))) L
                 : it_laws (ms_IntoIter (any_map_storage V fs));
      ml_drops := struct_drops _ _ (into_drops (ks_before (spec fs L)) fs L 0 (fun k => k) (fun a b => iff_refl _))
                    (into_apart (ks_before (spec fs L)) fs L 0 (fun k => k) (fun a b => iff_refl _));
      ml_occ_ok := any_occ_ok fs L
        : ms_St (any_map_storage V fs) -> ms_Occ (any_map_storage V fs) -> R -> ref -> Prop;
      ml_vac_ok := any_vac_ok fs L
        : ms_St (any_map_storage V fs) -> ms_Vac (any_map_storage V fs) -> R -> Prop |}.
    - intros w. apply any_empty_laws.
    - intros st Hi. apply (f_struct_rem fs _ _ _ _ _ _ fst); auto.
      + intros i t [v|]; split; try exact I; reflexivity.
      + intros i K ki p inj s Hs. destruct (ml_iter _ _ (pmap _ ki p) s Hs) as [H1 H2].
        split; [exact H1|]. simpl. rewrite H2, !map_map. reflexivity.
    - intros st Hi. destruct (any_keys_rems fs R L 0 (fun k => k) st Hi) as [H1 H2].
      simpl ms_keys. unfold any_keys.
      split; [simpl; split; [rewrite field_its_len; auto|exact H1]|].
      assert (E : il_rem (f_struct_laws fs keys_simple (keys_cx V) keys_Ls keys_Lc L)
                    (ms_keys (any_map_storage V fs) st) = any_keysl fs L st).
      { etransitivity; [apply struct_all; rewrite field_its_len; auto|].
        etransitivity; [exact H2|]. apply map_id. }
      pose proof (any_keysl_laws fs L st Hi) as H. rewrite <- E in H. exact H.
    - intros st Hi. apply (f_struct_rem fs _ _ _ _ _ _ evalue); auto.
      + intros i t [v|]; split; try exact I; reflexivity.
      + intros i K ki p inj s Hs. destruct (ml_values _ _ (pmap _ ki p) s Hs) as [H1 H2].
        split; [exact H1|]. etransitivity; [exact H2|]. rewrite map_map. reflexivity.
    - intros st Hi. apply (f_struct_rem fs _ _ _ _ _ _ (fun e => (ekey e, eref e))); auto.
      + intros i t [v|]; split; try exact I; reflexivity.
      + intros i K ki p inj s Hs. destruct (ml_iter_mut _ _ (pmap _ ki p) s Hs) as [H1 H2].
        split; [exact H1|]. simpl. rewrite H2, !map_map. reflexivity.
    - intros st Hi. apply (f_struct_rem fs _ _ _ _ _ _ eref); auto.
      + intros i t [v|]; split; try exact I; reflexivity.
      + intros i K ki p inj s Hs. destruct (ml_values_mut _ _ (pmap _ ki p) s Hs) as [H1 H2].
        split; [exact H1|]. simpl. rewrite H2, !map_map. reflexivity.
    - intros st Hi. apply (f_struct_rem fs _ _ _ _ _ _ fst); auto.
      + intros i t [v|]; split; try exact I; reflexivity.
      + intros i K ki p inj s Hs. destruct (ml_into_iter _ _ (pmap _ ki p) s Hs) as [H1 H2].
        split; [exact H1|]. simpl. rewrite H2, !map_map. reflexivity.
    - intros st Hi. destruct (into_drops_ok (ks_before (spec fs L)) fs L 0 (fun k => k) (fun a b => iff_refl _) st Hi) as [H1 H2]. split.
      + simpl. split; [exact H1|]. split; [lia|]. split; [constructor|].
        rewrite skipn_all2; [constructor|]. rewrite all_rems_length, field_its_len. auto.
      + intros D dr dr' d Hd. exact (H2 D dr dr' d Hd).
    - intros st k Hi. simpl ms_entry. unfold any_entry.
      destruct (simple_pos fs k) as [n|] eqn:E.
      + rewrite (arms_simple fs _ _ _ _ _ _ _ _ _ E), (simple_lookup fs L st k n Hi E).
        destruct (simple_cell fs k n st E) as (Hg & _).
        unfold any_option_to_entry. simpl plus.
        rewrite (bucket_new (any_cells V fs) st [n] _ Hg).
        destruct (any_get V fs st k) as [v|] eqn:Ev; simpl; eexists; (split; [reflexivity|]);
          simpl; rewrite Ev; eauto.
      + pose proof (arms_complex fs L _ _ 0 (any_option_to_entry V fs st k) inr inr st k Hi E) as H.
        destruct (lookup _ k _) as [[v r]|]; destruct H as (c & H1 & H2); rewrite H1;
          eexists; (split; [reflexivity|]); exact H2.
    - intros st [s|c] k r Hi Ho; [|exact (occ_cx_laws fs L st c k r Hi Ho)].
      destruct Ho as (n & E & -> & -> & Hs). rewrite (simple_lookup fs L st k n Hi E).
      destruct (simple_cell fs k n st E) as (Hg & _ & Hst & Hset & Hins & Hrem).
      simpl. destruct (any_get V fs st k) as [v|] eqn:Ev; [|discriminate]. exists v.
      assert (Hg' : cell_get (any_cells V fs) st [n] = Some (Some v)) by exact Hg.
      rewrite (bucket_as_ref _ _ _ _ Hg'), (bucket_as_mut _ _ _ _ Hg'),
              (bucket_into_mut _ _ _ _ Hg').
      rewrite (bucket_take (any_cells V fs) _ _ _ _ Hg' Hrem).
      do 5 (split; [reflexivity|]). split; [|reflexivity].
      intros v'. rewrite Hst. destruct (Hset (Some v')) as (st' & Ea & _). rewrite Ea.
      rewrite (bucket_replace (any_cells V fs) _ _ _ _ _ Hg' Ea). eauto.
    - intros st [s|c] k r v st' Hi Ho; [|exact (occ_cx_stable fs L st c k r v st' Hi Ho)].
      destruct Ho as (n & E & -> & -> & Hs). simpl.
      destruct (simple_cell fs k n st E) as (Hg & _ & Hst & Hset & Hins & Hrem).
      rewrite Hst. destruct (any_get V fs st k) as [v0|] eqn:Ev; [|discriminate].
      destruct (Hset (Some v)) as (s' & Ea & Eb). rewrite Ea. intros [= <-].
      exists n. rewrite Eb. auto.
    - intros st [s|c] k Hi Ho; [|exact (vac_cx_laws fs L st c k Hi Ho)].
      destruct Ho as (n & E & -> & Hs). rewrite (simple_lookup fs L st k n Hi E).
      destruct (simple_cell fs k n st E) as (Hg & Hm & Hst & Hset & Hins & Hrem). simpl.
      destruct (any_get V fs st k) as [v|] eqn:Ev; [discriminate|].
      split; [reflexivity|]. split; [reflexivity|]. intros v. exists [n].
      assert (Hg' : cell_get (any_cells V fs) st [n] = Some None) by exact Hg.
      destruct (Hset (Some v)) as (s' & Ea & Eb).
      assert (Es : s' = snd (any_insert V fs st k v)) by (rewrite Hins in Ea; congruence).
      rewrite <- Es.
      destruct (simple_cell fs k n s' E) as (Hg2 & Hm2 & _).
      rewrite (bucket_insert (any_cells V fs) _ _ v _ Hg' Ea); [|rewrite <- Eb; exact Hg2].
      split; [reflexivity|]. rewrite Hm2, Eb. reflexivity.
  Defined.
End Any.
