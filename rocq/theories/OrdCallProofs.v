(** Ordering and hashing maps whose values have an ordering or a hash with effects
    (C59). *)
Require Import List Bool Arith ZArith Lia.
Import ListNotations.
From Verif Require Import Std Spec Traits Hashbrown MapStorages SetStorages DeriveUnit DeriveAny Key Api
  IterLaws KeyLaws KeyFacts Reach MapFacts FullSpec UnitLaws OrdSpec OrdProofs OrdCallSpec.

Section Calls.
  Variables (bitset : bool) (vs : variants) (ki : KeyImpl (keys vs)) (V : Type).
  Hypothesis Hu : all_units vs = true.
  Hypothesis Hd : derive (KEnum bitset vs) = Some ki.
  Local Notation m := (ki_map ki V).

  Lemma run_partial {X} (f : pcmp_fn X V) (g : keys vs -> nat) :
    (forall k, g k = variant_index vs k) -> forall la lb x,
    iter_partial_cmp_with (pair_partial_cmp_with f) x
      (map (fun e => (g (fst e), snd e)) la) (map (fun e => (g (fst e), snd e)) lb) =
    compare_entries vs f x la lb.
  Proof.
    intros G. induction la as [|[k v] la IH]; intros [|[l w] lb] x; simpl; auto.
    unfold pair_partial_cmp_with at 1. simpl. rewrite !G.
    destruct (Nat.compare_spec (variant_index vs k) (variant_index vs l)) as [E|E|E].
    - rewrite E, Nat.ltb_irrefl. destruct (f x v w) as [x1 [[[]|]|]]; auto.
    - apply Nat.ltb_lt in E. rewrite E. reflexivity.
    - pose proof E as E2. apply Nat.ltb_lt in E. rewrite E.
      destruct (variant_index vs k <? variant_index vs l) eqn:F; auto.
      apply Nat.ltb_lt in F. lia.
  Qed.

  Definition as_partial {X A} (f : cmp_fn X A) : pcmp_fn X A :=
    fun x v w => let '(x', r) := f x v w in (x', option_map Some r).

  Lemma run_total {X} (f : cmp_fn X V) la : forall lb x,
    iter_partial_cmp_with (pair_partial_cmp_with (as_partial f)) x la lb =
    let '(x', r) := iter_cmp_with (pair_cmp_with f) x la lb in (x', option_map Some r).
  Proof.
    induction la as [|[k v] la IH]; intros [|[l w] lb] x; simpl; auto.
    unfold pair_partial_cmp_with at 1, pair_cmp_with at 1, as_partial. simpl.
    destruct (Nat.compare k l); auto. destruct (f x v w) as [x1 [[]|]]; simpl; auto.
  Qed.

  Lemma c59_partial : exists g, forall X (f : pcmp_fn X V),
    map_partial_cmp_with m f = Some (g X f) /\
    forall x a b la lb,
    yields (ms_Iter m) (map_iter m a) la -> yields (ms_Iter m) (map_iter m b) lb ->
    g X f x a b = compare_entries vs f x la lb.
  Proof.
    destruct (map_is_unit bitset vs ki V Hu Hd) as (u & E & ->).
    eexists. intros X f. split; [reflexivity|].
    intros x a b la lb Ya Yb. apply unit_iter_yields in Ya, Yb. subst la lb. cbv beta.
    unfold storage_iterator_partial_cmp_with. rewrite !flatten_elems.
    apply run_partial. intros k. apply (as_units_index vs u E).
  Qed.

  Lemma c59_total : exists g, forall X (f : cmp_fn X V),
    map_cmp_with m f = Some (g X f) /\
    forall x a b la lb x' r,
    yields (ms_Iter m) (map_iter m a) la -> yields (ms_Iter m) (map_iter m b) lb ->
    g X f x a b = (x', r) ->
    compare_entries vs (as_partial f) x la lb = (x', option_map Some r).
  Proof.
    destruct (map_is_unit bitset vs ki V Hu Hd) as (u & E & ->).
    eexists. intros X f. split; [reflexivity|].
    intros x a b la lb x' r Ya Yb. apply unit_iter_yields in Ya, Yb. subst la lb. cbv beta.
    unfold storage_iterator_cmp_with. rewrite !flatten_elems. intros H.
    rewrite <- (run_partial (as_partial f) (index_of u)), run_total, H; auto.
    intros k. apply (as_units_index vs u E).
  Qed.

  Lemma all_variants_units : forall ws (u : units (keys ws)), as_units ws = Some u ->
    variants_of u = all_variants ws.
  Proof.
    induction ws as [|ws IH|t ws IH]; simpl; intros u.
    - intros [= <-]. reflexivity.
    - destruct (as_units ws) as [u'|]; simpl; [|discriminate]. intros [= <-]. simpl.
      rewrite (IH u' eq_refl). reflexivity.
    - discriminate.
  Qed.

  Lemma feed_app {X A} (word : hash_fn X Z) (h : hash_fn X A) l : forall x l',
    feed word h x (l ++ l') =
    match feed word h x l with (x1, false) => feed word h x1 l' | o => o end.
  Proof.
    induction l as [|y l IH]; intros x l'; simpl; [destruct (feed word h x l'); auto|].
    destruct (match y with FedWord z => word x z | FedValue v => h x v end) as [x1 []]; auto.
  Qed.

  Lemma run_slice {X K A} (word : hash_fn X Z) (h : hash_fn X A) (get : K -> option A) l : forall x,
    hash_slice_with (hash_option_with word h) x (map get l) =
    feed word h x (flat_map (fun k => match get k with
                     | None => [FedWord 0%Z]
                     | Some v => [FedWord 1%Z; FedValue v]
                     end) l).
  Proof.
    induction l as [|k l IH]; intros x; simpl; auto. rewrite feed_app.
    destruct (get k) as [v|]; simpl.
    - destruct (word x 1%Z) as [x1 []]; simpl; auto. destruct (h x1 v) as [x2 []]; simpl; auto.
    - destruct (word x 0%Z) as [x1 []]; simpl; auto.
  Qed.

  Lemma c59_hash : exists g, forall X (word : hash_fn X Z) (h : hash_fn X V),
    map_hash_with m word h = Some (g X word h) /\
    forall x st, g X word h x st = feed word h x (to_feed (all_variants vs) (map_get m st)).
  Proof.
    destruct (map_is_unit bitset vs ki V Hu Hd) as (u & E & ->).
    eexists. intros X word h. split; [reflexivity|]. intros x st. cbv beta.
    unfold hash_array_with. rewrite arr_elems_map, (all_variants_units vs u E), map_length.
    simpl. destruct (word x _) as [x1 []]; auto. apply run_slice.
  Qed.

  Lemma pure_entries {X} (pc : V -> V -> option comparison) la : forall lb (x : X),
    compare_entries vs (fun x v w => (x, Some (pc v w))) x la lb = (x, Some (lex (by_entry vs pc) la lb)).
  Proof.
    induction la as [|[k v] la IH]; intros [|[l w] lb] x; simpl; auto.
    unfold by_entry at 1. simpl.
    destruct (Nat.compare_spec (variant_index vs k) (variant_index vs l)) as [E|E|E].
    - rewrite E, Nat.ltb_irrefl. destruct (pc v w) as [[]|]; auto.
    - apply Nat.ltb_lt in E. rewrite E. reflexivity.
    - pose proof E as E2. apply Nat.ltb_lt in E. rewrite E.
      destruct (variant_index vs k <? variant_index vs l) eqn:F; auto.
      apply Nat.ltb_lt in F. lia.
  Qed.

  Lemma c59_pure X : exists f g h p c w,
    (forall pc, map_partial_cmp m pc = Some (f pc)) /\ (forall cmp, map_cmp m cmp = Some (g cmp)) /\
    (forall hv, map_hash m hv = Some (h hv)) /\
    (forall F, map_partial_cmp_with m F = Some (p F)) /\ (forall F, map_cmp_with m F = Some (c F)) /\
    (forall W H, map_hash_with m W H = Some (w W H)) /\
    (forall pc (x : X) a b, map_reachable m a -> map_reachable m b ->
       p (fun x v w => (x, Some (pc v w))) x a b = (x, Some (f pc a b))) /\
    (forall cmp (x : X) a b, map_reachable m a -> map_reachable m b ->
       c (fun x v w => (x, Some (cmp v w))) x a b = (x, Some (g cmp a b))) /\
    (forall hv l st, w (fun l z => (l ++ [z], false)) (fun l v => (l ++ hv v, false)) l st =
       (l ++ h hv st, false)).
  Proof.
    destruct (map_is_unit bitset vs ki V Hu Hd) as (u & E & Em).
    destruct c59_partial as (p & P). destruct c59_total as (c & C).
    assert (N : forall st, map_reachable m st -> exists l, yields (ms_Iter m) (map_iter m st) l).
    { intros st R. eexists. apply (iter_yields (derive_map_laws _ _ V Hd)).
      apply (r_inv (derive_map_laws _ _ V Hd)). exact R. }
    assert (PC : exists f, forall pc, map_partial_cmp m pc = Some (f pc)).
    { rewrite Em. eexists. intros pc. reflexivity. }
    assert (TC : exists g, forall cmp, map_cmp m cmp = Some (g cmp)).
    { rewrite Em. eexists. intros pc. reflexivity. }
    destruct PC as (f & F). destruct TC as (g & G).
    assert (HH : exists h w, (forall hv, map_hash m hv = Some (h hv)) /\
      (forall W H, map_hash_with m W H = Some (w W H)) /\
      (forall hv l st, w (fun l z => (l ++ [z], false)) (fun l v => (l ++ hv v, false)) l st =
       (l ++ h hv st, false))).
    { clear - Em. rewrite Em. eexists. eexists. split; [intros hv; reflexivity|].
      split; [intros W H; reflexivity|]. intros hv l st. cbv beta.
      unfold hash_array_with, hash_array. 
      generalize (arr_elems u (um_data st)). intros es.
      replace (l ++ Z.of_nat (length es) :: flat_map (hash_option hv) es)
        with ((l ++ [Z.of_nat (length es)]) ++ flat_map (hash_option hv) es)
        by (rewrite <- app_assoc; reflexivity).
      generalize (l ++ [Z.of_nat (length es)]). clear.
      induction es as [|[v|] es IH]; intros l; simpl.
      - rewrite app_nil_r. reflexivity.
      - rewrite IH, <- !app_assoc. reflexivity.
      - rewrite IH, <- !app_assoc. reflexivity. }
    destruct HH as (h & w & H1 & H2 & H3).
    exists f, g, h, (p X), (c X), w.
    split; [exact F|]. split; [exact G|]. split; [exact H1|]. split; [apply P|]. split; [apply C|].
    split; [exact H2|]. split; [|split].
    - intros pc x a b Ra Rb. destruct (N a Ra) as (la & Ya). destruct (N b Rb) as (lb & Yb).
      destruct (P X (fun x v w => (x, Some (pc v w)))) as [_ P2].
      rewrite (P2 x a b la lb Ya Yb), pure_entries.
      destruct (map_pc_lex bitset vs ki V Hu Hd pc) as (f' & F' & L).
      rewrite F in F'. injection F' as <-. rewrite (L a b la lb Ya Yb). reflexivity.
    - intros cmp x a b Ra Rb. destruct (N a Ra) as (la & Ya). destruct (N b Rb) as (lb & Yb).
      destruct (C X (fun x v w => (x, Some (cmp v w)))) as [_ C2].
      destruct (c X (fun x v w => (x, Some (cmp v w))) x a b) as [x' r] eqn:Ec.
      pose proof (C2 x a b la lb x' r Ya Yb Ec) as C3.
      change (as_partial (fun (x : X) v w => (x, Some (cmp v w))))
        with (fun (x : X) v w => (x, Some (Some (cmp v w)))) in C3.
      rewrite (pure_entries (fun v w => Some (cmp v w))) in C3.
      destruct (map_cmp_lex bitset vs ki V Hu Hd cmp) as (g' & G' & L).
      rewrite G in G'. injection G' as <-. rewrite <- (L a b la lb Ya Yb) in C3.
      destruct r as [r|]; simpl in C3; [|discriminate]. injection C3 as <- <-. reflexivity.
    - exact H3.
  Qed.

  Lemma listed st : map_reachable m st -> exists l, yields (ms_Iter m) (map_iter m st) l.
  Proof.
    intros R. eexists. apply (iter_yields (derive_map_laws _ _ V Hd)).
    apply (r_inv (derive_map_laws _ _ V Hd)). exact R.
  Qed.

  Lemma c59a : exists g, forall X (f : pcmp_fn X V),
    map_partial_cmp_with m f = Some (g X f) /\
    forall x a b, map_reachable m a -> map_reachable m b ->
    exists la lb, yields (ms_Iter m) (map_iter m a) la /\ yields (ms_Iter m) (map_iter m b) lb /\
      g X f x a b = compare_entries vs f x la lb.
  Proof.
    destruct c59_partial as (g & H). exists g. intros X f. destruct (H X f) as [H1 H2].
    split; [exact H1|]. intros x a b Ra Rb.
    destruct (listed a Ra) as (la & Ya), (listed b Rb) as (lb & Yb). exists la, lb. auto.
  Qed.

  Lemma c59b : exists g, forall X (f : cmp_fn X V),
    map_cmp_with m f = Some (g X f) /\
    forall x a b x' r, map_reachable m a -> map_reachable m b -> g X f x a b = (x', r) ->
    exists la lb, yields (ms_Iter m) (map_iter m a) la /\ yields (ms_Iter m) (map_iter m b) lb /\
      compare_entries vs (fun x v w => let '(x', r) := f x v w in (x', option_map Some r)) x la lb =
      (x', option_map Some r).
  Proof.
    destruct c59_total as (g & H). exists g. intros X f. destruct (H X f) as [H1 H2].
    split; [exact H1|]. intros x a b x' r Ra Rb E.
    destruct (listed a Ra) as (la & Ya), (listed b Rb) as (lb & Yb). exists la, lb.
    split; [exact Ya|]. split; [exact Yb|]. exact (H2 x a b la lb x' r Ya Yb E).
  Qed.
End Calls.
