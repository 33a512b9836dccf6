(** Proofs about enums and options over arbitrary key types. *)
Require Import List Arith NArith ZArith Bool Lia Permutation Sorted.
Import ListNotations.
From Verif Require Import Std Traits OptionBucket MapStorages DeriveAny Key Api Spec Reach
  History ComposeSpec IterLaws IterFacts MapCore MapLaws MapFacts UnitLaws HistProofs AnyLaws KeyLaws.

(** * Built-in storages *)

Lemma laws_act {K V} {sp : KeySpec K} {m : MapStorage K V} : MapLaws sp m -> acts_as_map m.
Proof.
  intros L. exists (c_inv (ml_core L)). split; [|split].
  - intros w. destruct (new_facts L w) as [H Hn]. split; auto. apply (nil_get L); auto.
  - intros st o H. destruct (run_op_ok L st o H) as (x & st' & n0 & E & H' & _ & S).
    exists x, st', n0. auto.
  - intros st X f x H.
    destruct (c_retain _ _ _ (ml_core L) X f x st H) as (x' & st' & oc & E & H' & R).
    exists (map fst (c_ents (ml_core L) st)), x', st', (map fst (c_ents (ml_core L) st')), oc.
    split; [exact E|]. split; [auto|]. split; [apply ents_lists; auto|]. split; [auto|].
    apply ents_lists; auto.
Qed.

(** * Routing to a part *)

Definition entry_map {A B A' B'} (f : A -> A') (g : B -> B') (e : entry A B) : entry A' B' :=
  match e with Occupied o => Occupied (f o) | Vacant x => Vacant (g x) end.

(** The keys [j k] of [m] are kept in a part of its state, as keys [k] of [m']. *)
Record routes {T K V} (m : MapStorage T V) (m' : MapStorage K V) (j : K -> T)
  (rj : ref -> ref) (pr : ms_St m -> ms_St m') (up : ms_St m -> ms_St m' -> ms_St m)
  (jo : ms_Occ m' -> ms_Occ m) (jv : ms_Vac m' -> ms_Vac m) : Prop := MkRoutes {
  rt_pr_up : forall st s, pr (up st s) = s;
  rt_up_up : forall st s s', up (up st s) s' = up st s';
  rt_up_pr : forall st, up st (pr st) = st;
  rt_inj : forall a b, j a = j b -> a = b;
  rt_get : forall st k, ms_get m st (j k) = ms_get m' (pr st) k;
  rt_get_other : forall st s k', (forall k, k' <> j k) -> ms_get m (up st s) k' = ms_get m st k';
  rt_contains : forall st k, ms_contains_key m st (j k) = ms_contains_key m' (pr st) k;
  rt_get_mut : forall st k, ms_get_mut m st (j k) = option_map rj (ms_get_mut m' (pr st) k);
  rt_insert : forall st k v, ms_insert m st (j k) v =
    let '(o, s) := ms_insert m' (pr st) k v in (o, up st s);
  rt_remove : forall st k, ms_remove m st (j k) =
    let '(o, s) := ms_remove m' (pr st) k in (o, up st s);
  rt_load : forall st r, ms_load m st (rj r) = ms_load m' (pr st) r;
  rt_store : forall st r v, ms_store m st (rj r) v = option_map (up st) (ms_store m' (pr st) r v);
  rt_entry : forall st k, ms_entry m st (j k) = res_map (entry_map jo jv) (ms_entry m' (pr st) k);
  rt_occ_key : forall st o, ms_occ_key m st (jo o) = res_map j (ms_occ_key m' (pr st) o);
  rt_occ_get_mut : forall st o, ms_occ_get_mut m st (jo o) = res_map rj (ms_occ_get_mut m' (pr st) o);
  rt_occ_into_mut : forall st o,
    ms_occ_into_mut m st (jo o) = res_map rj (ms_occ_into_mut m' (pr st) o);
  rt_occ_insert : forall st o v, ms_occ_insert m st (jo o) v =
    res_map (fun '(x, s) => (x, up st s)) (ms_occ_insert m' (pr st) o v);
  rt_occ_remove : forall st o, ms_occ_remove m st (jo o) =
    res_map (fun '(x, s) => (x, up st s)) (ms_occ_remove m' (pr st) o);
  rt_vac_key : forall st x, ms_vac_key m st (jv x) = j (ms_vac_key m' (pr st) x);
  rt_vac_insert : forall st x v, ms_vac_insert m st (jv x) v =
    res_map (fun '(r, s) => (rj r, up st s)) (ms_vac_insert m' (pr st) x v)
}.

Section Route.
  Context {T K V : Type} {m : MapStorage T V} {m' : MapStorage K V} {j : K -> T}
    {rj : ref -> ref} {pr : ms_St m -> ms_St m'} {up : ms_St m -> ms_St m' -> ms_St m}
    {jo : ms_Occ m' -> ms_Occ m} {jv : ms_Vac m' -> ms_Vac m}.
  Hypothesis H : routes m m' j rj pr up jo jv.

  Definition jobs (x : mobs K V) : mobs T V :=
    match x with
    | RUnit => RUnit
    | RBool b => RBool b
    | RNat n => RNat n
    | ROption o => ROption o
    | RValue v => RValue v
    | RKey k => RKey (j k)
    | RList l => RList (map (fun e => (j (fst e), snd e)) l)
    | RUnwound => RUnwound
    | RRetain log o => RRetain (map (fun e => (j (fst e), snd e)) log) o
    | ROutOfFuel => ROutOfFuel
    end.

  (** The keyed calls, on the part and on the whole. *)
  Inductive keyed_op : mop T V -> mop K V -> Prop :=
  | ko_get k : keyed_op (MGet (j k)) (MGet k)
  | ko_contains k : keyed_op (MContains (j k)) (MContains k)
  | ko_get_mut k w : keyed_op (MGetMut (j k) w) (MGetMut k w)
  | ko_insert k v : keyed_op (MInsert (j k) v) (MInsert k v)
  | ko_remove k : keyed_op (MRemove (j k)) (MRemove k)
  | ko_entry_key k : keyed_op (MEntryKey (j k)) (MEntryKey k)
  | ko_or_insert k d : keyed_op (MOrInsert (j k) d) (MOrInsert k d)
  | ko_or_insert_with k f : keyed_op (MOrInsertWith (j k) f) (MOrInsertWith k (fun k => f (j k)))
  | ko_modify k g d : keyed_op (MModify (j k) g d) (MModify k g d)
  | ko_entry_insert k v : keyed_op (MEntryInsert (j k) v) (MEntryInsert k v)
  | ko_entry_remove k : keyed_op (MEntryRemove (j k)) (MEntryRemove k).

  Lemma rt_deref st r : deref m st (rj r) = deref m' (pr st) r.
  Proof. unfold deref. rewrite (rt_load _ _ _ _ _ _ _ _ H). reflexivity. Qed.

  Lemma rt_deref_up st s r : deref m (up st s) (rj r) = deref m' s r.
  Proof. rewrite rt_deref, (rt_pr_up _ _ _ _ _ _ _ _ H). reflexivity. Qed.

  Lemma rt_assign st r v : assign m st (rj r) v = res_map (up st) (assign m' (pr st) r v).
  Proof.
    unfold assign. rewrite (rt_store _ _ _ _ _ _ _ _ H).
    destruct (ms_store m' (pr st) r v); reflexivity.
  Qed.

  Lemma rt_read_ref st r s : read_ref m (rj r, up st s) =
    res_map (fun '(x, s) => (jobs x, up st s)) (read_ref m' (r, s)).
  Proof.
    unfold read_ref. simpl. rewrite rt_deref_up. destruct (deref m' s r); reflexivity.
  Qed.

  Lemma rt_or_insert st e d : entry_or_insert m st (entry_map jo jv e) d =
    res_map (fun '(r, s) => (rj r, up st s)) (entry_or_insert m' (pr st) e d).
  Proof.
    destruct e as [o|x]; simpl.
    - unfold occ_into_mut. rewrite (rt_occ_into_mut _ _ _ _ _ _ _ _ H).
      destruct (ms_occ_into_mut m' (pr st) o); simpl; auto.
      rewrite (rt_up_pr _ _ _ _ _ _ _ _ H). reflexivity.
    - apply (rt_vac_insert _ _ _ _ _ _ _ _ H).
  Qed.

  Lemma route_op st o o' n : keyed_op o o' ->
    run_op m n st o = res_map (fun '(x, s) => (jobs x, up st s)) (run_op m' n (pr st) o').
  Proof.
    pose proof (rt_up_pr _ _ _ _ _ _ _ _ H) as UP.
    destruct 1; simpl; unfold map_get, map_contains_key, map_get_mut, map_insert, map_remove, map_entry.
    - rewrite (rt_get _ _ _ _ _ _ _ _ H), UP. reflexivity.
    - rewrite (rt_contains _ _ _ _ _ _ _ _ H), UP. reflexivity.
    - rewrite (rt_get_mut _ _ _ _ _ _ _ _ H). destruct (ms_get_mut m' (pr st) k) as [r|]; simpl.
      + rewrite rt_deref, rt_assign. destruct (deref m' (pr st) r); simpl; auto.
        destruct (assign m' (pr st) r w); reflexivity.
      + rewrite UP. reflexivity.
    - rewrite (rt_insert _ _ _ _ _ _ _ _ H). destruct (ms_insert m' (pr st) k v); reflexivity.
    - rewrite (rt_remove _ _ _ _ _ _ _ _ H). destruct (ms_remove m' (pr st) k); reflexivity.
    - rewrite (rt_entry _ _ _ _ _ _ _ _ H). destruct (ms_entry m' (pr st) k) as [[o|x]| | |]; simpl; auto.
      + rewrite (rt_occ_key _ _ _ _ _ _ _ _ H). destruct (ms_occ_key m' (pr st) o); simpl; auto.
        rewrite UP. reflexivity.
      + rewrite (rt_vac_key _ _ _ _ _ _ _ _ H), UP. reflexivity.
    - rewrite (rt_entry _ _ _ _ _ _ _ _ H). destruct (ms_entry m' (pr st) k) as [e| | |]; simpl; auto.
      rewrite rt_or_insert. destruct (entry_or_insert m' (pr st) e d) as [[r s]| | |]; simpl; auto.
      apply rt_read_ref.
    - rewrite (rt_entry _ _ _ _ _ _ _ _ H). destruct (ms_entry m' (pr st) k) as [[o|x]| | |]; simpl; auto.
      + unfold occ_into_mut. rewrite (rt_occ_into_mut _ _ _ _ _ _ _ _ H).
        destruct (ms_occ_into_mut m' (pr st) o) as [r| | |]; simpl; auto.
        rewrite <- (UP st) at 1. apply rt_read_ref.
      + rewrite (rt_vac_key _ _ _ _ _ _ _ _ H). destruct (f (j (ms_vac_key m' (pr st) x))) as [v|]; simpl.
        * rewrite (rt_vac_insert _ _ _ _ _ _ _ _ H).
          destruct (ms_vac_insert m' (pr st) x v) as [[r s]| | |]; simpl; auto. apply rt_read_ref.
        * rewrite UP. reflexivity.
    - rewrite (rt_entry _ _ _ _ _ _ _ _ H). destruct (ms_entry m' (pr st) k) as [[o|x]| | |]; simpl; auto.
      + rewrite (rt_occ_get_mut _ _ _ _ _ _ _ _ H).
        destruct (ms_occ_get_mut m' (pr st) o) as [r| | |]; simpl; auto.
        rewrite rt_deref. destruct (deref m' (pr st) r) as [v| | |]; simpl; auto.
        rewrite rt_assign. destruct (assign m' (pr st) r (fst (g v))) as [s| | |]; simpl; auto.
        destruct (snd (g v)); simpl; auto.
        pose proof (rt_or_insert (up st s) (Occupied o) d) as E. simpl in E. rewrite E.
        rewrite (rt_pr_up _ _ _ _ _ _ _ _ H).
        destruct (occ_into_mut m' s o) as [[r1 s1]| | |]; simpl; auto.
        rewrite (rt_up_up _ _ _ _ _ _ _ _ H). apply rt_read_ref.
      + rewrite (rt_vac_insert _ _ _ _ _ _ _ _ H).
        destruct (ms_vac_insert m' (pr st) x d) as [[r s]| | |]; simpl; auto. apply rt_read_ref.
    - rewrite (rt_entry _ _ _ _ _ _ _ _ H). destruct (ms_entry m' (pr st) k) as [[o|x]| | |]; simpl; auto.
      + rewrite (rt_occ_insert _ _ _ _ _ _ _ _ H).
        destruct (ms_occ_insert m' (pr st) o v) as [[? ?]| | |]; reflexivity.
      + rewrite (rt_vac_insert _ _ _ _ _ _ _ _ H).
        destruct (ms_vac_insert m' (pr st) x v) as [[? ?]| | |]; reflexivity.
    - rewrite (rt_entry _ _ _ _ _ _ _ _ H). destruct (ms_entry m' (pr st) k) as [[o|x]| | |]; simpl; auto.
      + rewrite (rt_occ_remove _ _ _ _ _ _ _ _ H).
        destruct (ms_occ_remove m' (pr st) o) as [[? ?]| | |]; reflexivity.
      + rewrite UP. reflexivity.
  Qed.

  Lemma route_updates st s k o : updates (map_get m' (pr st)) k o (map_get m' s) ->
    (forall k', (exists k, k' = j k) \/ (forall k, k' <> j k)) ->
    updates (map_get m st) (j k) o (map_get m (up st s)).
  Proof.
    intros [H1 H2] D. split.
    - unfold map_get in *. rewrite (rt_get _ _ _ _ _ _ _ _ H), (rt_pr_up _ _ _ _ _ _ _ _ H). auto.
    - intros k' Hk. unfold map_get in *. destruct (D k') as [(k1 & ->)|Hn].
      + rewrite !(rt_get _ _ _ _ _ _ _ _ H), (rt_pr_up _ _ _ _ _ _ _ _ H). apply H2. congruence.
      + apply (rt_get_other _ _ _ _ _ _ _ _ H); auto.
  Qed.

  Lemma route_keeps st s : keeps (map_get m' (pr st)) (map_get m' s) ->
    (forall k', (exists k, k' = j k) \/ (forall k, k' <> j k)) ->
    keeps (map_get m st) (map_get m (up st s)).
  Proof.
    intros H1 D k'. unfold keeps, map_get in *. destruct (D k') as [(k1 & ->)|Hn].
    - rewrite !(rt_get _ _ _ _ _ _ _ _ H), (rt_pr_up _ _ _ _ _ _ _ _ H). apply H1.
    - apply (rt_get_other _ _ _ _ _ _ _ _ H); auto.
  Qed.

  Lemma route_spec st s o o' x :
    (forall k', (exists k, k' = j k) \/ (forall k, k' <> j k)) ->
    keyed_op o o' -> spec_op (map_get m' (pr st)) o' x (map_get m' s) ->
    spec_op (map_get m st) o (jobs x) (map_get m (up st s)).
  Proof.
    intros D Hk.
    assert (G : forall k, map_get m st (j k) = map_get m' (pr st) k)
      by (intros; apply (rt_get _ _ _ _ _ _ _ _ H)).
    pose proof (fun k o => route_updates st s k o) as U.
    pose proof (route_keeps st s) as Kp.
    destruct Hk; simpl; rewrite ?G.
    - intros [-> H1]. auto.
    - intros [-> H1]. auto.
    - intros [-> H1]. destruct (map_get m' (pr st) k); auto.
    - intros [-> H1]. auto.
    - intros [-> H1]. auto.
    - intros [-> H1]. auto.
    - destruct (map_get m' (pr st) k); intros [-> H1]; auto.
    - destruct (map_get m' (pr st) k); [|destruct (f (j k))]; intros [-> H1]; auto.
    - destruct (map_get m' (pr st) k); intros [-> H1]; auto.
      split; [|auto]. destruct (snd (g v)); reflexivity.
    - intros [-> H1]. auto.
    - intros [-> H1]. auto.
  Qed.

  Lemma route_step (I : ms_St m -> Prop) (I' : ms_St m' -> Prop) st o o' :
    (forall k', (exists k, k' = j k) \/ (forall k, k' <> j k)) ->
    keyed_op o o' -> (forall s, I' s -> I (up st s)) ->
    (exists x s n0, (forall n, n0 <= n -> run_op m' n (pr st) o' = Ok (x, s)) /\ I' s /\
       spec_op (map_get m' (pr st)) o' x (map_get m' s)) ->
    exists x st' n0, (forall n, n0 <= n -> run_op m n st o = Ok (x, st')) /\ I st' /\
       spec_op (map_get m st) o x (map_get m st').
  Proof.
    intros D Hk HI (x & s & n0 & E & Hs & S). exists (jobs x), (up st s), n0. split; [|split].
    - intros n Hn. rewrite (route_op st o o' n Hk), E by auto. reflexivity.
    - auto.
    - eapply route_spec; eauto.
  Qed.

  Lemma route_write g l : forall st,
    write_all m g (map (fun e => (j (fst e), rj (snd e))) l) st =
    res_map (up st) (write_all m' (fun k => g (j k)) l (pr st)).
  Proof.
    induction l as [|[k r] l IH]; intros st; simpl.
    - rewrite (rt_up_pr _ _ _ _ _ _ _ _ H). reflexivity.
    - rewrite rt_deref. destruct (deref m' (pr st) r) as [v| | |]; simpl; auto.
      rewrite rt_assign. destruct (assign m' (pr st) r (g (j k) v)) as [s| | |]; simpl; auto.
      rewrite IH, (rt_pr_up _ _ _ _ _ _ _ _ H).
      destruct (write_all m' (fun k => g (j k)) l s); simpl; auto.
      rewrite (rt_up_up _ _ _ _ _ _ _ _ H). reflexivity.
  Qed.
End Route.

(** * Iterating over parts *)

Inductive gives {A} (i : iterator A) : it_st i -> list A -> Prop :=
| gv_nil s s' : it_next i s = (None, s') -> gives i s []
| gv_cons s x s' l : it_next i s = (Some x, s') -> gives i s' l -> gives i s (x :: l).

Lemma gives_yields {A} (i : iterator A) s l : gives i s l -> yields i s l.
Proof.
  induction 1 as [s s' E|s x s' l E _ [n0 IH]].
  - exists 1. intros [|n] Hn; [lia|]. simpl. rewrite E. reflexivity.
  - exists (S n0). intros [|n] Hn; [lia|]. simpl. rewrite E, IH by lia. reflexivity.
Qed.

Lemma drain_gives {A} (i : iterator A) n : forall s l, drain i n s = Some l -> gives i s l.
Proof.
  induction n as [|n IH]; intros s l; simpl; [discriminate|].
  destruct (it_next i s) as [[x|] s'] eqn:E.
  - destruct (drain i n s') as [l'|] eqn:E'; [|discriminate]. intros [= <-].
    econstructor; eauto.
  - intros [= <-]. econstructor; eauto.
Qed.

Lemma yields_gives {A} (i : iterator A) s l : yields i s l -> gives i s l.
Proof. intros [n0 H]. apply (drain_gives i n0). apply H. lia. Qed.

Lemma map_gives {A B} (f : A -> B) i s l : gives i s l -> gives (map_it f i) s (map f l).
Proof.
  induction 1 as [s s' E|s x s' l E _ IH].
  - apply (gv_nil (map_it f i) s s'). simpl. rewrite E. reflexivity.
  - apply (gv_cons (map_it f i) s (f x) s'); [|exact IH]. simpl. rewrite E. reflexivity.
Qed.

Lemma opt_gives {A} (o : option A) : gives (opt_it A) o (olist o).
Proof.
  assert (N : gives (opt_it A) None []) by (apply (gv_nil (opt_it A) None None); reflexivity).
  destruct o as [x|]; [|exact N]. apply (gv_cons (opt_it A) (Some x) x None); [reflexivity|exact N].
Qed.

Lemma chain_gives {A} (a b : iterator A) sa sb la lb : gives a sa la -> gives b sb lb ->
  gives (chain_it a b) (Some sa, Some sb) (la ++ lb).
Proof.
  intros Ha Hb.
  assert (B : gives (chain_it a b) (None, Some sb) lb).
  { clear Ha. induction Hb as [s s' E|s x s' l E _ IH].
    - eapply (gv_nil (chain_it a b)). simpl. unfold chain_next. simpl. rewrite E. reflexivity.
    - eapply (gv_cons (chain_it a b)); [|exact IH]. simpl. unfold chain_next. simpl. rewrite E. reflexivity. }
  induction Ha as [s s' E|s x s' l E _ IH]; simpl.
  - inversion B as [? ? Eb|? ? ? ? Eb Gb]; subst.
    + eapply (gv_nil (chain_it a b)). simpl in *. unfold chain_next in *. simpl in *. rewrite E. exact Eb.
    + eapply (gv_cons (chain_it a b)); [|exact Gb]. simpl in *. unfold chain_next in *. simpl in *.
      rewrite E. exact Eb.
  - eapply (gv_cons (chain_it a b)); [|exact IH]. simpl. unfold chain_next. simpl. rewrite E. reflexivity.
Qed.

(** The fields from number [n] on give the lists [ll]. *)
Fixpoint from_gives {A} (its : list (iterator A)) (n : nat)
  : it_states its -> list (list A) -> Prop :=
  match its return it_states its -> list (list A) -> Prop with
  | [] => fun _ ll => ll = []
  | i :: r => fun st ll =>
      match n with
      | 0 => exists l ll', ll = l :: ll' /\ gives i (fst st) l /\ from_gives r 0 (snd st) ll'
      | S n' => from_gives r n' (snd st) ll
      end
  end.

Lemma from_end {A} (its : list (iterator A)) : forall n st ll,
  length its <= n -> from_gives its n st ll -> ll = [].
Proof.
  induction its as [|i its IH]; intros n st ll Hn; simpl; auto.
  destruct n as [|n]; simpl in Hn; [lia|]. apply IH. lia.
Qed.

Lemma step_gives {A} (its : list (iterator A)) : forall n st ll,
  n < length its -> from_gives its n st ll ->
  exists l ll', ll = l :: ll' /\
    match l with
    | [] => exists st', step_next its n st = Some (None, st') /\ from_gives its (S n) st' ll'
    | x :: l' => exists st', step_next its n st = Some (Some x, st') /\
                             from_gives its n st' (l' :: ll')
    end.
Proof.
  induction its as [|i its IH]; intros n st ll Hn; simpl in Hn; [lia|].
  destruct st as [s st]. destruct n as [|n].
  - intros (l & ll' & -> & G & F). simpl in *. exists l, ll'. split; [reflexivity|].
    inversion G as [? s' E|? x s' l' E G']; subst; rewrite E.
    + exists (s', st). split; [reflexivity|]. exact F.
    + exists (s', st). split; [reflexivity|]. exists l', ll'. auto.
  - intros F. destruct (IH n st ll) as (l & ll' & -> & P); [lia|exact F|]. exists l, ll'. split; auto.
    destruct l as [|x l]; destruct P as (st' & E & F'); cbn [step_next fst snd]; rewrite E;
      exists (s, st'); auto.
Qed.

Lemma loop_gives {A} (its : list (iterator A)) fuel : forall start st ll,
  length its - start <= fuel -> start <= length its -> from_gives its start st ll ->
  match concat ll with
  | [] => exists s', loop_next its fuel start (length its) st = (None, s')
  | x :: l => exists start' st' ll',
      loop_next its fuel start (length its) st = (Some x, (start', length its, st')) /\
      start' <= length its /\ from_gives its start' st' ll' /\ concat ll' = l
  end.
Proof.
  induction fuel as [|fuel IH]; intros start st ll Hf Hs F.
  - rewrite (from_end its start st ll) by (auto; lia). simpl. eauto.
  - simpl. destruct (start <? length its) eqn:El.
    + apply Nat.ltb_lt in El. destruct (step_gives its start st ll El F) as (l & ll' & -> & P).
      destruct l as [|x l]; destruct P as (st' & E & F'); rewrite E; simpl concat.
      * replace (Nat.min (start + 1) (length its)) with (S start) by lia. apply IH; auto; lia.
      * exists start, st', (l :: ll'). auto.
    + apply Nat.ltb_ge in El. rewrite (from_end its start st ll) by auto. simpl. eauto.
Qed.

Lemma struct_gives {A} (its : list (iterator A)) n st ll :
  n = length its -> from_gives its 0 st ll -> gives (struct_it its) (0, n, st) (concat ll).
Proof.
  intros -> F.
  assert (P : forall l start st ll, start <= length its -> from_gives its start st ll ->
                concat ll = l -> gives (struct_it its) (start, length its, st) l).
  { clear. induction l as [|x l IH]; intros start st ll Hs F E;
      pose proof (loop_gives its (length its) start st ll ltac:(lia) Hs F) as G; rewrite E in G.
    - destruct G as [s' G]. exact (gv_nil (struct_it its) (start, length its, st) s' G).
    - destruct G as (start' & st' & ll' & G & H1 & H2 & H3).
      apply (gv_cons (struct_it its) (start, length its, st) x (start', length its, st') l G).
      eapply IH; eauto. }
  eapply P; eauto. lia.
Qed.

(** * Calls on the whole storage *)

Record whole {K V} (m : MapStorage K V) (I : ms_St m -> Prop) (st : ms_St m) : Prop := MkWhole {
  wh_len : exists l, lists (map_get m st) l /\ ms_len m st = length l;
  wh_is_empty : ms_is_empty m st = true <-> forall k, map_get m st k = None;
  wh_clear : I (ms_clear m st) /\ forall k, map_get m (ms_clear m st) k = None;
  wh_iter : exists l, lists (map_get m st) l /\ gives (ms_Iter m) (ms_iter m st) l;
  wh_iter_mut : exists l, gives (ms_IterMut m) (ms_iter_mut m st) l /\
    forall g, exists st', write_all m g l st = Ok st' /\ I st' /\
      forall k, map_get m st' k = option_map (g k) (map_get m st k);
  wh_retain : forall (X : Type) (f : retain_fn X K V) (x : X),
    exists l x' st' l' oc, ms_retain m f x st = (x', st', oc) /\ I st' /\
      lists (map_get m st) l /\ retain_list f x l = (x', l', oc) /\ lists (map_get m st') l'
}.

Definition steps {K V} (m : MapStorage K V) (I : ms_St m -> Prop) (st : ms_St m)
  (o : mop K V) : Prop :=
  exists x st' n0, (forall n, n0 <= n -> run_op m n st o = Ok (x, st')) /\ I st' /\
                   spec_op (map_get m st) o x (map_get m st').

Definition is_whole {K V} (o : mop K V) : bool :=
  match o with
  | MLen | MIsEmpty | MClear | MRetain _ | MIter | MIterMut _ => true
  | _ => false
  end.

Lemma whole_steps {K V} (m : MapStorage K V) (I : ms_St m -> Prop) st o :
  I st -> whole m I st -> is_whole o = true -> steps m I st o.
Proof.
  intros Hi [W1 W2 W3 W4 W5 W6] Ho.
  assert (KK : keeps (map_get m st) (map_get m st)) by (intros k; reflexivity).
  destruct o; try discriminate; unfold steps; simpl.
  - destruct W1 as (l & H1 & H2). do 2 eexists. exists 0. split; [reflexivity|]. split; [exact Hi|].
    split; [|auto]. exists l. split; [auto|]. unfold map_len. rewrite H2. reflexivity.
  - do 2 eexists. exists 0. split; [reflexivity|]. split; [exact Hi|]. split; [|auto].
    eexists. split; [reflexivity|]. exact W2.
  - do 2 eexists. exists 0. split; [reflexivity|]. split; [apply W3|]. split; [auto|]. apply W3.
  - destruct (W6 _ (logged f) []) as (l & x' & st' & l' & oc & E & H1 & H2 & H3 & H4).
    exists (RRetain x' oc), st', 0. split; [|split; [exact H1|]].
    + intros n _. unfold map_retain. rewrite E. reflexivity.
    + exists l, x', l', oc. auto.
  - destruct W4 as (l & H1 & H2). apply gives_yields in H2 as [n0 H2].
    exists (RList l), st, n0. split; [|split; [exact Hi|]].
    + intros n Hn. unfold map_iter. rewrite H2 by auto. reflexivity.
    + split; eauto.
  - destruct W5 as (l & H1 & H2). apply gives_yields in H1 as [n0 H1].
    destruct (H2 g) as (st' & E & H3 & H4).
    exists RUnit, st', n0. split; [|split; [exact H3|]].
    + intros n Hn. unfold map_iter_mut. rewrite H1 by auto. rewrite E. reflexivity.
    + split; auto.
Qed.

Lemma steps_whole {K V} (m : MapStorage K V) (I : ms_St m -> Prop) st :
  (forall o, steps m I st o) ->
  (forall (X : Type) (f : retain_fn X K V) (x : X),
    exists l x' st' l' oc, map_retain m f x st = (x', st', oc) /\ I st' /\
      lists (map_get m st) l /\ retain_list f x l = (x', l', oc) /\ lists (map_get m st') l') ->
  whole m I st.
Proof.
  intros S R. constructor.
  - destruct (S MLen) as (x & st' & n0 & E & _ & (l & H1 & ->) & _). exists l. split; auto.
    specialize (E n0 (le_n _)). simpl in E. injection E as E _. exact E.
  - destruct (S MIsEmpty) as (x & st' & n0 & E & _ & (b & -> & H1) & _).
    specialize (E n0 (le_n _)). simpl in E. injection E as E _. subst b. exact H1.
  - destruct (S MClear) as (x & st' & n0 & E & Hi & _ & H1).
    specialize (E n0 (le_n _)). simpl in E. injection E as _ <-. auto.
  - destruct (S MIter) as (x & st' & n0 & E & _ & (l & H1 & ->) & _). exists l. split; auto.
    specialize (E n0 (le_n _)). simpl in E.
    destruct (drain (ms_Iter m) n0 (map_iter m st)) as [l'|] eqn:D; [|discriminate].
    injection E as -> _. apply drain_gives in D. exact D.
  - destruct (S (MIterMut (fun _ v => v))) as (x & st' & n0 & E & _ & -> & _).
    specialize (E n0 (le_n _)). simpl in E.
    destruct (drain (ms_IterMut m) n0 (map_iter_mut m st)) as [l|] eqn:D; [|discriminate].
    apply drain_gives in D. exists l. split; [exact D|].
    intros g. destruct (S (MIterMut g)) as (x1 & st1 & n1 & E1 & Hi1 & -> & H1).
    pose proof (gives_yields _ _ _ D) as [n2 D2].
    specialize (E1 (Nat.max n1 n2) ltac:(lia)). simpl in E1. unfold map_iter_mut in E1.
    rewrite D2 in E1 by lia. destruct (write_all m g l st) as [s| | |]; try discriminate.
    injection E1 as <-. exists s. auto.
  - exact R.
Qed.

Lemma acts_intro {K V} (m : MapStorage K V) (I : ms_St m -> Prop) :
  (forall w, I (map_new m w) /\ forall k, map_get m (map_new m w) k = None) ->
  (forall st, I st -> whole m I st) ->
  (forall st o, I st -> is_whole o = false -> steps m I st o) ->
  acts_as_map m.
Proof.
  intros N W S. exists I. split; [exact N|]. split.
  - intros st o Hi. destruct (is_whole o) eqn:E; [|exact (S st o Hi E)].
    apply whole_steps; auto.
  - intros st X f x Hi. exact (wh_retain m I st (W st Hi) X f x).
Qed.

(** * Two parts *)

Lemma write_all_app {K V} (m : MapStorage K V) g l1 l2 : forall st,
  write_all m g (l1 ++ l2) st = res_bind (write_all m g l1 st) (write_all m g l2).
Proof.
  induction l1 as [|[k r] l1 IH]; intros st; simpl; [reflexivity|].
  destruct (deref m st r); simpl; auto. destruct (assign m st r (g k a)); simpl; auto.
Qed.

Section Join.
  Context {T A B V : Type} {m : MapStorage T V} {ma : MapStorage A V} {mb : MapStorage B V}
    {ja : A -> T} {jb : B -> T} {ra rb : ref -> ref}
    {pa : ms_St m -> ms_St ma} {ua : ms_St m -> ms_St ma -> ms_St m}
    {pb : ms_St m -> ms_St mb} {ub : ms_St m -> ms_St mb -> ms_St m}
    {oa : ms_Occ ma -> ms_Occ m} {va : ms_Vac ma -> ms_Vac m}
    {ob : ms_Occ mb -> ms_Occ m} {vb : ms_Vac mb -> ms_Vac m}.
  Hypothesis Ra : routes m ma ja ra pa ua oa va.
  Hypothesis Rb : routes m mb jb rb pb ub ob vb.
  Hypothesis part : forall k, (exists a, k = ja a) \/ (exists b, k = jb b).
  Hypothesis disj : forall a b, ja a <> jb b.
  Hypothesis pb_ua : forall st s, pb (ua st s) = pb st.
  Hypothesis pa_ub : forall st s, pa (ub st s) = pa st.

  Lemma join_get st f : (forall a, f (ja a) = map_get ma (pa st) a) ->
    (forall b, f (jb b) = map_get mb (pb st) b) -> forall k, f k = map_get m st k.
  Proof.
    intros Ha Hb k. unfold map_get in *. destruct (part k) as [(a & ->)|(b & ->)].
    - rewrite Ha, (rt_get _ _ _ _ _ _ _ _ Ra). reflexivity.
    - rewrite Hb, (rt_get _ _ _ _ _ _ _ _ Rb). reflexivity.
  Qed.

  Lemma get_a st a : map_get m st (ja a) = map_get ma (pa st) a.
  Proof. apply (rt_get _ _ _ _ _ _ _ _ Ra). Qed.
  Lemma get_b st b : map_get m st (jb b) = map_get mb (pb st) b.
  Proof. apply (rt_get _ _ _ _ _ _ _ _ Rb). Qed.

  Definition jl {X Y Z} (j : X -> Y) (l : list (X * Z)) : list (Y * Z) :=
    map (fun e => (j (fst e), snd e)) l.

  Lemma join_lists st la lb : lists (map_get ma (pa st)) la -> lists (map_get mb (pb st)) lb ->
    lists (map_get m st) (jl ja la ++ jl jb lb).
  Proof.
    intros [N1 H1] [N2 H2]. split.
    - unfold jl. rewrite map_app, !map_map. simpl. apply NoDup_app_disj.
      + rewrite <- map_map with (f := fst) (g := ja). apply NoDup_map_inj; auto.
        intros x y. apply (rt_inj _ _ _ _ _ _ _ _ Ra).
      + rewrite <- map_map with (f := fst) (g := jb). apply NoDup_map_inj; auto.
        intros x y. apply (rt_inj _ _ _ _ _ _ _ _ Rb).
      + intros k Hk Hk'. apply in_map_iff in Hk as (x & <- & _).
        apply in_map_iff in Hk' as (y & E & _). symmetry in E. exact (disj _ _ E).
    - intros k v. unfold jl. rewrite in_app_iff, !in_map_iff.
      destruct (part k) as [(a & ->)|(b & ->)].
      + rewrite get_a, <- H1. split.
        * intros [([x y] & [= E ->] & Hi)|([x y] & [= E ->] & Hi)]; simpl in *.
          -- apply (rt_inj _ _ _ _ _ _ _ _ Ra) in E. subst. auto.
          -- symmetry in E. destruct (disj _ _ E).
        * intros Hi. left. exists (a, v). auto.
      + rewrite get_b, <- H2. split.
        * intros [([x y] & [= E ->] & Hi)|([x y] & [= E ->] & Hi)]; simpl in *.
          -- destruct (disj _ _ E).
          -- apply (rt_inj _ _ _ _ _ _ _ _ Rb) in E. subst. auto.
        * intros Hi. right. exists (b, v). auto.
  Qed.

  Context (Ia : ms_St ma -> Prop) (Ib : ms_St mb -> Prop) (I : ms_St m -> Prop).
  Hypothesis II : forall st, I st <-> Ia (pa st) /\ Ib (pb st).

  Lemma dec_a k' : (exists k, k' = ja k) \/ (forall k, k' <> ja k).
  Proof.
    destruct (part k') as [H|(b & ->)]; [left; exact H|right]. intros k E.
    symmetry in E. exact (disj _ _ E).
  Qed.
  Lemma dec_b k' : (exists k, k' = jb k) \/ (forall k, k' <> jb k).
  Proof. destruct (part k') as [(a & ->)|H]; [right; intros k; apply disj|left; exact H]. Qed.

  Lemma I_a st s : I st -> Ia s -> I (ua st s).
  Proof.
    intros H Hs. apply II in H. apply II. rewrite pb_ua, (rt_pr_up _ _ _ _ _ _ _ _ Ra). tauto.
  Qed.
  Lemma I_b st s : I st -> Ib s -> I (ub st s).
  Proof.
    intros H Hs. apply II in H. apply II. rewrite pa_ub, (rt_pr_up _ _ _ _ _ _ _ _ Rb). tauto.
  Qed.

  Lemma join_keyed st o : I st -> is_whole o = false ->
    (forall o, steps ma Ia (pa st) o) -> (forall o, steps mb Ib (pb st) o) -> steps m I st o.
  Proof.
    intros Hi Ho Sa Sb.
    assert (Ga : forall o o', keyed_op (j := ja) o o' -> steps m I st o).
    { intros x x' Hx. exact (route_step Ra I Ia st x x' dec_a Hx (fun s Hs => I_a st s Hi Hs) (Sa x')). }
    assert (Gb : forall o o', keyed_op (j := jb) o o' -> steps m I st o).
    { intros x x' Hx. exact (route_step Rb I Ib st x x' dec_b Hx (fun s Hs => I_b st s Hi Hs) (Sb x')). }
    destruct o; try discriminate; destruct (part k) as [(a & ->)|(b & ->)];
      first [eapply Ga; constructor | eapply Gb; constructor].
  Qed.

  Lemma join_write st la lb : I st ->
    (forall g, exists s, write_all ma g la (pa st) = Ok s /\ Ia s /\
       forall k, map_get ma s k = option_map (g k) (map_get ma (pa st) k)) ->
    (forall g, exists s, write_all mb g lb (pb st) = Ok s /\ Ib s /\
       forall k, map_get mb s k = option_map (g k) (map_get mb (pb st) k)) ->
    forall g, exists st', write_all m g (map (fun e => (ja (fst e), ra (snd e))) la ++
                                          map (fun e => (jb (fst e), rb (snd e))) lb) st = Ok st' /\
      I st' /\ forall k, map_get m st' k = option_map (g k) (map_get m st k).
  Proof.
    intros Hi Ha Hb g. destruct (Ha (fun k => g (ja k))) as (s & E & Hs & G).
    destruct (Hb (fun k => g (jb k))) as (s2 & E2 & Hs2 & G2).
    exists (ub (ua st s) s2). split; [|split].
    - rewrite write_all_app, (route_write Ra), E. simpl. rewrite (route_write Rb), pb_ua, E2.
      reflexivity.
    - apply I_b; auto. apply I_a; auto.
    - intros k. destruct (part k) as [(a & ->)|(b & ->)].
      + rewrite !get_a, pa_ub, (rt_pr_up _ _ _ _ _ _ _ _ Ra). apply G.
      + rewrite !get_b, (rt_pr_up _ _ _ _ _ _ _ _ Rb). apply G2.
  Qed.

  Hypothesis len : forall st, ms_len m st = ms_len ma (pa st) + ms_len mb (pb st).
  Hypothesis emp : forall st, ms_is_empty m st = ms_is_empty ma (pa st) && ms_is_empty mb (pb st).
  Hypothesis clr : forall st,
    ms_clear m st = ub (ua st (ms_clear ma (pa st))) (ms_clear mb (pb st)).
  Hypothesis ret : forall (X : Type) (f : retain_fn X T V) x st, ms_retain m f x st =
    match ms_retain ma (fun x k v => f x (ja k) v) x (pa st) with
    | (x1, s1, Unwound) => (x1, ua st s1, Unwound)
    | (x1, s1, Done) =>
        let '(x2, s2, o) := ms_retain mb (fun x k v => f x (jb k) v) x1 (pb st) in
        (x2, ub (ua st s1) s2, o)
    end.

  Lemma join_retain st : I st -> whole ma Ia (pa st) -> whole mb Ib (pb st) ->
    forall (X : Type) (f : retain_fn X T V) (x : X),
    exists l x' st' l' oc, ms_retain m f x st = (x', st', oc) /\ I st' /\
      lists (map_get m st) l /\ retain_list f x l = (x', l', oc) /\ lists (map_get m st') l'.
  Proof.
    intros Hi Wa Wb X f x. rewrite ret.
    destruct (wh_retain _ _ _ Wa X (fun x k v => f x (ja k) v) x)
      as (la & x1 & s1 & la' & oc1 & E1 & Hs1 & L1 & R1 & L1').
    rewrite E1. destruct oc1.
    - destruct (wh_retain _ _ _ Wb X (fun x k v => f x (jb k) v) x1)
        as (lb & x2 & s2 & lb' & oc2 & E2 & Hs2 & L2 & R2 & L2').
      rewrite E2. exists (jl ja la ++ jl jb lb), x2, (ub (ua st s1) s2), (jl ja la' ++ jl jb lb'), oc2.
      split; [reflexivity|]. split; [apply I_b; auto; apply I_a; auto|].
      split; [apply join_lists; auto|]. split.
      + rewrite retain_list_app. unfold jl at 1. rewrite retain_list_map, R1.
        unfold jl at 1. rewrite retain_list_map, R2. reflexivity.
      + apply join_lists.
        * rewrite pa_ub, (rt_pr_up _ _ _ _ _ _ _ _ Ra). exact L1'.
        * rewrite (rt_pr_up _ _ _ _ _ _ _ _ Rb). exact L2'.
    - destruct (wh_iter _ _ _ Wb) as (lb & L2 & _).
      exists (jl ja la ++ jl jb lb), x1, (ua st s1), (jl ja la' ++ jl jb lb), Unwound.
      split; [reflexivity|]. split; [apply I_a; auto|].
      split; [apply join_lists; auto|]. split.
      + rewrite retain_list_app. unfold jl at 1. rewrite retain_list_map, R1. reflexivity.
      + apply join_lists.
        * rewrite (rt_pr_up _ _ _ _ _ _ _ _ Ra). exact L1'.
        * rewrite pb_ua. exact L2.
  Qed.

  Lemma join_whole st : I st -> whole ma Ia (pa st) -> whole mb Ib (pb st) ->
    (exists l, lists (map_get m st) l /\ gives (ms_Iter m) (ms_iter m st) l) ->
    (exists l, gives (ms_IterMut m) (ms_iter_mut m st) l /\
      forall g, exists st', write_all m g l st = Ok st' /\ I st' /\
        forall k, map_get m st' k = option_map (g k) (map_get m st k)) ->
    whole m I st.
  Proof.
    intros Hi Wa Wb W4 W5. constructor; auto.
    - destruct (wh_len _ _ _ Wa) as (la & L1 & E1), (wh_len _ _ _ Wb) as (lb & L2 & E2).
      exists (jl ja la ++ jl jb lb). split; [apply join_lists; auto|].
      rewrite len, E1, E2. unfold jl. rewrite app_length, !map_length. reflexivity.
    - rewrite emp, andb_true_iff, (wh_is_empty _ _ _ Wa), (wh_is_empty _ _ _ Wb). split.
      + intros [H1 H2] k. destruct (part k) as [(a & ->)|(b & ->)]; [rewrite get_a|rewrite get_b]; auto.
      + intros H. split; intros k; [rewrite <- get_a|rewrite <- get_b]; auto.
    - destruct (wh_clear _ _ _ Wa) as [H1 H2], (wh_clear _ _ _ Wb) as [H3 H4]. rewrite clr.
      split; [apply I_b; auto; apply I_a; auto|].
      intros k. destruct (part k) as [(a & ->)|(b & ->)].
      + rewrite get_a, pa_ub, (rt_pr_up _ _ _ _ _ _ _ _ Ra). auto.
      + rewrite get_b, (rt_pr_up _ _ _ _ _ _ _ _ Rb). auto.
    - apply join_retain; auto.
  Qed.
End Join.

(** * Options *)

Definition some_at (f : ref -> ref) (b : some_bucket) : some_bucket := MkSomeBucket (f (sb_outer b)).
Definition none_at (f : ref -> ref) (b : none_bucket) : none_bucket := MkNoneBucket (f (nb_outer b)).

(** Buckets of a place that is a part of another state. *)
Section Cells.
  Context {S S' V : Type} (c : cells S V) (c' : cells S' V) (f : ref -> ref)
          (pr : S -> S') (up : S -> S' -> S).
  Hypothesis G : forall st r, cell_get c st (f r) = cell_get c' (pr st) r.
  Hypothesis P : forall st r o, cell_set c st (f r) o = option_map (up st) (cell_set c' (pr st) r o).
  Hypothesis PU : forall st s, pr (up st s) = s.

  Lemma cell_read_at st r : cell_read c st (f r) = cell_read c' (pr st) r.
  Proof. unfold cell_read. rewrite G. reflexivity. Qed.
  Lemma cell_write_at st r o : cell_write c st (f r) o = res_map (up st) (cell_write c' (pr st) r o).
  Proof. unfold cell_write. rewrite P. destruct (cell_set c' (pr st) r o); reflexivity. Qed.

  Lemma bucket_new_at st r : option_bucket_new c st (f r) =
    res_map (fun b => match b with OBSome b => OBSome (some_at f b) | OBNone b => OBNone (none_at f b) end)
            (option_bucket_new c' (pr st) r).
  Proof.
    unfold option_bucket_new, some_new_unchecked, none_new_unchecked. rewrite cell_read_at.
    destruct (cell_read c' (pr st) r) as [[v|]| | |]; reflexivity.
  Qed.
  Lemma some_as_ref_at st b : some_as_ref c st (some_at f b) = some_as_ref c' (pr st) b.
  Proof. unfold some_as_ref. simpl. rewrite cell_read_at. reflexivity. Qed.
  Lemma some_as_mut_at st b : some_as_mut c st (some_at f b) = res_map f (some_as_mut c' (pr st) b).
  Proof.
    unfold some_as_mut. simpl. rewrite cell_read_at.
    destruct (cell_read c' (pr st) (sb_outer b)) as [[v|]| | |]; reflexivity.
  Qed.
  Lemma some_into_mut_at st b : some_into_mut c st (some_at f b) = res_map f (some_into_mut c' (pr st) b).
  Proof.
    unfold some_into_mut. simpl. rewrite cell_read_at.
    destruct (cell_read c' (pr st) (sb_outer b)) as [[v|]| | |]; reflexivity.
  Qed.
  Lemma some_replace_at st b v : some_replace c st (some_at f b) v =
    res_map (fun '(x, s) => (x, up st s)) (some_replace c' (pr st) b v).
  Proof.
    unfold some_replace. rewrite some_as_mut_at. destruct (some_as_mut c' (pr st) b) as [r| | |]; simpl; auto.
    rewrite cell_read_at. destruct (cell_read c' (pr st) r) as [[o|]| | |]; simpl; auto.
    rewrite cell_write_at. destruct (cell_write c' (pr st) r (Some v)); reflexivity.
  Qed.
  Lemma some_take_at st b : some_take c st (some_at f b) =
    res_map (fun '(x, s) => (x, up st s)) (some_take c' (pr st) b).
  Proof.
    unfold some_take. simpl. rewrite cell_read_at.
    destruct (cell_read c' (pr st) (sb_outer b)) as [o| | |]; simpl; auto.
    rewrite cell_write_at. destruct (cell_write c' (pr st) (sb_outer b) None); simpl; auto.
    destruct o; reflexivity.
  Qed.
  Lemma none_insert_at st b v : none_insert c st (none_at f b) v =
    res_map (fun '(r, s) => (f r, up st s)) (none_insert c' (pr st) b v).
  Proof.
    unfold none_insert. simpl. rewrite cell_read_at.
    destruct (cell_read c' (pr st) (nb_outer b)) as [[o|]| | |]; simpl; auto.
    rewrite cell_write_at. destruct (cell_write c' (pr st) (nb_outer b) (Some v)) as [s| | |]; simpl; auto.
    rewrite cell_read_at, PU. destruct (cell_read c' s (nb_outer b)) as [[o|]| | |]; reflexivity.
  Qed.
  Lemma cell_load_at st r : cell_load c st (f r) = cell_load c' (pr st) r.
  Proof. unfold cell_load. rewrite G. reflexivity. Qed.
  Lemma cell_store_at st r v : cell_store c st (f r) v = option_map (up st) (cell_store c' (pr st) r v).
  Proof.
    unfold cell_store. rewrite G. destruct (cell_get c' (pr st) r) as [[o|]|]; simpl; auto.
  Qed.
End Cells.

Section OptionActs.
  Context {K V : Type} (m : MapStorage K V).
  Notation om := (opt_map_storage m).
  Notation sm := (single_map_storage V).

  Definition o_ua (st : opt_map m) (s : ms_St m) : opt_map m := MkOptMap m s (om_none m st).
  Definition o_pb (st : opt_map m) : single_map V := MkSingleMap (om_none m st).
  Definition o_ub (st : opt_map m) (s : single_map V) : opt_map m := MkOptMap m (om_some m st) (sm_inner s).

  Lemma opt_route_some : routes om m Some (cons 0) (om_some m) o_ua inl inl.
  Proof.
    constructor; try reflexivity.
    - intros [? ?]; reflexivity.
    - congruence.
    - intros st s [k'|] Hk; [destruct (Hk k' eq_refl)|reflexivity].
    - intros st o v; simpl; destruct (ms_occ_insert m (om_some m st) o v) as [[? ?]| | |]; reflexivity.
    - intros st o; simpl; destruct (ms_occ_remove m (om_some m st) o) as [[? ?]| | |]; reflexivity.
    - intros st x v; simpl; destruct (ms_vac_insert m (om_some m st) x v) as [[? ?]| | |]; reflexivity.
  Qed.

  Lemma om_get_at st r : cell_get (om_cells m) st (1 :: r) = cell_get sm_cells (o_pb st) r.
  Proof. destruct r; reflexivity. Qed.
  Lemma om_set_at st r o : cell_set (om_cells m) st (1 :: r) o =
    option_map (o_ub st) (cell_set sm_cells (o_pb st) r o).
  Proof. destruct r; reflexivity. Qed.
  Lemma o_pb_ub st s : o_pb (o_ub st s) = s.
  Proof. destruct s; reflexivity. Qed.

  Lemma opt_route_none :
    routes om sm (fun _ => None) (cons 1) o_pb o_ub (fun b => inr (some_at (cons 1) b))
      (fun b => inr (none_at (cons 1) b)).
  Proof.
    constructor.
    - apply o_pb_ub.
    - intros st s s'. reflexivity.
    - intros [? ?]; reflexivity.
    - intros [] []; reflexivity.
    - reflexivity.
    - intros st s [k'|] Hk; [reflexivity|destruct (Hk tt eq_refl)].
    - reflexivity.
    - intros st k. simpl. destruct (om_none m st); reflexivity.
    - reflexivity.
    - reflexivity.
    - intros st r. simpl. apply (cell_load_at _ _ (cons 1) o_pb). apply om_get_at.
    - intros st r v. simpl. apply (cell_store_at _ _ (cons 1) o_pb o_ub).
      + apply om_get_at.
      + apply om_set_at.
    - intros st k. simpl. unfold om_path_none, sm_entry.
      rewrite (bucket_new_at _ sm_cells (cons 1) o_pb om_get_at).
      destruct (option_bucket_new sm_cells (o_pb st) []) as [[b|b]| | |]; reflexivity.
    - reflexivity.
    - intros st o. apply (some_as_mut_at _ _ (cons 1) o_pb). apply om_get_at.
    - intros st o. apply (some_into_mut_at _ _ (cons 1) o_pb). apply om_get_at.
    - intros st o v. apply (some_replace_at _ _ (cons 1) o_pb o_ub).
      + apply om_get_at.
      + apply om_set_at.
    - intros st o. apply (some_take_at _ _ (cons 1) o_pb o_ub).
      + apply om_get_at.
      + apply om_set_at.
    - reflexivity.
    - intros st x v. apply (none_insert_at _ _ (cons 1) o_pb o_ub).
      + apply om_get_at.
      + apply om_set_at.
      + apply o_pb_ub.
  Qed.

  Lemma option_acts : acts_as_map m -> acts_as_map om.
  Proof.
    intros (Ia & Na & Sa & Ra).
    destruct (laws_act (@single_laws V)) as (Ib & Nb & Sb & Rb).
    set (I := fun st : opt_map m => Ia (om_some m st) /\ Ib (o_pb st)).
    assert (part : forall k : option K, (exists a, k = Some a) \/ (exists b : unit, k = None)).
    { intros [k|]; [left|right]; [exists k|exists tt]; reflexivity. }
    assert (disj : forall (a : K) (b : unit), Some a <> None) by (intros; discriminate).
    assert (Wa : forall st, Ia st -> whole m Ia st).
    { intros st Hs. apply steps_whole; [intros o; apply Sa; auto|intros; apply Ra; auto]. }
    assert (Wb : forall st, Ib st -> whole sm Ib st).
    { intros st Hs. apply steps_whole; [intros o; apply Sb; auto|intros; apply Rb; auto]. }
    apply (acts_intro om I).
    - intros w. destruct (Na (sub_world 0 w)) as [H1 H2], (Nb w) as [H3 _]. split; [split; auto|].
      intros [k|]; [apply H2|reflexivity].
    - intros st Hi.
      apply (join_whole opt_route_some opt_route_none part disj (fun _ _ => eq_refl)
               (fun _ _ => eq_refl) Ia Ib I (fun st => iff_refl _)); auto.
      + intros X f x s. simpl. unfold om_retain, sm_retain, o_ua, o_ub, o_pb. simpl.
        destruct (ms_retain m (fun s k v => f s (Some k) v) x (om_some m s)) as [[x1 s1] []]; auto.
        destruct (om_none m s) as [v|]; simpl; auto. destruct (f x1 None v) as [[? ?] []]; reflexivity.
      + apply (Wa _ (proj1 Hi)).
      + apply (Wb _ (proj2 Hi)).
      + destruct (wh_iter _ _ _ (Wa _ (proj1 Hi))) as (la & L1 & G1).
        destruct (wh_iter _ _ _ (Wb _ (proj2 Hi))) as (lb & L2 & _).
        exists (jl Some la ++ jl (fun _ => None) (olist (option_map (pair tt) (om_none m st)))).
        split.
        * apply (join_lists opt_route_some opt_route_none part disj); auto.
          split; simpl.
          -- destruct (om_none m st); simpl; constructor; auto. constructor.
          -- intros [] v. unfold map_get. simpl. destruct (om_none m st); simpl; split.
             ++ intros [[= ->]|[]]. reflexivity.
             ++ intros [= ->]. auto.
             ++ intros [].
             ++ discriminate.
        * refine (chain_gives (map_it _ _) (map_it _ _) _ _ _ _
                    (map_gives (fun e : K * V => (Some (fst e), snd e)) (ms_Iter m) _ _ G1) _).
          pose proof (map_gives (fun v => (@None K, v)) _ _ _ (opt_gives (om_none m st))) as G2.
          destruct (om_none m st); exact G2.
      + destruct (wh_iter_mut _ _ _ (Wa _ (proj1 Hi))) as (la & G1 & W1).
        destruct (wh_iter_mut _ _ _ (Wb _ (proj2 Hi))) as (lb & G2 & W2).
        assert (Eb : lb = olist (option_map (fun v => (tt, v)) (opt_as_mut [] (om_none m st)))).
        { apply gives_yields in G2 as [n G2]. specialize (G2 (S (S n)) ltac:(lia)). simpl in G2.
          destruct (om_none m st); simpl in G2; injection G2 as <-; reflexivity. }
        exists (map (fun e => (Some (fst e), 0 :: snd e)) la ++
                map (fun e => (None, 1 :: snd e)) lb). split.
        * refine (chain_gives (map_it _ _) (map_it _ _) _ _ _ _
                    (map_gives (fun e : K * ref => (Some (fst e), 0 :: snd e)) (ms_IterMut m) _ _ G1) _).
          pose proof (map_gives (fun v => (@None K, v)) _ _ _
                           (opt_gives (opt_as_mut om_path_none (om_none m st)))) as G3.
          rewrite Eb. destruct (om_none m st); exact G3.
        * apply (join_write opt_route_some opt_route_none part (fun _ _ => eq_refl)
                   (fun _ _ => eq_refl) Ia Ib I (fun st => iff_refl _)); auto.
    - intros st o Hi Ho.
      apply (join_keyed opt_route_some opt_route_none part disj (fun _ _ => eq_refl)
               (fun _ _ => eq_refl) Ia Ib I (fun st => iff_refl _)); auto.
      + intros o'. apply Sa. apply Hi.
      + intros o'. apply Sb. apply Hi.
  Qed.
End OptionActs.

(** * Enums with tuple variants *)

Lemma entry_map_map {A B A' B' A'' B''} (f : A' -> A'') (g : B' -> B'') (f' : A -> A') (g' : B -> B') r :
  res_map (entry_map f g) (res_map (entry_map f' g') r) =
  res_map (entry_map (fun x => f (f' x)) (fun x => g (g' x))) r.
Proof. destruct r as [[]| | |]; reflexivity. Qed.

Section EnumActs.
  Context {V : Type}.

  Lemma arms_map {R A B A' B'} (f : A -> A') (g : B -> B') (fs : fields R) :
    forall i simple simple' occ vac occ' vac' st k,
    (forall j, simple' [S j] = res_map (entry_map f g) (simple [j])) ->
    (forall c, occ' c = f (occ c)) -> (forall c, vac' c = g (vac c)) ->
    any_entry_arms V fs (S i) simple' occ' vac' st k =
    res_map (entry_map f g) (any_entry_arms V fs i simple occ vac st k).
  Proof.
    induction fs as [|R fs IH|K R ki fs IH]; intros i simple simple' occ vac occ' vac' st k Hs Ho Hv.
    - destruct k.
    - destruct k as [k|k]; simpl; auto.
    - destruct k as [k|k]; simpl.
      + destruct (ms_entry (ki_map ki V) (fst st) k) as [[o|v]| | |]; simpl; auto.
        * rewrite Ho. reflexivity.
        * rewrite Hv. reflexivity.
      + apply IH; auto.
  Qed.

  Lemma cell_get_root {R} (fs : fields R) st : any_cell_get V fs st [] = None.
  Proof. destruct fs; reflexivity. Qed.
  Lemma cell_set_root {R} (fs : fields R) st o : any_cell_set V fs st [] o = None.
  Proof. destruct fs; reflexivity. Qed.
  Lemma load_root {R} (fs : fields R) st : any_load V fs st [] = None.
  Proof. destruct fs; reflexivity. Qed.
  Lemma store_root {R} (fs : fields R) st v : any_store V fs st [] v = None.
  Proof. destruct fs; reflexivity. Qed.

  Definition key_at {A B X} (g : A -> B) (h : X -> X) (b : keyed A X) : keyed B X :=
    MkKeyed (g (kb_key b)) (h (kb_inner b)).

  Section UnitField.
    Context {R : Type} (fs : fields R).
    Notation em := (any_map_storage V (FUnit fs)).
    Notation rm := (any_map_storage V fs).
    Notation sm := (single_map_storage V).

    Definition u_pa (st : any_map V (FUnit fs)) : single_map V := MkSingleMap (fst st).
    Definition u_ua (st : any_map V (FUnit fs)) (s : single_map V) : any_map V (FUnit fs) :=
      (sm_inner s, snd st).
    Definition u_pb (st : any_map V (FUnit fs)) : any_map V fs := snd st.
    Definition u_ub (st : any_map V (FUnit fs)) (s : any_map V fs) : any_map V (FUnit fs) :=
      (fst st, s).

    Lemma u_get_a st r : cell_get (any_cells V (FUnit fs)) st (0 :: r) = cell_get sm_cells (u_pa st) r.
    Proof. destruct r; reflexivity. Qed.
    Lemma u_set_a st r o : cell_set (any_cells V (FUnit fs)) st (0 :: r) o =
      option_map (u_ua st) (cell_set sm_cells (u_pa st) r o).
    Proof. destruct r; reflexivity. Qed.
    Lemma u_pua st s : u_pa (u_ua st s) = s.
    Proof. destruct s; reflexivity. Qed.

    Lemma unit_route_a :
      routes em sm inl (cons 0) u_pa u_ua
        (fun b => inl (MkKeyed (inl tt) (some_at (cons 0) b)))
        (fun b => inl (MkKeyed (inl tt) (none_at (cons 0) b))).
    Proof.
      constructor.
      - apply u_pua.
      - intros st s s'. reflexivity.
      - intros [? ?]; reflexivity.
      - intros [] []; reflexivity.
      - reflexivity.
      - intros st s [[]|k'] Hk; [destruct (Hk tt eq_refl)|reflexivity].
      - reflexivity.
      - intros [o r] k. simpl. destruct o; reflexivity.
      - reflexivity.
      - reflexivity.
      - intros [o r] [|i p]; simpl; try reflexivity. unfold cell_load. simpl. destruct o; reflexivity.
      - intros [o r] [|i p] v; simpl; try reflexivity. unfold cell_store. simpl. destruct o; reflexivity.
      - intros st []. unfold ms_entry, any_map_storage, single_map_storage, any_entry, sm_entry. simpl.
        unfold any_option_to_entry. rewrite (bucket_new_at _ sm_cells (cons 0) u_pa u_get_a).
        destruct (option_bucket_new sm_cells (u_pa st) []) as [[b|b]| | |]; reflexivity.
      - reflexivity.
      - intros st o. apply (some_as_mut_at _ _ (cons 0) u_pa). apply u_get_a.
      - intros st o. apply (some_into_mut_at _ _ (cons 0) u_pa). apply u_get_a.
      - intros st o v. apply (some_replace_at _ _ (cons 0) u_pa u_ua).
        + apply u_get_a.
        + apply u_set_a.
      - intros st o. apply (some_take_at _ _ (cons 0) u_pa u_ua).
        + apply u_get_a.
        + apply u_set_a.
      - intros st []. reflexivity.
      - intros st x v. apply (none_insert_at _ _ (cons 0) u_pa u_ua).
        + apply u_get_a.
        + apply u_set_a.
        + apply u_pua.
    Qed.

    Lemma u_get_b st r : cell_get (any_cells V (FUnit fs)) st (shift_ref r) =
      cell_get (any_cells V fs) (u_pb st) r.
    Proof. destruct r; simpl; [rewrite cell_get_root|]; reflexivity. Qed.
    Lemma u_set_b st r o : cell_set (any_cells V (FUnit fs)) st (shift_ref r) o =
      option_map (u_ub st) (cell_set (any_cells V fs) (u_pb st) r o).
    Proof. destruct r; simpl; [rewrite cell_set_root|]; reflexivity. Qed.

    Definition u_ob (o : any_occ V fs) : any_occ V (FUnit fs) :=
      match o with inl b => inl (key_at inr (some_at shift_ref) b) | inr c => inr c end.
    Definition u_vb (o : any_vac V fs) : any_vac V (FUnit fs) :=
      match o with inl b => inl (key_at inr (none_at shift_ref) b) | inr c => inr c end.

    Lemma unit_route_b : routes em rm inr shift_ref u_pb u_ub u_ob u_vb.
    Proof.
      constructor.
      - reflexivity.
      - reflexivity.
      - intros [? ?]; reflexivity.
      - congruence.
      - reflexivity.
      - intros st s [[]|k'] Hk; [reflexivity|destruct (Hk k' eq_refl)].
      - reflexivity.
      - reflexivity.
      - reflexivity.
      - reflexivity.
      - intros st [|i p]; simpl; [rewrite load_root|]; reflexivity.
      - intros st [|i p] v; simpl; [rewrite store_root|]; reflexivity.
      - intros st k. unfold ms_entry, any_map_storage, any_entry. simpl.
        apply arms_map; try reflexivity. intros j. unfold any_option_to_entry.
        change [S j] with (shift_ref [j]).
        rewrite (bucket_new_at _ (any_cells V fs) shift_ref u_pb u_get_b).
        destruct (option_bucket_new (any_cells V fs) (u_pb st) [j]) as [[b|b]| | |]; reflexivity.
      - intros st [b|c]; reflexivity.
      - intros st [b|c]; simpl; auto. apply (some_as_mut_at _ _ shift_ref u_pb). apply u_get_b.
      - intros st [b|c]; simpl; auto. apply (some_into_mut_at _ _ shift_ref u_pb). apply u_get_b.
      - intros st [b|c] v; simpl.
        + apply (some_replace_at _ _ shift_ref u_pb u_ub); [apply u_get_b|apply u_set_b].
        + unfold u_pb. destruct (any_occ_insert_cx V fs (snd st) c v) as [[? ?]| | |]; reflexivity.
      - intros st [b|c]; simpl.
        + apply (some_take_at _ _ shift_ref u_pb u_ub); [apply u_get_b|apply u_set_b].
        + unfold u_pb. destruct (any_occ_remove_cx V fs (snd st) c) as [[? ?]| | |]; reflexivity.
      - intros st [b|c]; reflexivity.
      - intros st [b|c] v; simpl.
        + apply (none_insert_at _ _ shift_ref u_pb u_ub); [apply u_get_b|apply u_set_b|reflexivity].
        + unfold u_pb. destruct (any_vac_insert_cx V fs (snd st) c v) as [[? ?]| | |]; reflexivity.
    Qed.
  End UnitField.

  Section TupleField.
    Context {K R : Type} (ki : KeyImpl K) (fs : fields R).
    Notation em := (any_map_storage V (FTuple ki fs)).
    Notation rm := (any_map_storage V fs).
    Notation km := (ki_map ki V).

    Definition t_pa (st : any_map V (FTuple ki fs)) : ms_St km := fst st.
    Definition t_ua (st : any_map V (FTuple ki fs)) (s : ms_St km) : any_map V (FTuple ki fs) :=
      (s, snd st).
    Definition t_pb (st : any_map V (FTuple ki fs)) : any_map V fs := snd st.
    Definition t_ub (st : any_map V (FTuple ki fs)) (s : any_map V fs) : any_map V (FTuple ki fs) :=
      (fst st, s).

    Lemma tuple_route_a :
      routes em km inl (cons 0) t_pa t_ua (fun o => inr (inl o)) (fun o => inr (inl o)).
    Proof.
      constructor; try reflexivity.
      - intros [? ?]; reflexivity.
      - congruence.
      - intros st s [k'|k'] Hk; [destruct (Hk k' eq_refl)|reflexivity].
      - intros st o v; simpl; unfold t_pa; destruct (ms_occ_insert km (fst st) o v) as [[? ?]| | |]; reflexivity.
      - intros st o; simpl; unfold t_pa; destruct (ms_occ_remove km (fst st) o) as [[? ?]| | |]; reflexivity.
      - intros st x v; simpl; unfold t_pa; destruct (ms_vac_insert km (fst st) x v) as [[? ?]| | |]; reflexivity.
    Qed.

    Lemma t_get_b st r : cell_get (any_cells V (FTuple ki fs)) st (shift_ref r) =
      cell_get (any_cells V fs) (t_pb st) r.
    Proof. destruct r; simpl; [rewrite cell_get_root|]; reflexivity. Qed.
    Lemma t_set_b st r o : cell_set (any_cells V (FTuple ki fs)) st (shift_ref r) o =
      option_map (t_ub st) (cell_set (any_cells V fs) (t_pb st) r o).
    Proof. destruct r; simpl; [rewrite cell_set_root|]; reflexivity. Qed.

    Definition t_ob (o : any_occ V fs) : any_occ V (FTuple ki fs) :=
      match o with inl b => inl (key_at inr (some_at shift_ref) b) | inr c => inr (inr c) end.
    Definition t_vb (o : any_vac V fs) : any_vac V (FTuple ki fs) :=
      match o with inl b => inl (key_at inr (none_at shift_ref) b) | inr c => inr (inr c) end.

    Lemma tuple_route_b : routes em rm inr shift_ref t_pb t_ub t_ob t_vb.
    Proof.
      constructor.
      - reflexivity.
      - reflexivity.
      - intros [? ?]; reflexivity.
      - congruence.
      - reflexivity.
      - intros st s [k'|k'] Hk; [reflexivity|destruct (Hk k' eq_refl)].
      - reflexivity.
      - reflexivity.
      - reflexivity.
      - reflexivity.
      - intros st [|i p]; simpl; [rewrite load_root|]; reflexivity.
      - intros st [|i p] v; simpl; [rewrite store_root|]; reflexivity.
      - intros st k. unfold ms_entry, any_map_storage, any_entry. simpl.
        apply arms_map; try reflexivity. intros j. unfold any_option_to_entry.
        change [S j] with (shift_ref [j]).
        rewrite (bucket_new_at _ (any_cells V fs) shift_ref t_pb t_get_b).
        destruct (option_bucket_new (any_cells V fs) (t_pb st) [j]) as [[b|b]| | |]; reflexivity.
      - intros st [b|c]; reflexivity.
      - intros st [b|c]; simpl; auto. apply (some_as_mut_at _ _ shift_ref t_pb). apply t_get_b.
      - intros st [b|c]; simpl; auto. apply (some_into_mut_at _ _ shift_ref t_pb). apply t_get_b.
      - intros st [b|c] v; simpl.
        + apply (some_replace_at _ _ shift_ref t_pb t_ub); [apply t_get_b|apply t_set_b].
        + unfold t_pb. destruct (any_occ_insert_cx V fs (snd st) c v) as [[? ?]| | |]; reflexivity.
      - intros st [b|c]; simpl.
        + apply (some_take_at _ _ shift_ref t_pb t_ub); [apply t_get_b|apply t_set_b].
        + unfold t_pb. destruct (any_occ_remove_cx V fs (snd st) c) as [[? ?]| | |]; reflexivity.
      - intros st [b|c]; reflexivity.
      - intros st [b|c] v; simpl.
        + apply (none_insert_at _ _ shift_ref t_pb t_ub); [apply t_get_b|apply t_set_b|reflexivity].
        + unfold t_pb. destruct (any_vac_insert_cx V fs (snd st) c v) as [[? ?]| | |]; reflexivity.
    Qed.
  End TupleField.

  (** What the induction over the variants carries: the calls, and the iterators
      whatever the number of the first field and the name of the variants. *)
  Record fgood {R} (fs : fields R) (I : any_map V fs -> Prop) : Prop := MkFgood {
    fg_new : forall i w, I (any_empty V fs i w) /\ forall k, any_get V fs (any_empty V fs i w) k = None;
    fg_whole : forall st, I st -> whole (any_map_storage V fs) I st;
    fg_keyed : forall st o, I st -> is_whole o = false -> steps (any_map_storage V fs) I st o;
    fg_iter : forall st, I st -> exists l, lists (any_get V fs st) l /\
      forall T (inj : R -> T) i, exists ll,
        from_gives (field_its pair_simple (iter_cx V) i fs inj) 0
          (field_init (Cx := cx_map V) pair_simple (iter_cx V) (fun _ _ o => o)
             (fun _ K ki _ s => ms_iter (ki_map ki V) s) i fs inj st) ll /\
        concat ll = jl inj l;
    fg_iter_mut : forall st, I st -> exists l,
      (forall T (inj : R -> T) i, exists ll,
        from_gives (field_its pair_simple (iter_mut_cx V) i fs inj) 0
          (field_init (Cx := cx_map V) pair_simple (iter_mut_cx V) (fun i _ o => opt_as_mut [i] o)
             (fun _ K ki _ s => ms_iter_mut (ki_map ki V) s) i fs inj st) ll /\
        concat ll = map (fun e => (inj (fst e), add_ref i (snd e))) l) /\
      forall g, exists st', write_all (any_map_storage V fs) g l st = Ok st' /\ I st' /\
        forall k, any_get V fs st' k = option_map (g k) (any_get V fs st k)
  }.

  Lemma jl_id {X Z} (l : list (X * Z)) : jl (fun k => k) l = l.
  Proof. unfold jl. rewrite <- (map_id l) at 2. apply map_ext. intros []; reflexivity. Qed.

  Lemma add_ref_id {X} (l : list (X * ref)) : map (fun e => (fst e, add_ref 0 (snd e))) l = l.
  Proof. rewrite <- (map_id l) at 2. apply map_ext. intros [x [|i r]]; reflexivity. Qed.

  (** The iterators of the whole, from those of the fields. *)
  Lemma iter_of_fields {R} (fs : fields R) st l :
    (forall T (inj : R -> T) i, exists ll,
        from_gives (field_its pair_simple (iter_cx V) i fs inj) 0
          (field_init (Cx := cx_map V) pair_simple (iter_cx V) (fun _ _ o => o)
             (fun _ K ki _ s => ms_iter (ki_map ki V) s) i fs inj st) ll /\
        concat ll = jl inj l) ->
    gives (ms_Iter (any_map_storage V fs)) (ms_iter (any_map_storage V fs) st) l.
  Proof.
    intros H. destruct (H R (fun k => k) 0) as (ll & F & E). rewrite jl_id in E. rewrite <- E.
    apply (struct_gives (field_its pair_simple (iter_cx V) 0 fs (fun k => k))).
    - symmetry. apply field_its_len.
    - exact F.
  Qed.

  Lemma iter_mut_of_fields {R} (fs : fields R) st l :
    (forall T (inj : R -> T) i, exists ll,
        from_gives (field_its pair_simple (iter_mut_cx V) i fs inj) 0
          (field_init (Cx := cx_map V) pair_simple (iter_mut_cx V) (fun i _ o => opt_as_mut [i] o)
             (fun _ K ki _ s => ms_iter_mut (ki_map ki V) s) i fs inj st) ll /\
        concat ll = map (fun e => (inj (fst e), add_ref i (snd e))) l) ->
    gives (ms_IterMut (any_map_storage V fs)) (ms_iter_mut (any_map_storage V fs) st) l.
  Proof.
    intros H. destruct (H R (fun k => k) 0) as (ll & F & E). rewrite add_ref_id in E. rewrite <- E.
    apply (struct_gives (field_its pair_simple (iter_mut_cx V) 0 fs (fun k => k))).
    - symmetry. apply field_its_len.
    - exact F.
  Qed.

  Lemma nil_good : fgood FNil (fun _ => True).
  Proof.
    constructor.
    - intros i w. split; [exact I|intros []].
    - intros st _. constructor.
      + exists []. split; [split; [constructor|intros []]|reflexivity].
      + split; [intros _ []|reflexivity].
      + split; [exact I|intros []].
      + exists []. split; [split; [constructor|intros []]|].
        apply (gv_nil (struct_it []) (0, 0, tt) (0, 0, tt)). reflexivity.
      + exists []. split; [apply (gv_nil (struct_it []) (0, 0, tt) (0, 0, tt)); reflexivity|].
        intros g. exists st. split; [reflexivity|]. split; [exact I|intros []].
      + intros X f x. exists [], x, st, [], Done. split; [reflexivity|]. split; [exact I|].
        split; [split; [constructor|intros []]|]. split; [reflexivity|].
        split; [constructor|intros []].
    - intros st o _ Ho. destruct o; try discriminate; match goal with k : Empty_set |- _ => destruct k end.
    - intros st _. exists []. split; [split; [constructor|intros []]|].
      intros T inj i. exists []. split; reflexivity.
    - intros st _. exists []. split.
      + intros T inj i. exists []. split; reflexivity.
      + intros g. exists st. split; [reflexivity|]. split; [exact I|intros []].
  Qed.

  Lemma sum_part {A B} (k : A + B) : (exists a, k = inl a) \/ (exists b, k = inr b).
  Proof. destruct k; eauto. Qed.
  Lemma sum_disj {A B} (a : A) (b : B) : inl a <> inr b.
  Proof. discriminate. Qed.

  Lemma unit_good {R} (fs : fields R) Ib : fgood fs Ib -> exists I, fgood (FUnit fs) I.
  Proof.
    intros F. destruct (laws_act (single_laws V)) as (Ia & Na & Sa & Ra).
    set (I := fun st : any_map V (FUnit fs) => Ia (u_pa fs st) /\ Ib (u_pb fs st)).
    assert (Wa : forall st, Ia st -> whole (single_map_storage V) Ia st).
    { intros st Hs. apply steps_whole; [intros o; apply Sa; auto|intros; apply Ra; auto]. }
    assert (It : forall st, I st -> exists l, lists (any_get V (FUnit fs) st) l /\
      forall T (inj : unit + R -> T) i, exists ll,
        from_gives (field_its pair_simple (iter_cx V) i (FUnit fs) inj) 0
          (field_init (Cx := cx_map V) pair_simple (iter_cx V) (fun _ _ o => o)
             (fun _ K ki _ s => ms_iter (ki_map ki V) s) i (FUnit fs) inj st) ll /\
        concat ll = jl inj l).
    { intros st [Hi1 Hi2]. destruct (fg_iter _ _ F _ Hi2) as (lb & L2 & G2).
      set (la := olist (option_map (pair tt) (fst st))).
      exists (jl inl la ++ jl inr lb). split.
      - apply (join_lists (unit_route_a fs) (unit_route_b fs) sum_part sum_disj st la lb); auto.
        unfold la. split.
        + destruct (fst st); simpl; constructor; auto. constructor.
        + intros [] v. change (map_get (single_map_storage V) (u_pa fs st) tt) with (fst st).
          destruct (fst st); simpl; split.
          * intros [[= ->]|[]]. reflexivity.
          * intros [= ->]. auto.
          * intros [].
          * discriminate.
      - intros T inj i. destruct (G2 T (fun k => inj (inr k)) (S i)) as (ll & G & E).
        exists (jl (fun k => inj (inl k)) la :: ll). split.
        + exists (jl (fun k => inj (inl k)) la), ll. split; [reflexivity|]. split; [|exact G].
          pose proof (map_gives (fun x => (inj (inl tt), x)) _ _ _ (opt_gives (fst st))) as G1.
          unfold la. destruct st as [[v|] r]; exact G1.
        + simpl. rewrite E. unfold jl. rewrite map_app, !map_map. reflexivity. }
    assert (Mu : forall st, I st -> exists l,
      (forall T (inj : unit + R -> T) i, exists ll,
        from_gives (field_its pair_simple (iter_mut_cx V) i (FUnit fs) inj) 0
          (field_init (Cx := cx_map V) pair_simple (iter_mut_cx V) (fun i _ o => opt_as_mut [i] o)
             (fun _ K ki _ s => ms_iter_mut (ki_map ki V) s) i (FUnit fs) inj st) ll /\
        concat ll = map (fun e => (inj (fst e), add_ref i (snd e))) l) /\
      forall g, exists st', write_all (any_map_storage V (FUnit fs)) g l st = Ok st' /\ I st' /\
        forall k, any_get V (FUnit fs) st' k = option_map (g k) (any_get V (FUnit fs) st k)).
    { intros st Hi. pose proof Hi as [Hi1 Hi2]. destruct (fg_iter_mut _ _ F _ Hi2) as (lb & G2 & W2).
      destruct (wh_iter_mut _ _ _ (Wa _ Hi1)) as (la & G1 & W1).
      assert (Ea : la = olist (option_map (fun v => (tt, v)) (opt_as_mut [] (fst st)))).
      { apply gives_yields in G1 as [n G1]. specialize (G1 (S (S n)) ltac:(lia)). simpl in G1.
        destruct (fst st); simpl in G1; injection G1 as <-; reflexivity. }
      exists (map (fun e => (inl (fst e), 0 :: snd e)) la ++
              map (fun e => (inr (fst e), shift_ref (snd e))) lb). split.
      - intros T inj i. destruct (G2 T (fun k => inj (inr k)) (S i)) as (ll & G & E).
        exists (map (fun e => (inj (inl (fst e)), i :: snd e)) la :: ll). split.
        + exists (map (fun e => (inj (inl (fst e)), i :: snd e)) la), ll.
          split; [reflexivity|]. split; [|exact G].
          pose proof (map_gives (fun x => (inj (inl tt), x)) _ _ _ (opt_gives (opt_as_mut [i] (fst st)))) as G3.
          rewrite Ea. destruct st as [[v|] r]; exact G3.
        + simpl. rewrite E, map_app, !map_map. f_equal.
          * apply map_ext. intros [k r]. simpl. rewrite Nat.add_0_r. reflexivity.
          * apply map_ext. intros [k r]. simpl. rewrite add_shift. reflexivity.
      - apply (join_write (unit_route_a fs) (unit_route_b fs) sum_part (fun _ _ => eq_refl)
                 (fun _ _ => eq_refl) Ia Ib I (fun st => iff_refl _)); auto. }
    exists I. constructor; auto.
    - intros i w. destruct (Na w) as [H1 _], (fg_new _ _ F (S i) w) as [H3 H4].
      split; [split; [exact H1|exact H3]|]. intros [[]|k]; [reflexivity|apply H4].
    - intros st Hi.
      apply (join_whole (unit_route_a fs) (unit_route_b fs) sum_part sum_disj (fun _ _ => eq_refl)
               (fun _ _ => eq_refl) Ia Ib I (fun st => iff_refl _)).
      + intros s. simpl. rewrite any_len_acc. reflexivity.
      + intros s. simpl. rewrite any_is_empty_acc. reflexivity.
      + reflexivity.
      + intros X f x s. simpl. unfold sm_retain, u_pa, u_pb, u_ua, u_ub, retain_cell. simpl.
        destruct (fst s) as [v|]; simpl.
        * destruct (f x (inl tt) v) as [[x1 v1] []]; auto; rewrite any_retain_inj;
            destruct (any_retain V _ fs _ x1 (snd s)) as [[? ?] ?]; reflexivity.
        * rewrite any_retain_inj; destruct (any_retain V _ fs _ x (snd s)) as [[? ?] ?]; reflexivity.
      + exact Hi.
      + apply Wa. apply Hi.
      + apply (fg_whole _ _ F). apply Hi.
      + destruct (It st Hi) as (l & L & G). exists l. split; [exact L|]. apply iter_of_fields. exact G.
      + destruct (Mu st Hi) as (l & G & W). exists l. split; [|exact W]. apply iter_mut_of_fields. exact G.
    - intros st o Hi Ho.
      apply (join_keyed (unit_route_a fs) (unit_route_b fs) sum_part sum_disj (fun _ _ => eq_refl)
               (fun _ _ => eq_refl) Ia Ib I (fun st => iff_refl _)); auto.
      + intros o'. apply Sa. apply Hi.
      + intros o'. destruct (is_whole o') eqn:E.
        * apply (whole_steps (any_map_storage V fs) Ib); [apply Hi|apply (fg_whole _ _ F); apply Hi|exact E].
        * apply (fg_keyed _ _ F); [apply Hi|exact E].
  Qed.

  Lemma tuple_good {K R} (ki : KeyImpl K) (fs : fields R) Ib :
    acts_as_map (ki_map ki V) -> fgood fs Ib -> exists I, fgood (FTuple ki fs) I.
  Proof.
    intros (Ia & Na & Sa & Ra) F.
    set (I := fun st : any_map V (FTuple ki fs) => Ia (t_pa ki fs st) /\ Ib (t_pb ki fs st)).
    assert (Wa : forall st, Ia st -> whole (ki_map ki V) Ia st).
    { intros st Hs. apply steps_whole; [intros o; apply Sa; auto|intros; apply Ra; auto]. }
    assert (It : forall st, I st -> exists l, lists (any_get V (FTuple ki fs) st) l /\
      forall T (inj : K + R -> T) i, exists ll,
        from_gives (field_its pair_simple (iter_cx V) i (FTuple ki fs) inj) 0
          (field_init (Cx := cx_map V) pair_simple (iter_cx V) (fun _ _ o => o)
             (fun _ K ki _ s => ms_iter (ki_map ki V) s) i (FTuple ki fs) inj st) ll /\
        concat ll = jl inj l).
    { intros st [Hi1 Hi2]. destruct (fg_iter _ _ F _ Hi2) as (lb & L2 & G2).
      destruct (wh_iter _ _ _ (Wa _ Hi1)) as (la & L1 & G1).
      exists (jl inl la ++ jl inr lb). split.
      - apply (join_lists (tuple_route_a ki fs) (tuple_route_b ki fs) sum_part sum_disj st la lb); auto.
      - intros T inj i. destruct (G2 T (fun k => inj (inr k)) (S i)) as (ll & G & E).
        exists (jl (fun k => inj (inl k)) la :: ll). split.
        + exists (jl (fun k => inj (inl k)) la), ll. split; [reflexivity|]. split; [|exact G].
          exact (map_gives (fun e : K * V => (inj (inl (fst e)), snd e)) _ _ _ G1).
        + simpl. rewrite E. unfold jl. rewrite map_app, !map_map. reflexivity. }
    assert (Mu : forall st, I st -> exists l,
      (forall T (inj : K + R -> T) i, exists ll,
        from_gives (field_its pair_simple (iter_mut_cx V) i (FTuple ki fs) inj) 0
          (field_init (Cx := cx_map V) pair_simple (iter_mut_cx V) (fun i _ o => opt_as_mut [i] o)
             (fun _ K ki _ s => ms_iter_mut (ki_map ki V) s) i (FTuple ki fs) inj st) ll /\
        concat ll = map (fun e => (inj (fst e), add_ref i (snd e))) l) /\
      forall g, exists st', write_all (any_map_storage V (FTuple ki fs)) g l st = Ok st' /\ I st' /\
        forall k, any_get V (FTuple ki fs) st' k = option_map (g k) (any_get V (FTuple ki fs) st k)).
    { intros st Hi. pose proof Hi as [Hi1 Hi2]. destruct (fg_iter_mut _ _ F _ Hi2) as (lb & G2 & W2).
      destruct (wh_iter_mut _ _ _ (Wa _ Hi1)) as (la & G1 & W1).
      exists (map (fun e => (inl (fst e), 0 :: snd e)) la ++
              map (fun e => (inr (fst e), shift_ref (snd e))) lb). split.
      - intros T inj i. destruct (G2 T (fun k => inj (inr k)) (S i)) as (ll & G & E).
        exists (map (fun e => (inj (inl (fst e)), i :: snd e)) la :: ll). split.
        + exists (map (fun e => (inj (inl (fst e)), i :: snd e)) la), ll.
          split; [reflexivity|]. split; [|exact G].
          exact (map_gives (fun e : K * ref => (inj (inl (fst e)), i :: snd e)) _ _ _ G1).
        + simpl. rewrite E, map_app, !map_map. f_equal.
          * apply map_ext. intros [k r]. simpl. rewrite Nat.add_0_r. reflexivity.
          * apply map_ext. intros [k r]. simpl. rewrite add_shift. reflexivity.
      - apply (join_write (tuple_route_a ki fs) (tuple_route_b ki fs) sum_part (fun _ _ => eq_refl)
                 (fun _ _ => eq_refl) Ia Ib I (fun st => iff_refl _)); auto. }
    exists I. constructor; auto.
    - intros i w. destruct (Na (sub_world i w)) as [H1 H2], (fg_new _ _ F (S i) w) as [H3 H4].
      split; [split; [exact H1|exact H3]|]. intros [k|k]; [apply H2|apply H4].
    - intros st Hi.
      apply (join_whole (tuple_route_a ki fs) (tuple_route_b ki fs) sum_part sum_disj (fun _ _ => eq_refl)
               (fun _ _ => eq_refl) Ia Ib I (fun st => iff_refl _)).
      + intros s. simpl. rewrite any_len_acc. reflexivity.
      + intros s. simpl. rewrite any_is_empty_acc. reflexivity.
      + reflexivity.
      + intros X f x s. simpl. unfold t_pa, t_pb, t_ua, t_ub. simpl.
        destruct (ms_retain (ki_map ki V) _ x (fst s)) as [[x1 s1] []]; auto.
        rewrite any_retain_inj; destruct (any_retain V _ fs _ x1 (snd s)) as [[? ?] ?]; reflexivity.
      + exact Hi.
      + apply Wa. apply Hi.
      + apply (fg_whole _ _ F). apply Hi.
      + destruct (It st Hi) as (l & L & G). exists l. split; [exact L|]. apply iter_of_fields. exact G.
      + destruct (Mu st Hi) as (l & G & W). exists l. split; [|exact W]. apply iter_mut_of_fields. exact G.
    - intros st o Hi Ho.
      apply (join_keyed (tuple_route_a ki fs) (tuple_route_b ki fs) sum_part sum_disj (fun _ _ => eq_refl)
               (fun _ _ => eq_refl) Ia Ib I (fun st => iff_refl _)); auto.
      + intros o'. apply Sa. apply Hi.
      + intros o'. destruct (is_whole o') eqn:E.
        * apply (whole_steps (any_map_storage V fs) Ib); [apply Hi|apply (fg_whole _ _ F); apply Hi|exact E].
        * apply (fg_keyed _ _ F); [apply Hi|exact E].
  Qed.

  Lemma enum_good {R} (fs : fields R) : payloads_act V fs -> exists I, fgood fs I.
  Proof.
    induction fs as [|R fs IH|K R ki fs IH]; intros H.
    - exists (fun _ => True). apply nil_good.
    - destruct (IH H) as (I & F). exact (unit_good fs I F).
    - destruct H as [H1 H2]. destruct (IH H2) as (I & F). exact (tuple_good ki fs I H1 F).
  Qed.

  Lemma enum_acts {R} (fs : fields R) : payloads_act V fs -> acts_as_map (any_map_storage V fs).
  Proof.
    intros H. destruct (enum_good fs H) as (I & F). apply (acts_intro (any_map_storage V fs) I).
    - intros w. apply (fg_new _ _ F).
    - apply (fg_whole _ _ F).
    - intros st o. apply (fg_keyed _ _ F).
  Qed.
End EnumActs.

(** * Whole programs *)

Lemma acts_history {K V} (m : MapStorage K V) : acts_as_map m -> forall w ops,
  exists xs st n0, (forall n, n0 <= n -> run_ops m n (map_new m w) ops = Ok (xs, st)) /\
    spec_ops (fun _ => None) ops xs (map_get m st).
Proof.
  intros (I & N & S & _) w ops. destruct (N w) as [Hi He].
  assert (G : forall ops st, I st -> exists xs st' n0,
    (forall n, n0 <= n -> run_ops m n st ops = Ok (xs, st')) /\
    spec_ops (map_get m st) ops xs (map_get m st')).
  { clear w ops Hi He. induction ops as [|o ops IH]; intros st Hi.
    - exists [], st, 0. split; [reflexivity|]. intros k; reflexivity.
    - destruct (S st o Hi) as (x & st1 & n1 & E1 & H1 & S1).
      destruct (IH st1 H1) as (xs & st2 & n2 & E2 & S2).
      exists (x :: xs), st2, (n1 + n2). split.
      + intros n Hn. simpl. rewrite E1 by lia. simpl. rewrite E2 by lia. reflexivity.
      + exists (map_get m st1). split; assumption. }
  destruct (G ops (map_new m w) Hi) as (xs & st & n0 & E & Sp).
  exists xs, st, n0. split; [exact E|]. exact (spec_ops_ext _ _ _ _ _ He Sp).
Qed.

Lemma enum_acts' R V (fs : fields R) : payloads_act V fs -> acts_as_map (any_map_storage V fs).
Proof. apply enum_acts. Qed.

Lemma builtin_acts t ki V : derive t = Some ki -> acts_as_map (ki_map ki V).
Proof. intros D. exact (laws_act (derive_map_laws t ki V D)). Qed.
