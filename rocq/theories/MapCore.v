(** Laws of the basic map operations and how they are built up: an option place,
    the empty storage, and two storages side by side. *)
Require Import List Arith Bool Lia Permutation Sorted.
Import ListNotations.
From Verif Require Import Std Traits DeriveAny Spec.

(** An entry with the reference to its value. *)
Notation ent K V := (K * V * ref)%type (only parsing).
Definition ekey {K V} (e : ent K V) : K := fst (fst e).
Definition evalue {K V} (e : ent K V) : V := snd (fst e).
Definition eref {K V} (e : ent K V) : ref := snd e.

Fixpoint lookup {K V} (keqb : K -> K -> bool) (k : K) (l : list (ent K V))
  : option (V * ref) :=
  match l with
  | [] => None
  | (k', v, r) :: l' => if keqb k k' then Some (v, r) else lookup keqb k l'
  end.

Fixpoint ref_eqb (a b : ref) : bool :=
  match a, b with
  | [], [] => true
  | x :: a', y :: b' => Nat.eqb x y && ref_eqb a' b'
  | _, _ => false
  end.

Lemma ref_eqb_eq a b : ref_eqb a b = true <-> a = b.
Proof.
  revert b; induction a as [|x a IH]; intros [|y b]; simpl; split; intros H;
    try discriminate; auto.
  - apply andb_true_iff in H as [H1 H2]. apply Nat.eqb_eq in H1. apply IH in H2.
    congruence.
  - injection H as -> ->. rewrite Nat.eqb_refl. simpl. apply IH. reflexivity.
Qed.

Definition upd_ref {K V} (r : ref) (v : V) (l : list (ent K V)) : list (ent K V) :=
  map (fun e => (ekey e, if ref_eqb r (eref e) then v else evalue e, eref e)) l.

Fixpoint load_ref {K V} (r : ref) (l : list (ent K V)) : option V :=
  match l with
  | [] => None
  | e :: l' => if ref_eqb r (eref e) then Some (evalue e) else load_ref r l'
  end.

Definition del {K V} (keqb : K -> K -> bool) (k : K) (l : list (K * V)) : list (K * V) :=
  filter (fun e => negb (keqb k (fst e))) l.

Definition ent_clone {K V} (cl : V -> V) (e : ent K V) : ent K V :=
  (ekey e, cl (evalue e), eref e).

(** The operations concerned. *)
Record ops (K V S : Type) : Type := MkOps {
  o_len : S -> nat;
  o_is_empty : S -> bool;
  o_insert : S -> K -> V -> option V * S;
  o_contains : S -> K -> bool;
  o_get : S -> K -> option V;
  o_get_mut : S -> K -> option ref;
  o_remove : S -> K -> option V * S;
  o_retain : forall X : Type, retain_fn X K V -> X -> S -> X * S * outcome;
  o_clear : S -> S;
  o_load : S -> ref -> option V;
  o_store : S -> ref -> V -> option S;
  o_clone : (V -> V) -> S -> S;
  o_eq : (V -> V -> bool) -> S -> S -> bool
}.
Arguments MkOps {K V S}.
Arguments o_len {K V S}.
Arguments o_is_empty {K V S}.
Arguments o_insert {K V S}.
Arguments o_contains {K V S}.
Arguments o_get {K V S}.
Arguments o_get_mut {K V S}.
Arguments o_remove {K V S}.
Arguments o_retain {K V S} o {X}.
Arguments o_clear {K V S}.
Arguments o_load {K V S}.
Arguments o_store {K V S}.
Arguments o_clone {K V S}.
Arguments o_eq {K V S}.

Definition ops_of {K V} (m : MapStorage K V) : ops K V (ms_St m) := {|
  o_len := ms_len m;
  o_is_empty := ms_is_empty m;
  o_insert := ms_insert m;
  o_contains := ms_contains_key m;
  o_get := ms_get m;
  o_get_mut := ms_get_mut m;
  o_remove := ms_remove m;
  o_retain := fun X => ms_retain m (S := X);
  o_clear := ms_clear m;
  o_load := ms_load m;
  o_store := ms_store m;
  o_clone := ms_clone m;
  o_eq := ms_eq m
|}.

Record Core {K V S} (keqb : K -> K -> bool) (before : K -> K -> Prop)
  (o : ops K V S) : Type := MkCore {
  c_inv : S -> Prop;
  c_ents : S -> list (ent K V);
  c_keqb : forall a b, keqb a b = true <-> a = b;
  c_nodup_k : forall st, c_inv st -> NoDup (map ekey (c_ents st));
  c_nodup_r : forall st, c_inv st -> NoDup (map eref (c_ents st));
  c_sorted : forall st, c_inv st ->
    StronglySorted (fun a b => ~ before b a) (map ekey (c_ents st));
  c_len : forall st, c_inv st -> o_len o st = length (c_ents st);
  c_is_empty : forall st, c_inv st ->
    o_is_empty o st = match c_ents st with [] => true | _ => false end;
  c_get : forall st k, c_inv st ->
    o_get o st k = option_map fst (lookup keqb k (c_ents st));
  c_get_mut : forall st k, c_inv st ->
    o_get_mut o st k = option_map snd (lookup keqb k (c_ents st));
  c_contains : forall st k, c_inv st ->
    o_contains o st k = is_some (lookup keqb k (c_ents st));
  c_insert_some : forall st k v old r, c_inv st ->
    lookup keqb k (c_ents st) = Some (old, r) ->
    exists st', o_store o st r v = Some st' /\ o_insert o st k v = (Some old, st');
  c_insert_none : forall st k v, c_inv st ->
    lookup keqb k (c_ents st) = None ->
    exists st', o_insert o st k v = (None, st') /\ c_inv st' /\
                Permutation (map fst (c_ents st')) ((k, v) :: map fst (c_ents st));
  c_remove : forall st k, c_inv st ->
    exists st', o_remove o st k = (option_map fst (lookup keqb k (c_ents st)), st') /\
                c_inv st' /\
                map fst (c_ents st') = del keqb k (map fst (c_ents st));
  c_retain : forall X (f : retain_fn X K V) x st, c_inv st ->
    exists x' st' oc, o_retain o f x st = (x', st', oc) /\ c_inv st' /\
      retain_list f x (map fst (c_ents st)) = (x', map fst (c_ents st'), oc);
  c_clear : forall st, c_inv st -> c_inv (o_clear o st) /\ c_ents (o_clear o st) = [];
  c_load : forall st r, c_inv st -> o_load o st r = load_ref r (c_ents st);
  c_store_ok : forall st r v, c_inv st -> In r (map eref (c_ents st)) ->
    exists st', o_store o st r v = Some st';
  c_store : forall st r v st', c_inv st -> o_store o st r v = Some st' ->
    In r (map eref (c_ents st)) /\ c_inv st' /\ c_ents st' = upd_ref r v (c_ents st);
  c_clone : forall cl st, c_inv st ->
    c_inv (o_clone o cl st) /\ c_ents (o_clone o cl st) = map (ent_clone cl) (c_ents st);
  c_eq : forall veq a b, c_inv a -> c_inv b ->
    (o_eq o veq a b = true <->
     forall k, option_eq veq (o_get o a k) (o_get o b k) = true)
}.
Arguments c_inv {K V S keqb before o}.
Arguments c_ents {K V S keqb before o}.

(** * Retain lists *)

Lemma retain_list_app {X K V} (f : retain_fn X K V) a : forall b x,
  retain_list f x (a ++ b) =
  match retain_list f x a with
  | (x1, a1, Unwound) => (x1, a1 ++ b, Unwound)
  | (x1, a1, Done) => let '(x2, b1, o) := retain_list f x1 b in (x2, a1 ++ b1, o)
  end.
Proof.
  induction a as [|[k v] a IH]; intros b x; simpl.
  - destruct (retain_list f x b) as [[? ?] ?]; reflexivity.
  - destruct (f x k v) as [[x1 v1] []]; auto.
    rewrite IH. destruct (retain_list f x1 a) as [[x2 a2] []]; auto.
    destruct (retain_list f x2 b) as [[? ?] ?]; reflexivity.
Qed.

Lemma retain_list_map {X K K' V} (g : K -> K') (f : retain_fn X K' V) l : forall x,
  retain_list f x (map (fun e => (g (fst e), snd e)) l) =
  let '(x', l', o) := retain_list (fun x k v => f x (g k) v) x l in
  (x', map (fun e => (g (fst e), snd e)) l', o).
Proof.
  induction l as [|[k v] l IH]; intros x; simpl; auto.
  destruct (f x (g k) v) as [[x1 v1] []]; auto.
  rewrite IH. destruct (retain_list _ x1 l) as [[x2 a2] o]; reflexivity.
Qed.

(** * Lists of entries under a change of keys and references *)

Definition ent_map {K K' V} (g : K -> K') (p : ref -> ref) (e : ent K V) : ent K' V :=
  (g (ekey e), evalue e, p (eref e)).

Section EntMap.
  Context {K K' V : Type} (g : K -> K') (p : ref -> ref).

  Lemma map_ekey_ent_map (l : list (ent K V)) :
    map ekey (map (ent_map g p) l) = map g (map ekey l).
  Proof. rewrite !map_map. reflexivity. Qed.

  Lemma map_eref_ent_map (l : list (ent K V)) :
    map eref (map (ent_map g p) l) = map p (map eref l).
  Proof. rewrite !map_map. reflexivity. Qed.

  Lemma map_fst_ent_map (l : list (ent K V)) :
    map fst (map (ent_map g p) l) = map (fun e => (g (fst e), snd e)) (map fst l).
  Proof. rewrite !map_map. reflexivity. Qed.

  Lemma upd_ref_ent_map r v (l : list (ent K V)) :
    (forall a b, p a = p b -> a = b) ->
    upd_ref (p r) v (map (ent_map g p) l) = map (ent_map g p) (upd_ref r v l).
  Proof.
    intros Hp. unfold upd_ref. rewrite !map_map. apply map_ext. intros [[k x] q].
    unfold ent_map, ekey, evalue, eref. simpl. f_equal. f_equal.
    destruct (ref_eqb r q) eqn:E.
    - apply ref_eqb_eq in E. subst. rewrite (proj2 (ref_eqb_eq _ _) eq_refl). reflexivity.
    - destruct (ref_eqb (p r) (p q)) eqn:E'; auto.
      apply ref_eqb_eq in E'. apply Hp in E'. subst.
      rewrite (proj2 (ref_eqb_eq _ _) eq_refl) in E. discriminate.
  Qed.

  Lemma upd_ref_ent_map_other r v (l : list (ent K V)) :
    (forall a, r <> p a) ->
    upd_ref r v (map (ent_map g p) l) = map (ent_map g p) l.
  Proof.
    intros Hp. unfold upd_ref. rewrite !map_map. apply map_ext. intros [[k x] q].
    unfold ent_map, ekey, evalue, eref. simpl. f_equal. f_equal.
    destruct (ref_eqb r (p q)) eqn:E'; auto.
    apply ref_eqb_eq in E'. destruct (Hp _ E').
  Qed.

  Lemma load_ref_ent_map r (l : list (ent K V)) :
    (forall a b, p a = p b -> a = b) ->
    load_ref (p r) (map (ent_map g p) l) = load_ref r l.
  Proof.
    intros Hp. induction l as [|[[k v] q] l IH]; simpl; auto.
    unfold ent_map, eref, evalue. simpl.
    destruct (ref_eqb r q) eqn:E.
    - apply ref_eqb_eq in E. subst. rewrite (proj2 (ref_eqb_eq _ _) eq_refl). reflexivity.
    - destruct (ref_eqb (p r) (p q)) eqn:E'; auto.
      apply ref_eqb_eq in E'. apply Hp in E'. subst.
      rewrite (proj2 (ref_eqb_eq _ _) eq_refl) in E. discriminate.
  Qed.

  Lemma load_ref_ent_map_other r (l : list (ent K V)) :
    (forall a, r <> p a) -> load_ref r (map (ent_map g p) l) = None.
  Proof.
    intros Hp. induction l as [|[[k v] q] l IH]; simpl; auto.
    unfold ent_map, eref, evalue. simpl.
    destruct (ref_eqb r (p q)) eqn:E'; auto.
    apply ref_eqb_eq in E'. destruct (Hp _ E').
  Qed.

  Lemma lookup_ent_map keqb keqb' k (l : list (ent K V)) :
    (forall a b, keqb' (g a) (g b) = keqb a b) ->
    lookup keqb' (g k) (map (ent_map g p) l) =
    option_map (fun x => (fst x, p (snd x))) (lookup keqb k l).
  Proof.
    intros H. induction l as [|[[k' v] q] l IH]; simpl; auto.
    unfold ent_map, ekey, evalue, eref. simpl. rewrite H.
    destruct (keqb k k'); auto.
  Qed.

  Lemma lookup_ent_map_other keqb' k (l : list (ent K V)) :
    (forall a, keqb' k (g a) = false) ->
    lookup keqb' k (map (ent_map g p) l) = None.
  Proof.
    intros H. induction l as [|[[k' v] q] l IH]; simpl; auto.
    unfold ent_map, ekey. simpl. rewrite H. auto.
  Qed.

  Lemma del_ent_map keqb keqb' k (l : list (K * V)) :
    (forall a b, keqb' (g a) (g b) = keqb a b) ->
    del keqb' (g k) (map (fun e => (g (fst e), snd e)) l) =
    map (fun e => (g (fst e), snd e)) (del keqb k l).
  Proof.
    intros H. unfold del. induction l as [|[k' v] l IH]; simpl; auto.
    rewrite H. destruct (keqb k k'); simpl; rewrite IH; auto.
  Qed.

  Lemma del_ent_map_other keqb' k (l : list (K * V)) :
    (forall a, keqb' k (g a) = false) ->
    del keqb' k (map (fun e => (g (fst e), snd e)) l) =
    map (fun e => (g (fst e), snd e)) l.
  Proof.
    intros H. unfold del. induction l as [|[k' v] l IH]; simpl; auto.
    rewrite H. simpl. rewrite IH. reflexivity.
  Qed.

  Lemma ent_clone_ent_map cl (l : list (ent K V)) :
    map (ent_clone cl) (map (ent_map g p) l) = map (ent_map g p) (map (ent_clone cl) l).
  Proof. rewrite !map_map. reflexivity. Qed.
End EntMap.

Lemma lookup_app {K V} keqb k (a b : list (ent K V)) :
  lookup keqb k (a ++ b) =
  match lookup keqb k a with Some x => Some x | None => lookup keqb k b end.
Proof.
  induction a as [|[[k' v] q] a IH]; simpl; auto. destruct (keqb k k'); auto.
Qed.

Lemma load_ref_app {K V} r (a b : list (ent K V)) :
  load_ref r (a ++ b) =
  match load_ref r a with Some x => Some x | None => load_ref r b end.
Proof.
  induction a as [|e a IH]; simpl; auto. destruct (ref_eqb r (eref e)); auto.
Qed.

Lemma upd_ref_app {K V} r v (a b : list (ent K V)) :
  upd_ref r v (a ++ b) = upd_ref r v a ++ upd_ref r v b.
Proof. apply map_app. Qed.

Lemma del_app {K V} keqb (k : K) (a b : list (K * V)) :
  del keqb k (a ++ b) = del keqb k a ++ del keqb k b.
Proof.
  unfold del. induction a as [|e a IH]; simpl; auto.
  destruct (keqb k (fst e)); simpl; rewrite IH; auto.
Qed.

Lemma StronglySorted_map {A B} (R : A -> A -> Prop) (R' : B -> B -> Prop) (g : A -> B) l :
  (forall a b, R a b -> R' (g a) (g b)) ->
  StronglySorted R l -> StronglySorted R' (map g l).
Proof.
  intros H. induction 1 as [|a l Hs IH Hf]; simpl; constructor; auto.
  apply Forall_map. eapply Forall_impl; [|exact Hf]. auto.
Qed.

Lemma StronglySorted_app {A} (R : A -> A -> Prop) a b :
  StronglySorted R a -> StronglySorted R b ->
  (forall x y, In x a -> In y b -> R x y) -> StronglySorted R (a ++ b).
Proof.
  induction 1 as [|x a Hs IH Hf]; simpl; intros Hb H; auto.
  constructor.
  - apply IH; auto.
  - apply Forall_app. split; auto. apply Forall_forall. auto.
Qed.

Lemma NoDup_app_disj {A} (a b : list A) :
  NoDup a -> NoDup b -> (forall x, In x a -> In x b -> False) -> NoDup (a ++ b).
Proof.
  induction 1 as [|x a Hx Ha IH]; simpl; intros Hb H; auto.
  constructor.
  - rewrite in_app_iff. intros [?|?]; eauto.
  - apply IH; eauto.
Qed.

Lemma NoDup_map_inj {A B} (g : A -> B) l :
  (forall a b, g a = g b -> a = b) -> NoDup l -> NoDup (map g l).
Proof.
  intros Hg. induction 1; simpl; constructor; auto.
  rewrite in_map_iff. intros (y & E & Hy). apply Hg in E. subst. auto.
Qed.

Lemma lookup_in {K V} keqb (Hk : forall a b : K, keqb a b = true <-> a = b) k
  (l : list (ent K V)) v r :
  lookup keqb k l = Some (v, r) -> In (k, v, r) l.
Proof.
  induction l as [|[[k' v'] q] l IH]; simpl; [discriminate|].
  destruct (keqb k k') eqn:E.
  - apply Hk in E. subst. intros [= -> ->]. auto.
  - auto.
Qed.

Lemma lookup_none {K V} keqb (Hk : forall a b : K, keqb a b = true <-> a = b) k
  (l : list (ent K V)) :
  lookup keqb k l = None <-> ~ In k (map ekey l).
Proof.
  induction l as [|[[k' v'] q] l IH]; simpl; [tauto|].
  unfold ekey at 1. simpl. destruct (keqb k k') eqn:E.
  - apply Hk in E. subst. split; [discriminate|]. intros H. destruct H. auto.
  - rewrite IH. split; intros H; [|tauto]. intros [->|?]; [|tauto].
    rewrite (proj2 (Hk k k) eq_refl) in E. discriminate.
Qed.

Lemma in_lookup {K V} keqb (Hk : forall a b : K, keqb a b = true <-> a = b) k
  (l : list (ent K V)) v r :
  NoDup (map ekey l) -> In (k, v, r) l -> lookup keqb k l = Some (v, r).
Proof.
  induction l as [|[[k' v'] q] l IH]; simpl; [tauto|].
  intros Hn. inversion Hn as [|? ? Hx Hn']; subst.
  intros [[= -> -> ->]|Hin].
  - rewrite (proj2 (Hk k k) eq_refl). reflexivity.
  - destruct (keqb k k') eqn:E; [|auto].
    apply Hk in E. subst. destruct Hx. apply in_map_iff. exists (k', v, r). auto.
Qed.

(** * One option place *)

Definition cell_ents {V} (o : option V) : list (ent unit V) :=
  match o with Some v => [(tt, v, [])] | None => [] end.

Definition cell_ops (V : Type) : ops unit V (option V) := {|
  o_len := fun st => usize_from (is_some st);
  o_is_empty := fun st => is_none st;
  o_insert := fun st _ v => (st, Some v);
  o_contains := fun st _ => is_some st;
  o_get := fun st _ => st;
  o_get_mut := fun st _ => match st with Some _ => Some [] | None => None end;
  o_remove := fun st _ => (st, None);
  o_retain := fun X f x st => OptionBucket.retain_cell f x tt st;
  o_clear := fun _ => None;
  o_load := fun st r => match r with [] => st | _ => None end;
  o_store := fun st r v => match r, st with [], Some _ => Some (Some v) | _, _ => None end;
  o_clone := fun cl st => option_map cl st;
  o_eq := fun veq a b => option_eq veq a b
|}.

Definition unit_eqb (_ _ : unit) : bool := true.
Definition no_order {K} (_ _ : K) : Prop := False.

Definition cell_core (V : Type) : Core unit_eqb no_order (cell_ops V).
Proof.
  refine {| c_inv := fun _ : option V => True; c_ents := cell_ents |}.
  - intros [] []; split; reflexivity.
  - intros [v|] _; simpl; repeat constructor; auto.
  - intros [v|] _; simpl; repeat constructor; auto.
  - intros [v|] _; simpl; repeat constructor; auto.
  - intros [v|] _; reflexivity.
  - intros [v|] _; reflexivity.
  - intros [v|] [] _; reflexivity.
  - intros [v|] [] _; reflexivity.
  - intros [v|] [] _; reflexivity.
  - intros [x|] [] v old r _; simpl; [|discriminate].
    intros [= -> <-]. eauto.
  - intros [x|] [] v _; simpl; [discriminate|]. intros _.
    exists (Some v). auto.
  - intros [x|] [] _; simpl; exists None; auto.
  - intros X f x [v|] _; simpl.
    + destruct (f x tt v) as [[x1 v1] []]; repeat eexists.
    + repeat eexists.
  - intros [x|] _; simpl; auto.
  - intros [x|] [|i r] _; reflexivity.
  - intros [x|] r v _; simpl; [|tauto]. intros [<-|[]]. simpl. eauto.
  - intros [x|] [|i r] v st' _; simpl; try discriminate. intros [= <-]. simpl. auto.
  - intros cl [x|] _; simpl; auto.
  - intros veq [x|] [y|] _ _; simpl; split; auto; intros H; apply (H tt).
Defined.

(** * The storage without keys *)

Definition nil_ops (V S : Type) : ops Empty_set V S := {|
  o_len := fun _ => 0;
  o_is_empty := fun _ => true;
  o_insert := fun _ (k : Empty_set) _ => match k with end;
  o_contains := fun _ (k : Empty_set) => match k with end;
  o_get := fun _ (k : Empty_set) => match k with end;
  o_get_mut := fun _ (k : Empty_set) => match k with end;
  o_remove := fun _ (k : Empty_set) => match k with end;
  o_retain := fun X f x st => (x, st, Done);
  o_clear := fun st => st;
  o_load := fun _ _ => None;
  o_store := fun _ _ _ => None;
  o_clone := fun _ st => st;
  o_eq := fun _ _ _ => true
|}.

Definition empty_eqb (a b : Empty_set) : bool := match a with end.

Definition nil_core (V S : Type) : Core empty_eqb no_order (nil_ops V S).
Proof.
  refine {| c_inv := fun _ : S => True; c_ents := fun _ => [] |};
    try (intros; simpl; auto; fail); try (intros; constructor; fail).
  - intros [].
  - intros st [].
  - intros st [].
  - intros st [].
  - intros st [].
  - intros st [].
  - intros st [].
  - intros. repeat eexists.
  - intros st r v _ [].
  - intros st r v st' _ [=].
  - intros. split; auto. intros _ [].
Defined.

(** * Two storages side by side *)

Definition sum_eqb {A B} (ea : A -> A -> bool) (eb : B -> B -> bool) (x y : A + B) : bool :=
  match x, y with
  | inl a, inl b => ea a b
  | inr a, inr b => eb a b
  | _, _ => false
  end.

Definition sum_before {A B} (ba : A -> A -> Prop) (bb : B -> B -> Prop) (x y : A + B) : Prop :=
  match x, y with
  | inl a, inl b => ba a b
  | inl _, inr _ => True
  | inr _, inl _ => False
  | inr a, inr b => bb a b
  end.

Definition sum_ops {KA KB V SA SB} (a : ops KA V SA) (b : ops KB V SB)
  : ops (KA + KB) V (SA * SB) := {|
  o_len := fun st => o_len a (fst st) + o_len b (snd st);
  o_is_empty := fun st => o_is_empty a (fst st) && o_is_empty b (snd st);
  o_insert := fun st k v =>
    match k with
    | inl k => let '(old, s) := o_insert a (fst st) k v in (old, (s, snd st))
    | inr k => let '(old, s) := o_insert b (snd st) k v in (old, (fst st, s))
    end;
  o_contains := fun st k =>
    match k with inl k => o_contains a (fst st) k | inr k => o_contains b (snd st) k end;
  o_get := fun st k =>
    match k with inl k => o_get a (fst st) k | inr k => o_get b (snd st) k end;
  o_get_mut := fun st k =>
    match k with
    | inl k => option_map (cons 0) (o_get_mut a (fst st) k)
    | inr k => option_map shift_ref (o_get_mut b (snd st) k)
    end;
  o_remove := fun st k =>
    match k with
    | inl k => let '(old, s) := o_remove a (fst st) k in (old, (s, snd st))
    | inr k => let '(old, s) := o_remove b (snd st) k in (old, (fst st, s))
    end;
  o_retain := fun X f x st =>
    match o_retain a (fun x k v => f x (inl k) v) x (fst st) with
    | (x1, s1, Unwound) => (x1, (s1, snd st), Unwound)
    | (x1, s1, Done) =>
        let '(x2, s2, oc) := o_retain b (fun x k v => f x (inr k) v) x1 (snd st) in
        (x2, (s1, s2), oc)
    end;
  o_clear := fun st => (o_clear a (fst st), o_clear b (snd st));
  o_load := fun st r =>
    match r with
    | 0 :: p => o_load a (fst st) p
    | S i :: p => o_load b (snd st) (i :: p)
    | [] => None
    end;
  o_store := fun st r v =>
    match r with
    | 0 :: p => option_map (fun s => (s, snd st)) (o_store a (fst st) p v)
    | S i :: p => option_map (pair (fst st)) (o_store b (snd st) (i :: p) v)
    | [] => None
    end;
  o_clone := fun cl st => (o_clone a cl (fst st), o_clone b cl (snd st));
  o_eq := fun veq x y => o_eq a veq (fst x) (fst y) && o_eq b veq (snd x) (snd y)
|}.

Definition no_root {K V S keqb before} {o : ops K V S} (c : Core keqb before o) : Prop :=
  forall st, ~ In [] (map eref (c_ents c st)).

Lemma shift_ref_inj a b : shift_ref a = shift_ref b -> a = b.
Proof. destruct a, b; simpl; congruence. Qed.

Lemma cons0_inj (a b : ref) : 0 :: a = 0 :: b -> a = b.
Proof. congruence. Qed.

Lemma cons0_not_shift (a b : ref) : 0 :: a <> shift_ref b.
Proof. destruct b; simpl; congruence. Qed.

Definition sum_ents {KA KB V} (la : list (ent KA V)) (lb : list (ent KB V))
  : list (ent (KA + KB) V) :=
  map (ent_map inl (cons 0)) la ++ map (ent_map inr shift_ref) lb.

Section Sum.
  Context {KA KB V SA SB : Type} {ea : KA -> KA -> bool} {eb : KB -> KB -> bool}
          {ba : KA -> KA -> Prop} {bb : KB -> KB -> Prop}
          {a : ops KA V SA} {b : ops KB V SB}
          (ca : Core ea ba a) (cb : Core eb bb b).

  Lemma sum_lookup_l k la (lb : list (ent KB V)) :
    lookup (sum_eqb ea eb) (inl k) (sum_ents la lb) =
    option_map (fun x => (fst x, 0 :: snd x)) (lookup ea k la).
  Proof.
    unfold sum_ents. rewrite lookup_app.
    rewrite (lookup_ent_map inl (cons 0) ea) by reflexivity.
    rewrite (lookup_ent_map_other inr shift_ref) by reflexivity.
    destruct (lookup ea k la); reflexivity.
  Qed.

  Lemma sum_lookup_r k (la : list (ent KA V)) lb :
    lookup (sum_eqb ea eb) (inr k) (sum_ents la lb) =
    option_map (fun x => (fst x, shift_ref (snd x))) (lookup eb k lb).
  Proof.
    unfold sum_ents. rewrite lookup_app.
    rewrite (lookup_ent_map_other inl (cons 0)) by reflexivity.
    apply lookup_ent_map. reflexivity.
  Qed.

  Lemma map_fst_sum (la : list (ent KA V)) (lb : list (ent KB V)) :
    map fst (sum_ents la lb) =
    map (fun e => (inl (fst e), snd e)) (map fst la) ++
    map (fun e => (inr (fst e), snd e)) (map fst lb).
  Proof. unfold sum_ents. rewrite map_app, !map_fst_ent_map. reflexivity. Qed.

  Lemma in_eref_sum r (la : list (ent KA V)) (lb : list (ent KB V)) :
    In r (map eref (sum_ents la lb)) <->
    (exists p, r = 0 :: p /\ In p (map eref la)) \/
    (exists p, r = shift_ref p /\ In p (map eref lb)).
  Proof.
    unfold sum_ents. rewrite map_app, !map_eref_ent_map, in_app_iff, !in_map_iff.
    split.
    - intros [(p & <- & H)|(p & <- & H)]; eauto.
    - intros [(p & -> & H)|(p & -> & H)]; eauto.
  Qed.

  Lemma sum_upd_l p v (la : list (ent KA V)) (lb : list (ent KB V)) :
    upd_ref (0 :: p) v (sum_ents la lb) = sum_ents (upd_ref p v la) lb.
  Proof.
    unfold sum_ents. rewrite upd_ref_app.
    rewrite (upd_ref_ent_map inl (cons 0)) by apply cons0_inj.
    rewrite (upd_ref_ent_map_other inr shift_ref) by (intros; apply cons0_not_shift).
    reflexivity.
  Qed.

  Lemma sum_upd_r p v (la : list (ent KA V)) (lb : list (ent KB V)) :
    upd_ref (shift_ref p) v (sum_ents la lb) = sum_ents la (upd_ref p v lb).
  Proof.
    unfold sum_ents. rewrite upd_ref_app.
    rewrite (upd_ref_ent_map_other inl (cons 0))
      by (intros q E; symmetry in E; revert E; apply cons0_not_shift).
    rewrite (upd_ref_ent_map inr shift_ref) by apply shift_ref_inj.
    reflexivity.
  Qed.

  Lemma shift_cases (r : ref) : r <> [] -> exists i p, r = i :: p.
  Proof. destruct r; [congruence|eauto]. Qed.

  Definition sum_core (Hroot : no_root cb) : Core (sum_eqb ea eb) (sum_before ba bb) (sum_ops a b).
  Proof.
    refine {| c_inv := fun st : SA * SB => c_inv ca (fst st) /\ c_inv cb (snd st);
              c_ents := fun st : SA * SB => sum_ents (c_ents ca (fst st)) (c_ents cb (snd st)) |}.
    - intros [x|x] [y|y]; simpl; split; intros H; try discriminate.
      + f_equal. apply (c_keqb _ _ _ ca). auto.
      + injection H as ->. apply (c_keqb _ _ _ ca). auto.
      + f_equal. apply (c_keqb _ _ _ cb). auto.
      + injection H as ->. apply (c_keqb _ _ _ cb). auto.
    - intros [sa sb] [Ha Hb]. simpl in *. unfold sum_ents. rewrite map_app, !map_ekey_ent_map.
      apply NoDup_app_disj.
      + apply NoDup_map_inj; [congruence|]. apply (c_nodup_k _ _ _ ca). auto.
      + apply NoDup_map_inj; [congruence|]. apply (c_nodup_k _ _ _ cb). auto.
      + intros x Hx Hy. apply in_map_iff in Hx as (? & <- & _).
        apply in_map_iff in Hy as (? & ? & _). discriminate.
    - intros [sa sb] [Ha Hb]. simpl in *. unfold sum_ents. rewrite map_app, !map_eref_ent_map.
      apply NoDup_app_disj.
      + apply NoDup_map_inj; [apply cons0_inj|]. apply (c_nodup_r _ _ _ ca). auto.
      + apply NoDup_map_inj; [apply shift_ref_inj|]. apply (c_nodup_r _ _ _ cb). auto.
      + intros x Hx Hy. apply in_map_iff in Hx as (? & <- & _).
        apply in_map_iff in Hy as (? & E & _). symmetry in E. revert E. apply cons0_not_shift.
    - intros [sa sb] [Ha Hb]. simpl in *. unfold sum_ents. rewrite map_app, !map_ekey_ent_map.
      apply StronglySorted_app.
      + eapply StronglySorted_map; [|apply (c_sorted _ _ _ ca); exact Ha]. auto.
      + eapply StronglySorted_map; [|apply (c_sorted _ _ _ cb); exact Hb]. auto.
      + intros x y Hx Hy. apply in_map_iff in Hx as (? & <- & _).
        apply in_map_iff in Hy as (? & <- & _). simpl. auto.
    - intros [sa sb] [Ha Hb]. simpl in *. unfold sum_ents.
      rewrite app_length, !map_length, (c_len _ _ _ ca), (c_len _ _ _ cb); auto.
    - intros [sa sb] [Ha Hb]. simpl in *. unfold sum_ents.
      rewrite (c_is_empty _ _ _ ca), (c_is_empty _ _ _ cb); auto.
      destruct (c_ents ca sa), (c_ents cb sb); reflexivity.
    - intros [sa sb] [k|k] [Ha Hb]; cbn [fst snd o_get sum_ops] in *.
      + rewrite sum_lookup_l, (c_get _ _ _ ca) by auto. destruct (lookup _ _ _); reflexivity.
      + rewrite sum_lookup_r, (c_get _ _ _ cb) by auto. destruct (lookup _ _ _); reflexivity.
    - intros [sa sb] [k|k] [Ha Hb]; cbn [fst snd o_get_mut sum_ops] in *.
      + rewrite sum_lookup_l, (c_get_mut _ _ _ ca) by auto. destruct (lookup _ _ _); reflexivity.
      + rewrite sum_lookup_r, (c_get_mut _ _ _ cb) by auto. destruct (lookup _ _ _); reflexivity.
    - intros [sa sb] [k|k] [Ha Hb]; cbn [fst snd o_contains sum_ops] in *.
      + rewrite sum_lookup_l, (c_contains _ _ _ ca) by auto. destruct (lookup _ _ _); reflexivity.
      + rewrite sum_lookup_r, (c_contains _ _ _ cb) by auto. destruct (lookup _ _ _); reflexivity.
    - intros [sa sb] [k|k] v old r [Ha Hb]; cbn [fst snd o_insert o_store sum_ops] in *.
      + rewrite sum_lookup_l. destruct (lookup ea k _) as [[v0 p]|] eqn:E; [|discriminate].
        simpl. intros [= -> <-].
        destruct (c_insert_some _ _ _ ca sa k v old p Ha E) as (s' & E1 & E2).
        rewrite E1, E2. simpl. eauto.
      + rewrite sum_lookup_r. destruct (lookup eb k _) as [[v0 p]|] eqn:E; [|discriminate].
        simpl. intros [= -> <-].
        destruct (c_insert_some _ _ _ cb sb k v old p Hb E) as (s' & E1 & E2).
        rewrite E2. destruct p as [|i p].
        * exfalso. apply (Hroot sb). apply (lookup_in eb (c_keqb _ _ _ cb)) in E.
          apply in_map_iff. eexists; split; [|exact E]. reflexivity.
        * simpl. rewrite E1. simpl. eauto.
    - intros [sa sb] [k|k] v [Ha Hb]; cbn [fst snd o_insert o_store sum_ops] in *.
      + rewrite sum_lookup_l. destruct (lookup ea k _) as [[v0 p]|] eqn:E; [discriminate|].
        intros _.
        destruct (c_insert_none _ _ _ ca sa k v Ha E) as (s' & E1 & Hi & Hp).
        rewrite E1. exists (s', sb). simpl. repeat split; auto.
        rewrite !map_fst_sum.
        apply (Permutation_app_tail (map (fun e => (inr (fst e), snd e)) (map fst (c_ents cb sb)))
                 (l' := map (fun e => (inl (fst e), snd e)) ((k, v) :: map fst (c_ents ca sa)))).
        apply Permutation_map. exact Hp.
      + rewrite sum_lookup_r. destruct (lookup eb k _) as [[v0 p]|] eqn:E; [discriminate|].
        intros _.
        destruct (c_insert_none _ _ _ cb sb k v Hb E) as (s' & E1 & Hi & Hp).
        rewrite E1. exists (sa, s'). simpl. repeat split; auto.
        rewrite !map_fst_sum.
        eapply Permutation_trans; [|symmetry; apply Permutation_middle].
        apply Permutation_app_head.
        change ((inr k, v) :: map (fun e : KB * V => (@inr KA KB (fst e), snd e)) (map fst (c_ents cb sb)))
          with (map (fun e : KB * V => (@inr KA KB (fst e), snd e)) ((k, v) :: map fst (c_ents cb sb))).
        apply Permutation_map. exact Hp.
    - intros [sa sb] [k|k] [Ha Hb]; cbn [fst snd o_remove sum_ops] in *.
      + destruct (c_remove _ _ _ ca sa k Ha) as (s' & E1 & Hi & Hd).
        rewrite E1, sum_lookup_l. exists (s', sb). simpl. repeat split; auto.
        * destruct (lookup _ _ _); reflexivity.
        * rewrite !map_fst_sum, del_app, Hd.
          rewrite (del_ent_map inl ea) by reflexivity.
          rewrite (del_ent_map_other inr) by reflexivity. reflexivity.
      + destruct (c_remove _ _ _ cb sb k Hb) as (s' & E1 & Hi & Hd).
        rewrite E1, sum_lookup_r. exists (sa, s'). simpl. repeat split; auto.
        * destruct (lookup _ _ _); reflexivity.
        * rewrite !map_fst_sum, del_app, Hd.
          rewrite (del_ent_map inr eb) by reflexivity.
          rewrite (del_ent_map_other inl) by reflexivity. reflexivity.
    - intros X f x [sa sb] [Ha Hb]; cbn [fst snd o_retain sum_ops] in *.
      rewrite map_fst_sum, retain_list_app, (retain_list_map inl).
      destruct (c_retain _ _ _ ca X (fun x k v => f x (inl k) v) x sa Ha)
        as (x1 & s1 & o1 & E1 & Hi1 & L1).
      rewrite E1, L1. destruct o1.
      + rewrite (retain_list_map inr).
        destruct (c_retain _ _ _ cb X (fun x k v => f x (inr k) v) x1 sb Hb)
          as (x2 & s2 & o2 & E2 & Hi2 & L2).
        rewrite E2, L2. exists x2, (s1, s2), o2. rewrite map_fst_sum. auto.
      + exists x1, (s1, sb), Unwound. rewrite map_fst_sum. auto.
    - intros [sa sb] [Ha Hb]; simpl in *.
      destruct (c_clear _ _ _ ca sa Ha) as [H1 ->].
      destruct (c_clear _ _ _ cb sb Hb) as [H2 ->]. auto.
    - intros [sa sb] r [Ha Hb]; cbn [fst snd o_load sum_ops] in *.
      unfold sum_ents. rewrite load_ref_app.
      destruct r as [|[|i] p].
      + rewrite (load_ref_ent_map_other inl (cons 0)) by (intros; discriminate).
        symmetry. clear Ha Hb. specialize (Hroot sb).
        induction (c_ents cb sb) as [|e l IH]; simpl; auto.
        unfold ent_map, eref at 1. cbn [snd]. destruct e as [[k v] [|j q]]; simpl in *.
        * destruct Hroot. auto.
        * apply IH. tauto.
      + rewrite (load_ref_ent_map inl (cons 0)) by apply cons0_inj.
        rewrite (load_ref_ent_map_other inr shift_ref) by (intros; apply cons0_not_shift).
        rewrite (c_load _ _ _ ca) by auto. destruct (load_ref _ _); reflexivity.
      + rewrite (load_ref_ent_map_other inl (cons 0)) by (intros; discriminate).
        rewrite (c_load _ _ _ cb) by auto.
        change (S i :: p) with (shift_ref (i :: p)).
        rewrite (load_ref_ent_map inr shift_ref) by apply shift_ref_inj. reflexivity.
    - intros [sa sb] r v [Ha Hb] Hin; cbn [fst snd o_store sum_ops] in *.
      apply in_eref_sum in Hin as [(p & -> & Hp)|(p & -> & Hp)].
      + destruct (c_store_ok _ _ _ ca sa p v Ha Hp) as (s' & ->). simpl. eauto.
      + destruct (c_store_ok _ _ _ cb sb p v Hb Hp) as (s' & E).
        destruct p as [|i p]; [destruct (Hroot sb Hp)|].
        simpl. rewrite E. simpl. eauto.
    - intros [sa sb] r v st' [Ha Hb] Hs; cbn [fst snd o_store sum_ops] in *.
      destruct r as [|[|i] p]; [discriminate| |].
      + destruct (o_store a sa p v) as [s'|] eqn:E; [|discriminate].
        injection Hs as <-.
        destruct (c_store _ _ _ ca sa p v s' Ha E) as (H1 & H2 & H3).
        rewrite in_eref_sum, sum_upd_l. cbn [fst snd]. rewrite H3. eauto 8.
      + destruct (o_store b sb (i :: p) v) as [s'|] eqn:E; [|discriminate].
        injection Hs as <-.
        destruct (c_store _ _ _ cb sb (i :: p) v s' Hb E) as (H1 & H2 & H3).
        change (S i :: p) with (shift_ref (i :: p)).
        rewrite in_eref_sum, sum_upd_r. cbn [fst snd]. rewrite H3. eauto 8.
    - intros cl [sa sb] [Ha Hb]; simpl in *.
      destruct (c_clone _ _ _ ca cl sa Ha) as [H1 ->].
      destruct (c_clone _ _ _ cb cl sb Hb) as [H2 ->].
      split; auto. unfold sum_ents. rewrite map_app, !ent_clone_ent_map. reflexivity.
    - intros veq [sa sb] [ta tb] [Ha Hb] [Ha' Hb']; simpl in *.
      rewrite andb_true_iff, (c_eq _ _ _ ca), (c_eq _ _ _ cb) by auto.
      split.
      + intros [H1 H2] [k|k]; auto.
      + intros H. split; intros k; [apply (H (inl k))|apply (H (inr k))].
  Defined.

  Lemma sum_no_root Hroot : no_root (sum_core Hroot).
  Proof.
    intros [sa sb] H. simpl in H. apply in_eref_sum in H as [(p & E & _)|(p & E & H)].
    - discriminate.
    - destruct p; [|discriminate]. apply (Hroot _ H).
  Qed.
End Sum.

Lemma nil_no_root V S : no_root (nil_core V S).
Proof. intros st []. Qed.

(** * Storages that simulate another one *)

Section Sim.
  Context {KA KB V SA SB : Type} {ea : KA -> KA -> bool} {ba : KA -> KA -> Prop}
          {a : ops KA V SA} (ca : Core ea ba a)
          (b : ops KB V SB) (eb : KB -> KB -> bool) (bb : KB -> KB -> Prop)
          (phi : SB -> SA) (to : KB -> KA) (of : KA -> KB).

  Record sim : Prop := {
    s_inj : forall x y, phi x = phi y -> x = y;
    s_of_to : forall k, of (to k) = k;
    s_to_of : forall k, to (of k) = k;
    s_eqb : forall x y, eb x y = ea (to x) (to y);
    s_before : forall x y, bb x y -> ba (to x) (to y);
    s_len : forall st, o_len b st = o_len a (phi st);
    s_is_empty : forall st, o_is_empty b st = o_is_empty a (phi st);
    s_insert : forall st k v,
      (fst (o_insert b st k v), phi (snd (o_insert b st k v))) =
      o_insert a (phi st) (to k) v;
    s_contains : forall st k, o_contains b st k = o_contains a (phi st) (to k);
    s_get : forall st k, o_get b st k = o_get a (phi st) (to k);
    s_get_mut : forall st k, o_get_mut b st k = o_get_mut a (phi st) (to k);
    s_remove : forall st k,
      (fst (o_remove b st k), phi (snd (o_remove b st k))) = o_remove a (phi st) (to k);
    s_retain : forall X (f : retain_fn X KB V) x st,
      (let '(x', st', oc) := o_retain b f x st in (x', phi st', oc)) =
      o_retain a (fun x k v => f x (of k) v) x (phi st);
    s_clear : forall st, phi (o_clear b st) = o_clear a (phi st);
    s_load : forall st r, o_load b st r = o_load a (phi st) r;
    s_store : forall st r v, option_map phi (o_store b st r v) = o_store a (phi st) r v;
    s_clone : forall cl st, phi (o_clone b cl st) = o_clone a cl (phi st);
    s_eq : forall veq x y, o_eq b veq x y = o_eq a veq (phi x) (phi y)
  }.

  Definition id_ref (r : ref) : ref := r.

  Definition sim_core (H : sim) : Core eb bb b.
  Proof.
    assert (Heo : forall x y, eb (of x) (of y) = ea x y).
    { intros. rewrite (s_eqb H), !(s_to_of H). reflexivity. }
    assert (Hl : forall k l, lookup eb k (map (ent_map of id_ref) l) =
                             lookup ea (to k) (l : list (ent KA V))).
    { intros k l. rewrite <- (s_of_to H k) at 1.
      rewrite (lookup_ent_map of id_ref ea eb) by exact Heo.
      destruct (lookup ea (to k) l) as [[? ?]|]; reflexivity. }
    assert (Hr : forall l : list (ent KA V), map eref (map (ent_map of id_ref) l) = map eref l).
    { intros l. rewrite map_eref_ent_map. apply map_id. }
    refine {| c_inv := fun st => c_inv ca (phi st);
              c_ents := fun st => map (ent_map of id_ref) (c_ents ca (phi st)) |}.
    - intros x y. rewrite (s_eqb H), (c_keqb _ _ _ ca). split; [|congruence].
      intros E. rewrite <- (s_of_to H x), <- (s_of_to H y). congruence.
    - intros st Hi. rewrite map_ekey_ent_map. apply NoDup_map_inj.
      + intros x y E. rewrite <- (s_to_of H x), <- (s_to_of H y). congruence.
      + apply (c_nodup_k _ _ _ ca). auto.
    - intros st Hi. rewrite Hr. apply (c_nodup_r _ _ _ ca). auto.
    - intros st Hi. rewrite map_ekey_ent_map.
      eapply StronglySorted_map; [|apply (c_sorted _ _ _ ca); exact Hi].
      intros x y Hn Hb. apply Hn. apply (s_before H) in Hb.
      rewrite !(s_to_of H) in Hb. exact Hb.
    - intros st Hi. rewrite (s_len H), map_length. apply (c_len _ _ _ ca). auto.
    - intros st Hi. rewrite (s_is_empty H), (c_is_empty _ _ _ ca) by auto.
      destruct (c_ents ca (phi st)); reflexivity.
    - intros st k Hi. rewrite Hl, (s_get H). apply (c_get _ _ _ ca). auto.
    - intros st k Hi. rewrite Hl, (s_get_mut H). apply (c_get_mut _ _ _ ca). auto.
    - intros st k Hi. rewrite Hl, (s_contains H). apply (c_contains _ _ _ ca). auto.
    - intros st k v old r Hi. rewrite Hl. intros E.
      destruct (c_insert_some _ _ _ ca (phi st) (to k) v old r Hi E) as (s' & E1 & E2).
      pose proof (s_insert H st k v) as Hs. rewrite E2 in Hs.
      pose proof (s_store H st r v) as Ht. rewrite E1 in Ht.
      destruct (o_store b st r v) as [st'|] eqn:Es; [|discriminate].
      exists st'. split; auto.
      destruct (o_insert b st k v) as [old' st2]. simpl in Hs, Ht.
      injection Hs as -> <-. injection Ht as Ht. apply (s_inj H) in Ht. subst. reflexivity.
    - intros st k v Hi. rewrite Hl. intros E.
      destruct (c_insert_none _ _ _ ca (phi st) (to k) v Hi E) as (s' & E1 & E2 & E3).
      pose proof (s_insert H st k v) as Hs. rewrite E1 in Hs.
      destruct (o_insert b st k v) as [old' st2]. simpl in Hs. injection Hs as -> <-.
      exists st2. repeat split; auto. rewrite !map_fst_ent_map.
      rewrite <- (s_of_to H k) at 1.
      change ((of (to k), v) :: map (fun e : KA * V => (of (fst e), snd e)) (map fst (c_ents ca (phi st))))
        with (map (fun e : KA * V => (of (fst e), snd e)) ((to k, v) :: map fst (c_ents ca (phi st)))).
      apply Permutation_map. exact E3.
    - intros st k Hi.
      destruct (c_remove _ _ _ ca (phi st) (to k) Hi) as (s' & E1 & E2 & E3).
      pose proof (s_remove H st k) as Hs. rewrite E1 in Hs.
      destruct (o_remove b st k) as [old' st2]. simpl in Hs. injection Hs as -> <-.
      exists st2. rewrite Hl. repeat split; auto. rewrite !map_fst_ent_map, E3.
      rewrite <- (s_of_to H k) at 2. symmetry. apply del_ent_map. exact Heo.
    - intros X f x st Hi.
      destruct (c_retain _ _ _ ca X (fun x k v => f x (of k) v) x (phi st) Hi)
        as (x' & s' & oc & E1 & E2 & E3).
      pose proof (s_retain H X f x st) as Hs. rewrite E1 in Hs.
      destruct (o_retain b f x st) as [[x2 st2] o2]. injection Hs as -> <- ->.
      exists x', st2, oc. repeat split; auto.
      rewrite !map_fst_ent_map, retain_list_map, E3. reflexivity.
    - intros st Hi. rewrite (s_clear H). destruct (c_clear _ _ _ ca (phi st) Hi) as [H1 ->].
      auto.
    - intros st r Hi. rewrite (s_load H), (c_load _ _ _ ca) by auto.
      symmetry. apply (load_ref_ent_map of id_ref). auto.
    - intros st r v Hi. rewrite Hr. intros Hin.
      destruct (c_store_ok _ _ _ ca (phi st) r v Hi Hin) as (s' & E).
      pose proof (s_store H st r v) as Ht. rewrite E in Ht.
      destruct (o_store b st r v); [eauto|discriminate].
    - intros st r v st' Hi E. rewrite Hr.
      pose proof (s_store H st r v) as Ht. rewrite E in Ht. simpl in Ht. symmetry in Ht.
      destruct (c_store _ _ _ ca _ _ _ _ Hi Ht) as (H1 & H2 & H3).
      repeat split; auto. rewrite H3. symmetry. apply (upd_ref_ent_map of id_ref). auto.
    - intros cl st Hi. rewrite (s_clone H).
      destruct (c_clone _ _ _ ca cl (phi st) Hi) as [H1 ->].
      rewrite ent_clone_ent_map. auto.
    - intros veq x y Hx Hy. rewrite (s_eq H), (c_eq _ _ _ ca) by auto. split.
      + intros E k. rewrite !(s_get H). apply E.
      + intros E k. specialize (E (of k)). rewrite !(s_get H), !(s_to_of H) in E. exact E.
  Defined.

  Lemma sim_no_root (H : sim) : no_root ca -> no_root (sim_core H).
  Proof.
    intros Hn st Hin. simpl in Hin. rewrite map_eref_ent_map in Hin.
    rewrite map_id in Hin. apply (Hn _ Hin).
  Qed.
End Sim.
