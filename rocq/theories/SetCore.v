(** Laws of the basic set operations and how they are built up: one flag, the
    empty storage, and two storages side by side. *)
Require Import List Arith Bool Lia Permutation Sorted.
Import ListNotations.
From Verif Require Import Std Traits SetStorages DeriveAny Spec MapCore MapLaws UnitLaws.

(** The operations concerned. *)
Record sops (T S : Type) : Type := MkSops {
  p_len : S -> nat;
  p_is_empty : S -> bool;
  p_insert : S -> T -> bool * S;
  p_contains : S -> T -> bool;
  p_remove : S -> T -> bool * S;
  p_retain : forall X : Type, set_retain_fn X T -> X -> S -> X * S * outcome;
  p_clear : S -> S;
  p_clone : S -> S;
  p_eq : S -> S -> bool
}.
Arguments MkSops {T S}.
Arguments p_len {T S}.
Arguments p_is_empty {T S}.
Arguments p_insert {T S}.
Arguments p_contains {T S}.
Arguments p_remove {T S}.
Arguments p_retain {T S} s {X}.
Arguments p_clear {T S}.
Arguments p_clone {T S}.
Arguments p_eq {T S}.

Definition sops_of {T} (m : SetStorage T) : sops T (ss_St m) := {|
  p_len := ss_len m;
  p_is_empty := ss_is_empty m;
  p_insert := ss_insert m;
  p_contains := ss_contains m;
  p_remove := ss_remove m;
  p_retain := fun X => ss_retain m (S := X);
  p_clear := ss_clear m;
  p_clone := ss_clone m;
  p_eq := ss_eq m
|}.

(** Keys for which [insert] reports the opposite. *)
Definition inverted (l : leaf) : bool :=
  match l with LBool | LNone => true | _ => false end.

Definition sib_contains {T} (c : T -> bool) (o : option T) : bool :=
  match o with Some k => c k | None => false end.

(** The outcome of a [retain] whose closure unwound at [w]. *)
Definition ends_at {T} (w : option T) : outcome := match w with Some _ => Unwound | None => Done end.

Record SCore {T S} (sp : KeySpec T) (o : sops T S) : Type := MkSCore {
  sc_inv : S -> Prop;
  sc_abs : S -> list T;
  sc_vis : S -> list T;
  sc_late : T -> T -> bool;
  sc_late_leaf : forall j k, sc_late j k = true -> ks_leaf sp k = LVariant;
  sc_keqb : forall a b, ks_eqb sp a b = true <-> a = b;
  sc_nodup : forall st, sc_inv st -> NoDup (sc_abs st);
  sc_sorted : forall st, sc_inv st -> StronglySorted (fun a b => ~ ks_before sp b a) (sc_abs st);
  sc_vis_nodup : forall st, sc_inv st -> NoDup (sc_vis st);
  sc_vis_sorted : forall st, sc_inv st ->
    StronglySorted (fun a b => ~ ks_before sp b a) (sc_vis st);
  sc_vis_in : forall st k, sc_inv st ->
    (In k (sc_vis st) <-> In k (sc_abs st) \/ ks_leaf sp k = LUnit);
  sc_vis_filter : forall st, sc_inv st -> filter (p_contains o st) (sc_vis st) = sc_abs st;
  sc_len : forall st, sc_inv st -> p_len o st = length (sc_abs st);
  sc_contains : forall st k, sc_inv st -> (p_contains o st k = true <-> In k (sc_abs st));
  sc_is_empty : forall st, sc_inv st ->
    (p_is_empty o st = true <-> forall k, p_contains o st k = true <-> ks_leaf sp k = LNone);
  sc_insert : forall st k, sc_inv st ->
    exists st', p_insert o st k =
                (if inverted (ks_leaf sp k) then p_contains o st k
                 else negb (p_contains o st k), st') /\ sc_inv st' /\
                if p_contains o st k then sc_abs st' = sc_abs st
                else Permutation (sc_abs st') (k :: sc_abs st);
  sc_remove : forall st k, sc_inv st ->
    exists st', p_remove o st k =
                (p_contains o st k || sib_contains (p_contains o st) (ks_sib sp k), st') /\
                sc_inv st' /\
                sc_abs st' = filter (fun x => negb (ks_eqb sp k x)) (sc_abs st);
  sc_retain : forall X (f : set_retain_fn X T) x st, sc_inv st ->
    exists x' st' w, p_retain o f x st = (x', st', ends_at w) /\ sc_inv st' /\
      retain_undo f sc_late (p_contains o st) x (sc_vis st) = (x', sc_abs st', w);
  sc_clear : forall st, sc_inv st -> sc_inv (p_clear o st) /\ sc_abs (p_clear o st) = [];
  sc_clone : forall st, p_clone o st = st;
  sc_eq : forall a b, sc_inv a -> sc_inv b ->
    (p_eq o a b = true <-> forall k, p_contains o a k = p_contains o b k)
}.
Arguments sc_inv {T S sp o}.
Arguments sc_abs {T S sp o}.
Arguments sc_vis {T S sp o}.
Arguments sc_late {T S sp o}.

(** * Retain on plain lists *)

Lemma retain_elems_app {X T} (f : set_retain_fn X T) a : forall b x,
  retain_elems f x (a ++ b) =
  match retain_elems f x a with
  | (x1, a', Done) => let '(x2, b', o) := retain_elems f x1 b in (x2, a' ++ b', o)
  | (x1, a', Unwound) => (x1, a' ++ b, Unwound)
  end.
Proof.
  induction a as [|k a IH]; intros b x; simpl.
  - destruct (retain_elems f x b) as [[? ?] ?]; reflexivity.
  - destruct (f x k) as [x1 []]; auto. rewrite IH.
    destruct (retain_elems f x1 a) as [[x2 a'] []]; auto.
    destruct (retain_elems f x2 b) as [[? ?] ?]; reflexivity.
Qed.

Lemma retain_elems_map {X T T'} (g : T -> T') (f : set_retain_fn X T') l : forall x,
  retain_elems f x (map g l) =
  let '(x', l', o) := retain_elems (fun x k => f x (g k)) x l in (x', map g l', o).
Proof.
  induction l as [|k l IH]; intros x; simpl; auto.
  destruct (f x (g k)) as [x1 []]; auto. rewrite IH.
  destruct (retain_elems _ x1 l) as [[? ?] ?]; reflexivity.
Qed.

Lemma retain_elems_incl {X T} (f : set_retain_fn X T) l : forall x x' l' o,
  retain_elems f x l = (x', l', o) -> forall k, In k l' -> In k l.
Proof.
  induction l as [|k l IH]; intros x x' l' o; simpl.
  - intros [= <- <- <-] ? [].
  - destruct (f x k) as [x1 []].
    + destruct (retain_elems f x1 l) as [[x2 r2] o2] eqn:E. intros [= <- <- <-] y [->|H]; eauto.
    + intros E y H. eauto.
    + intros [= <- <- <-]. auto.
    + intros E y H. eauto.
Qed.

Section Undo.
  Context {X T : Type}.

  Lemma undo_app (f : set_retain_fn X T) late has a : forall b x,
    (forall j k, In j b -> In k a -> late j k = false) ->
    retain_undo f late has x (a ++ b) =
    match retain_undo f late has x a with
    | (x1, a', None) => let '(x2, b', w) := retain_undo f late has x1 b in (x2, a' ++ b', w)
    | (x1, a', Some j) => (x1, a' ++ filter has b, Some j)
    end.
  Proof.
    induction a as [|k a IH]; intros b x Hl; cbn [app retain_undo].
    - destruct (retain_undo f late has x b) as [[? ?] ?]; reflexivity.
    - assert (Hl' : forall j k, In j b -> In k a -> late j k = false) by (intros; apply Hl; simpl; auto).
      assert (W : forall x x' b' w, retain_undo f late has x b = (x', b', w) ->
                match w with Some j => late j k | None => false end = false).
      { intros x0 x' b' [j|] E; auto. apply Hl; [|simpl; auto]. clear -E. revert x0 b' E.
        induction b as [|k b IH]; intros x0 b'; cbn [retain_undo]; [discriminate|].
        destruct (f x0 k) as [x1 []].
        - destruct (retain_undo f late has x1 b) as [[? ?] w] eqn:E. intros [= <- <- ->]. right; eauto.
        - destruct (retain_undo f late has x1 b) as [[? ?] w] eqn:E. intros [= <- <- ->]. right; eauto.
        - intros [= _ _ <-]. now left.
        - destruct (retain_undo f late has x1 b) as [[? ?] w] eqn:E. intros [= <- <- ->]. right; eauto. }
      destruct (f x k) as [x1 []].
      + rewrite IH by exact Hl'. destruct (retain_undo f late has x1 a) as [[x2 a'] [j|]]; auto.
        destruct (retain_undo f late has x2 b) as [[? ?] ?]; reflexivity.
      + rewrite IH by exact Hl'. destruct (retain_undo f late has x1 a) as [[x2 a'] [j|]].
        * destruct (late j k); reflexivity.
        * destruct (retain_undo f late has x2 b) as [[x3 b'] w] eqn:E. now rewrite (W _ _ _ _ E).
      + change (k :: a ++ b) with ((k :: a) ++ b). rewrite filter_app. reflexivity.
      + rewrite IH by exact Hl'. destruct (retain_undo f late has x1 a) as [[x2 a'] [j|]].
        * destruct (late j k); reflexivity.
        * destruct (retain_undo f late has x2 b) as [[x3 b'] w] eqn:E. now rewrite (W _ _ _ _ E).
  Qed.

  Lemma undo_map {T'} (g : T' -> T) (f : set_retain_fn X T) late has late' has' l : forall x,
    (forall a b, late (g a) (g b) = late' a b) -> (forall a, has (g a) = has' a) ->
    retain_undo f late has x (map g l) =
    let '(x', l', w) := retain_undo (fun x k => f x (g k)) late' has' x l in (x', map g l', option_map g w).
  Proof.
    intros x Hl Hh. revert x. induction l as [|k l IH]; intros x; cbn [map retain_undo]; auto.
    destruct (f x (g k)) as [x1 []].
    - rewrite IH. destruct (retain_undo _ late' has' x1 l) as [[? ?] ?]; reflexivity.
    - rewrite IH. destruct (retain_undo _ late' has' x1 l) as [[? ?] [j|]]; cbn [option_map]; [|reflexivity].
      rewrite Hl. destruct (late' j k); reflexivity.
    - cbn [option_map]. f_equal. f_equal. change (g k :: map g l) with (map g (k :: l)). clear -Hh.
      induction (k :: l) as [|a r IHr]; auto. cbn. rewrite Hh, IHr. destruct (has' a); reflexivity.
    - rewrite IH. destruct (retain_undo _ late' has' x1 l) as [[? ?] [j|]]; cbn [option_map]; [|reflexivity].
      rewrite Hl. destruct (late' j k); reflexivity.
  Qed.

  Lemma undo_has (f : set_retain_fn X T) late has has' : (forall k, has k = has' k) -> forall l x,
    retain_undo f late has x l = retain_undo f late has' x l.
  Proof.
    intros H. induction l as [|k l IH]; intros x; cbn [retain_undo]; auto.
    destruct (f x k) as [x1 []]; rewrite ?IH; auto. now rewrite (filter_ext _ _ H).
  Qed.

  Lemma undo_late (f : set_retain_fn X T) late late' has : (forall j k, late j k = late' j k) ->
    forall l x, retain_undo f late has x l = retain_undo f late' has x l.
  Proof.
    intros H. induction l as [|k l IH]; intros x; cbn [retain_undo]; auto.
    destruct (f x k) as [x1 []]; rewrite ?IH; auto;
      destruct (retain_undo f late' has x1 l) as [[x2 r2] [j|]]; rewrite ?H; auto.
  Qed.

  Lemma undo_all (f : set_retain_fn X T) has l : forall x x' l' oc, retain_elems f x l = (x', l', oc) ->
    (forall k, In k l -> has k = true) ->
    exists w, oc = ends_at w /\
      retain_undo f (fun _ _ => true) has x l = (x', match oc with Done => l' | Unwound => l end, w).
  Proof.
    induction l as [|k l IH]; intros x x' l' oc; cbn [retain_undo retain_elems].
    - intros [= <- <- <-] _. now exists None.
    - assert (All : forall l : list T, (forall k, In k l -> has k = true) -> filter has l = l).
      { clear. induction l as [|k l IH]; auto. intros H. cbn. rewrite (H k) by now left.
        f_equal. apply IH. intros j Hj. apply H. now right. }
      destruct (f x k) as [x1 []]; intros E Hh;
        assert (Hh' : forall k, In k l -> has k = true) by (intros; apply Hh; now right).
      + destruct (retain_elems f x1 l) as [[x2 r2] o2] eqn:E2. injection E as <- <- <-.
        destruct (IH _ _ _ _ E2 Hh') as (w & -> & ->). exists w. destruct w; auto.
      + destruct (IH _ _ _ _ E Hh') as (w & -> & ->). exists w. destruct w; auto.
      + injection E as <- <- <-. exists (Some k). split; [reflexivity|].
        change (if has k then k :: filter has l else filter has l) with (filter has (k :: l)).
        now rewrite All.
      + destruct (IH _ _ _ _ E Hh') as (w & -> & ->). exists w. destruct w; auto.
  Qed.

  (** Compared with undoing nothing. *)
  Lemma undo_elems (f : set_retain_fn X T) late has l : forall x x' l' w, NoDup l ->
    retain_undo f late has x l = (x', l', w) ->
    exists l2, retain_elems f x l = (x', l2, ends_at w) /\
      match w with
      | None => l' = l2
      | Some _ => (forall k, In k l' -> In k l /\ (has k = true \/ In k l2 \/ exists j, late j k = true)) /\
                  (forall k, has k = true -> In k l2 -> In k l')
      end.
  Proof.
    induction l as [|k l IH]; intros x x' l' w N; cbn [retain_undo retain_elems].
    - intros [= <- <- <-]. exists []. auto.
    - inversion N as [|? ? N1 N2]; subst. destruct (f x k) as [x1 []].
      + destruct (retain_undo f late has x1 l) as [[x2 r2] w2] eqn:E. intros [= <- <- <-].
        destruct (IH _ _ _ _ N2 E) as (l2 & E2 & H). rewrite E2. exists (k :: l2). split; [reflexivity|].
        destruct w2 as [j|]; [|congruence]. destruct H as [H1 H2]. split.
        * intros y [->|Hy]; simpl; auto. destruct (H1 y Hy) as [? [?|[?|?]]]; auto.
        * intros y Hy [->|Hi]; simpl; auto.
      + destruct (retain_undo f late has x1 l) as [[x2 r2] w2] eqn:E. intros [= <- <- <-].
        destruct (IH _ _ _ _ N2 E) as (l2 & E2 & H). rewrite E2. exists l2. split; [reflexivity|].
        destruct w2 as [j|]; [|exact H]. destruct H as [H1 H2]. destruct (late j k) eqn:El; split; auto.
        * intros y [->|Hy]; [split; [now left|]; right; right; now exists j|].
          destruct (H1 y Hy) as [? ?]. split; [now right|assumption].
        * intros y Hy Hi. right. auto.
        * intros y Hy. destruct (H1 y Hy) as [? [?|[?|?]]]; simpl; auto.
      + intros [= <- <- <-]. exists (k :: l). split; [reflexivity|]. split.
        * intros y Hy. change (In y (filter has (k :: l))) in Hy. apply filter_In in Hy as [? ?]. auto.
        * intros y Hy Hi. change (In y (filter has (k :: l))). apply filter_In. auto.
      + destruct (retain_undo f late has x1 l) as [[x2 r2] w2] eqn:E. intros [= <- <- <-].
        destruct (IH _ _ _ _ N2 E) as (l2 & E2 & H). rewrite E2. exists l2. split; [reflexivity|].
        destruct w2 as [j|]; [|exact H]. destruct H as [H1 H2]. destruct (late j k) eqn:El; split; auto.
        * intros y [->|Hy]; [split; [now left|]; right; right; now exists j|].
          destruct (H1 y Hy) as [? ?]. split; [now right|assumption].
        * intros y Hy Hi. right. auto.
        * intros y Hy. destruct (H1 y Hy) as [? [?|[?|?]]]; simpl; auto.
  Qed.
End Undo.

Lemma sc_retain_some {T S} {sp : KeySpec T} {o : sops T S} (c : SCore sp o) X (f : set_retain_fn X T) x st :
  sc_inv c st ->
  exists x' st' oc l', p_retain o f x st = (x', st', oc) /\ sc_inv c st' /\
    retain_elems f x (sc_vis c st) = (x', l', oc) /\
    match oc with
    | Done => sc_abs c st' = l'
    | Unwound =>
        (forall k, In k (sc_abs c st') -> In k (sc_abs c st) \/ In k l' /\ ks_leaf sp k = LUnit) /\
        (forall k, In k (sc_abs c st) -> In k l' -> In k (sc_abs c st'))
    end.
Proof.
  intros H. destruct (sc_retain _ _ c X f x st H) as (x' & st' & w & E & H' & U).
  destruct (undo_elems _ _ _ _ _ _ _ _ (sc_vis_nodup _ _ c st H) U) as (l2 & E2 & C).
  exists x', st', (ends_at w), l2. split; [exact E|]. split; [exact H'|]. split; [exact E2|].
  destruct w as [j|]; [|exact C]. destruct C as [C1 C2]. split.
  - intros k Hk. destruct (C1 k Hk) as [Hv D]. apply (sc_vis_in _ _ c st k H) in Hv as [Hv|Hv]; auto.
    destruct D as [D|[D|[i D]]]; auto.
    + left. now apply (sc_contains _ _ c st k H).
    + apply (sc_late_leaf _ _ c) in D. congruence.
  - intros k Hk. apply C2. now apply (sc_contains _ _ c st k H).
Qed.

(** * One flag *)

Definition flag_abs (b : bool) : list unit := if b then [tt] else [].

Definition flag_spec (lf : leaf) : KeySpec unit :=
  MkKeySpec unit_eqb no_order (fun _ => lf) (fun _ => None).

Definition flag_sops (lf : leaf) : sops unit bool := {|
  p_len := fun b => usize_from b;
  p_is_empty := fun b => if inverted lf then b else negb b;
  p_insert := fun b _ => (if inverted lf then b else negb b, true);
  p_contains := fun b _ => b;
  p_remove := fun b _ => (b, false);
  p_retain := fun X f x b => retain_flag f x tt b;
  p_clear := fun _ => false;
  p_clone := fun b => b;
  p_eq := fun a b => Bool.eqb a b
|}.

Definition flag_core (lf : leaf) (H : lf = LVariant \/ lf = LNone)
  : SCore (flag_spec lf) (flag_sops lf).
Proof.
  refine {| sc_inv := fun _ : bool => True; sc_abs := flag_abs; sc_vis := flag_abs;
            sc_late := fun _ _ => false |}.
  - discriminate.
  - intros [] []; split; reflexivity.
  - intros [] _; simpl; repeat constructor; auto.
  - intros [] _; simpl; repeat constructor.
  - intros [] _; simpl; repeat constructor; auto.
  - intros [] _; simpl; repeat constructor.
  - intros [] [] _; simpl; destruct H as [-> | ->]; intuition discriminate.
  - intros [] _; reflexivity.
  - intros [] _; reflexivity.
  - intros [] [] _; simpl; intuition discriminate.
  - intros b _. destruct H as [-> | ->]; simpl; destruct b; simpl; split; intros E; try discriminate;
      auto; try (intros []; intuition discriminate).
    + specialize (E tt). destruct E as [E _]. discriminate (E eq_refl).
    + specialize (E tt). destruct E as [_ E]. discriminate (E eq_refl).
  - intros b [] _. exists true. simpl. split; [reflexivity|split; [exact I|]].
    destruct b; simpl; auto.
  - intros b [] _. exists false. simpl. rewrite orb_false_r. split; [reflexivity|split; [exact I|]].
    destruct b; reflexivity.
  - intros X f x [] _; simpl.
    + destruct (f x tt) as [x1 []];
        [exists x1, true, None|exists x1, false, None|exists x1, true, (Some tt)|exists x1, false, None];
        repeat split.
    + exists x, false, None. repeat split.
  - intros b _. simpl. auto.
  - reflexivity.
  - intros a b _ _. simpl. rewrite Bool.eqb_true_iff. split; auto. intros E. apply (E tt).
Defined.

(** * The storage without elements *)

Definition nil_sops (S : Type) : sops Empty_set S := {|
  p_len := fun _ => 0;
  p_is_empty := fun _ => true;
  p_insert := fun _ (k : Empty_set) => match k with end;
  p_contains := fun _ (k : Empty_set) => match k with end;
  p_remove := fun _ (k : Empty_set) => match k with end;
  p_retain := fun X f x st => (x, st, Done);
  p_clear := fun st => st;
  p_clone := fun st => st;
  p_eq := fun _ _ => true
|}.

Definition nil_score (S : Type) : SCore nil_spec (nil_sops S).
Proof.
  refine {| sc_inv := fun _ : S => True; sc_abs := fun _ => []; sc_vis := fun _ => [];
            sc_late := fun _ _ => false |};
    try (intros; simpl; auto; fail); try (intros; constructor; fail);
    try (intros a []; fail); try (intros a b []; fail); try (intros []; fail).
  all: try (intros; split; auto; intros _ []; fail).
  - intros. exists x, st, None. repeat split.
Defined.

(** * Two storages side by side *)

Definition sum_sops {A B SA SB} (a : sops A SA) (b : sops B SB) : sops (A + B) (SA * SB) := {|
  p_len := fun st => p_len a (fst st) + p_len b (snd st);
  p_is_empty := fun st => p_is_empty a (fst st) && p_is_empty b (snd st);
  p_insert := fun st k =>
    match k with
    | inl x => let '(r, s) := p_insert a (fst st) x in (r, (s, snd st))
    | inr x => let '(r, s) := p_insert b (snd st) x in (r, (fst st, s))
    end;
  p_contains := fun st k =>
    match k with inl x => p_contains a (fst st) x | inr x => p_contains b (snd st) x end;
  p_remove := fun st k =>
    match k with
    | inl x => let '(r, s) := p_remove a (fst st) x in (r, (s, snd st))
    | inr x => let '(r, s) := p_remove b (snd st) x in (r, (fst st, s))
    end;
  p_retain := fun X f x st =>
    match p_retain a (fun x k => f x (inl k)) x (fst st) with
    | (x1, s1, Unwound) => (x1, (s1, snd st), Unwound)
    | (x1, s1, Done) =>
        let '(x2, s2, o) := p_retain b (fun x k => f x (inr k)) x1 (snd st) in (x2, (s1, s2), o)
    end;
  p_clear := fun st => (p_clear a (fst st), p_clear b (snd st));
  p_clone := fun st => (p_clone a (fst st), p_clone b (snd st));
  p_eq := fun x y => p_eq a (fst x) (fst y) && p_eq b (snd x) (snd y)
|}.

Section Sum.
  Context {A B SA SB : Type} {sa : KeySpec A} {sb : KeySpec B} {a : sops A SA} {b : sops B SB}
          (ca : SCore sa a) (cb : SCore sb b).

  Definition sum_list {X Y} (la : list X) (lb : list Y) : list (X + Y) :=
    map inl la ++ map inr lb.

  Lemma in_sum_l {X Y} (la : list X) (lb : list Y) x : In (inl x) (sum_list la lb) <-> In x la.
  Proof.
    unfold sum_list. rewrite in_app_iff, !in_map_iff. split.
    - intros [(y & [= ->] & H)|(y & [=] & _)]. auto.
    - intros H. left. eauto.
  Qed.

  Lemma in_sum_r {X Y} (la : list X) (lb : list Y) x : In (inr x) (sum_list la lb) <-> In x lb.
  Proof.
    unfold sum_list. rewrite in_app_iff, !in_map_iff. split.
    - intros [(y & [=] & _)|(y & [= ->] & H)]. auto.
    - intros H. right. eauto.
  Qed.

  Lemma sum_nodup {X Y} (la : list X) (lb : list Y) :
    NoDup la -> NoDup lb -> NoDup (sum_list la lb).
  Proof.
    intros Ha Hb. apply NoDup_app_disj.
    - apply NoDup_map_inj; [congruence|auto].
    - apply NoDup_map_inj; [congruence|auto].
    - intros x H1 H2. apply in_map_iff in H1 as (? & <- & _).
      apply in_map_iff in H2 as (? & [=] & _).
  Qed.

  Lemma sum_sorted {X Y} (pa : X -> X -> Prop) (pb : Y -> Y -> Prop) (la : list X) (lb : list Y) :
    StronglySorted (fun x y => ~ pa y x) la -> StronglySorted (fun x y => ~ pb y x) lb ->
    StronglySorted (fun x y => ~ sum_before pa pb y x) (sum_list la lb).
  Proof.
    intros Ha Hb. apply StronglySorted_app.
    - eapply StronglySorted_map; [|exact Ha]. auto.
    - eapply StronglySorted_map; [|exact Hb]. auto.
    - intros x y H1 H2. apply in_map_iff in H1 as (? & <- & _).
      apply in_map_iff in H2 as (? & <- & _). simpl. auto.
  Qed.

  Lemma filter_map_comm {X Y} (g : X -> Y) (f : Y -> bool) l :
    filter f (map g l) = map g (filter (fun x => f (g x)) l).
  Proof. induction l as [|x l IH]; simpl; auto. destruct (f (g x)); simpl; congruence. Qed.

  Lemma filter_sum {X Y} (f : X + Y -> bool) la lb :
    filter f (sum_list la lb) =
    sum_list (filter (fun x => f (inl x)) la) (filter (fun x => f (inr x)) lb).
  Proof. unfold sum_list. rewrite filter_app, !filter_map_comm. reflexivity. Qed.

  Lemma filter_true {X} (f : X -> bool) l : (forall x, f x = true) -> filter f l = l.
  Proof. intros H. induction l; simpl; auto. rewrite H. congruence. Qed.

  Definition sum_score : SCore (sum_spec sa sb) (sum_sops a b).
  Proof.
    refine {| sc_inv := fun st : SA * SB => sc_inv ca (fst st) /\ sc_inv cb (snd st);
              sc_abs := fun st => sum_list (sc_abs ca (fst st)) (sc_abs cb (snd st));
              sc_vis := fun st => sum_list (sc_vis ca (fst st)) (sc_vis cb (snd st));
              sc_late := fun j k =>
                match j, k with
                | inl x, inl y => sc_late ca x y
                | inr x, inr y => sc_late cb x y
                | _, _ => false
                end |}.
    - intros [j|j] [k|k]; simpl; try discriminate; [apply (sc_late_leaf _ _ ca)|apply (sc_late_leaf _ _ cb)].
    - intros [x|x] [y|y]; simpl; try (split; congruence).
      + rewrite (sc_keqb _ _ ca). split; congruence.
      + rewrite (sc_keqb _ _ cb). split; congruence.
    - intros st [Ha Hb]. apply sum_nodup; [apply (sc_nodup _ _ ca)|apply (sc_nodup _ _ cb)]; auto.
    - intros st [Ha Hb]. apply sum_sorted; [apply (sc_sorted _ _ ca)|apply (sc_sorted _ _ cb)]; auto.
    - intros st [Ha Hb].
      apply sum_nodup; [apply (sc_vis_nodup _ _ ca)|apply (sc_vis_nodup _ _ cb)]; auto.
    - intros st [Ha Hb].
      apply sum_sorted; [apply (sc_vis_sorted _ _ ca)|apply (sc_vis_sorted _ _ cb)]; auto.
    - intros st [k|k] [Ha Hb].
      + rewrite !in_sum_l. apply (sc_vis_in _ _ ca); auto.
      + rewrite !in_sum_r. apply (sc_vis_in _ _ cb); auto.
    - intros st [Ha Hb]. rewrite filter_sum. simpl.
      rewrite <- (sc_vis_filter _ _ ca _ Ha), <- (sc_vis_filter _ _ cb _ Hb). reflexivity.
    - intros st [Ha Hb]. simpl. unfold sum_list. rewrite app_length, !map_length.
      rewrite (sc_len _ _ ca), (sc_len _ _ cb); auto.
    - intros st [k|k] [Ha Hb]; simpl.
      + rewrite in_sum_l. apply (sc_contains _ _ ca); auto.
      + rewrite in_sum_r. apply (sc_contains _ _ cb); auto.
    - intros st [Ha Hb]. simpl. rewrite andb_true_iff.
      rewrite (sc_is_empty _ _ ca), (sc_is_empty _ _ cb) by auto. split.
      + intros [H1 H2] [k|k]; simpl; auto.
      + intros H. split; intros k; [apply (H (inl k))|apply (H (inr k))].
    - intros st [k|k] [Ha Hb]; simpl.
      + destruct (sc_insert _ _ ca (fst st) k Ha) as (s' & E & Hi & Hp). rewrite E.
        exists (s', snd st). split; [reflexivity|]. split; [auto|]. simpl.
        destruct (p_contains a (fst st) k).
        * rewrite Hp. reflexivity.
        * unfold sum_list.
          change (inl k :: map inl (sc_abs ca (fst st)) ++ map inr (sc_abs cb (snd st)))
            with (map (@inl A B) (k :: sc_abs ca (fst st)) ++ map inr (sc_abs cb (snd st))).
          apply Permutation_app_tail, Permutation_map, Hp.
      + destruct (sc_insert _ _ cb (snd st) k Hb) as (s' & E & Hi & Hp). rewrite E.
        exists (fst st, s'). split; [reflexivity|]. split; [auto|]. simpl.
        destruct (p_contains b (snd st) k).
        * rewrite Hp. reflexivity.
        * unfold sum_list. etransitivity; [|symmetry; apply Permutation_middle].
          apply Permutation_app_head.
          change (inr k :: map inr (sc_abs cb (snd st))) with
            (map (@inr A B) (k :: sc_abs cb (snd st))).
          apply Permutation_map, Hp.
    - intros st [k|k] [Ha Hb]; simpl.
      + destruct (sc_remove _ _ ca (fst st) k Ha) as (s' & E & Hi & Hp). rewrite E.
        exists (s', snd st). split.
        * f_equal. f_equal. destruct (ks_sib sa k); reflexivity.
        * split; [auto|]. simpl. rewrite filter_sum, Hp. simpl. f_equal.
          rewrite filter_true by auto. reflexivity.
      + destruct (sc_remove _ _ cb (snd st) k Hb) as (s' & E & Hi & Hp). rewrite E.
        exists (fst st, s'). split.
        * f_equal. f_equal. destruct (ks_sib sb k); reflexivity.
        * split; [auto|]. simpl. rewrite filter_sum, Hp. simpl. f_equal.
          rewrite filter_true by auto. reflexivity.
    - intros X f x st [Ha Hb]. simpl. unfold sum_list at 1. rewrite undo_app.
      2:{ intros j k Hj Hk. apply in_map_iff in Hj as (? & <- & _). apply in_map_iff in Hk as (? & <- & _).
          reflexivity. }
      rewrite (undo_map inl f _ _ (sc_late ca) (p_contains a (fst st))) by reflexivity.
      destruct (sc_retain _ _ ca X (fun x k => f x (inl k)) x (fst st) Ha)
        as (x1 & s1 & w1 & E1 & Hi1 & R1).
      rewrite E1, R1. destruct w1 as [j|]; cbn [option_map ends_at].
      + exists x1, (s1, snd st), (Some (inl j)). split; [reflexivity|]. split; [auto|]. simpl.
        unfold sum_list. rewrite filter_map_comm. cbv beta iota. rewrite <- (sc_vis_filter _ _ cb _ Hb). reflexivity.
      + rewrite (undo_map inr f _ _ (sc_late cb) (p_contains b (snd st))) by reflexivity.
        destruct (sc_retain _ _ cb X (fun x k => f x (inr k)) x1 (snd st) Hb)
          as (x2 & s2 & w2 & E2 & Hi2 & R2).
        rewrite E2, R2. exists x2, (s1, s2), (option_map inr w2).
        split; [destruct w2; reflexivity|]. split; [auto|]. reflexivity.
    - intros st [Ha Hb]. simpl. destruct (sc_clear _ _ ca _ Ha) as [H1 H2].
      destruct (sc_clear _ _ cb _ Hb) as [H3 H4]. rewrite H2, H4. auto.
    - intros [x y]. simpl. rewrite (sc_clone _ _ ca), (sc_clone _ _ cb). reflexivity.
    - intros x y [Ha Hb] [Ha' Hb']. simpl. rewrite andb_true_iff.
      rewrite (sc_eq _ _ ca), (sc_eq _ _ cb) by auto. split.
      + intros [H1 H2] [k|k]; auto.
      + intros H. split; intros k; [apply (H (inl k))|apply (H (inr k))].
  Defined.
End Sum.

(** * Storages that simulate another one *)

Section Sim.
  Context {A B SA SB : Type} {sa : KeySpec A} {a : sops A SA} (ca : SCore sa a)
          (b : sops B SB) (sb : KeySpec B) (phi : SB -> SA) (to : B -> A) (of : A -> B).

  Record ssim : Prop := {
    t_inj : forall x y, phi x = phi y -> x = y;
    t_of_to : forall k, of (to k) = k;
    t_to_of : forall k, to (of k) = k;
    t_eqb : forall x y, ks_eqb sb x y = ks_eqb sa (to x) (to y);
    t_before : forall x y, ks_before sb x y -> ks_before sa (to x) (to y);
    t_leaf : forall x, ks_leaf sb x = ks_leaf sa (to x);
    t_sib : forall x, ks_sib sb x = option_map of (ks_sib sa (to x));
    t_len : forall st, p_len b st = p_len a (phi st);
    t_is_empty : forall st, p_is_empty b st = p_is_empty a (phi st);
    t_insert : forall st k,
      (fst (p_insert b st k), phi (snd (p_insert b st k))) = p_insert a (phi st) (to k);
    t_contains : forall st k, p_contains b st k = p_contains a (phi st) (to k);
    t_remove : forall st k,
      (fst (p_remove b st k), phi (snd (p_remove b st k))) = p_remove a (phi st) (to k);
    t_retain : forall X (f : set_retain_fn X B) x st,
      (let '(x', st', oc) := p_retain b f x st in (x', phi st', oc)) =
      p_retain a (fun x k => f x (of k)) x (phi st);
    t_clear : forall st, phi (p_clear b st) = p_clear a (phi st);
    t_clone : forall st, phi (p_clone b st) = p_clone a (phi st);
    t_eq : forall x y, p_eq b x y = p_eq a (phi x) (phi y)
  }.

  Definition sim_score (H : ssim) : SCore sb b.
  Proof.
    assert (Hin : forall k l, In k (map of l) <-> In (to k) l).
    { intros k l. rewrite in_map_iff. split.
      - intros (x & <- & Hx). rewrite (t_to_of H). exact Hx.
      - intros Hx. exists (to k). rewrite (t_of_to H). auto. }
    refine {| sc_inv := fun st : SB => sc_inv ca (phi st);
              sc_abs := fun st => map of (sc_abs ca (phi st));
              sc_vis := fun st => map of (sc_vis ca (phi st));
              sc_late := fun j k => sc_late ca (to j) (to k) |}.
    - intros j k E. rewrite (t_leaf H). exact (sc_late_leaf _ _ ca _ _ E).
    - intros x y. rewrite (t_eqb H), (sc_keqb _ _ ca). split; [|congruence].
      intros E. rewrite <- (t_of_to H x), <- (t_of_to H y), E. reflexivity.
    - intros st Hi. apply NoDup_map_inj; [|apply (sc_nodup _ _ ca); auto].
      intros x y E. rewrite <- (t_to_of H x), <- (t_to_of H y), E. reflexivity.
    - intros st Hi. eapply StronglySorted_map; [|apply (sc_sorted _ _ ca); auto].
      intros x y Hn Hb. apply Hn. apply (t_before H) in Hb. rewrite !(t_to_of H) in Hb. exact Hb.
    - intros st Hi. apply NoDup_map_inj; [|apply (sc_vis_nodup _ _ ca); auto].
      intros x y E. rewrite <- (t_to_of H x), <- (t_to_of H y), E. reflexivity.
    - intros st Hi. eapply StronglySorted_map; [|apply (sc_vis_sorted _ _ ca); auto].
      intros x y Hn Hb. apply Hn. apply (t_before H) in Hb. rewrite !(t_to_of H) in Hb. exact Hb.
    - intros st k Hi. rewrite !Hin, (t_leaf H). apply (sc_vis_in _ _ ca); auto.
    - intros st Hi. rewrite filter_map_comm, <- (sc_vis_filter _ _ ca _ Hi). f_equal.
      apply filter_ext. intros x. rewrite (t_contains H), (t_to_of H). reflexivity.
    - intros st Hi. rewrite (t_len H), map_length. apply (sc_len _ _ ca); auto.
    - intros st k Hi. rewrite (t_contains H), Hin. apply (sc_contains _ _ ca); auto.
    - intros st Hi. rewrite (t_is_empty H), (sc_is_empty _ _ ca) by auto. split.
      + intros Hk k. rewrite (t_contains H), (t_leaf H). auto.
      + intros Hk k. rewrite <- (t_to_of H k), <- (t_contains H), <- (t_leaf H). auto.
    - intros st k Hi. rewrite (t_leaf H), (t_contains H).
      destruct (sc_insert _ _ ca (phi st) (to k) Hi) as (s' & E & Hi' & Hp).
      pose proof (t_insert H st k) as Hs. rewrite E in Hs.
      destruct (p_insert b st k) as [r st']. simpl in Hs. injection Hs as -> <-.
      exists st'. split; [reflexivity|]. split; [auto|].
      destruct (p_contains a (phi st) (to k)); [rewrite Hp; reflexivity|].
      rewrite <- (t_of_to H k) at 1. change (of (to k) :: map of (sc_abs ca (phi st)))
        with (map of (to k :: sc_abs ca (phi st))). apply Permutation_map, Hp.
    - intros st k Hi. rewrite (t_contains H).
      destruct (sc_remove _ _ ca (phi st) (to k) Hi) as (s' & E & Hi' & Hp).
      pose proof (t_remove H st k) as Hs. rewrite E in Hs.
      destruct (p_remove b st k) as [r st']. simpl in Hs. injection Hs as -> <-.
      exists st'. split.
      + f_equal. f_equal. rewrite (t_sib H). destruct (ks_sib sa (to k)); simpl; auto.
        rewrite (t_contains H), (t_to_of H). reflexivity.
      + split; [auto|]. rewrite Hp, filter_map_comm. f_equal. apply filter_ext.
        intros x. rewrite (t_eqb H), (t_to_of H). reflexivity.
    - intros X f x st Hi.
      destruct (sc_retain _ _ ca X (fun x k => f x (of k)) x (phi st) Hi)
        as (x' & s' & w & E & Hi' & R).
      pose proof (t_retain H X f x st) as Hs. rewrite E in Hs.
      destruct (p_retain b f x st) as [[x2 st'] oc2]. injection Hs as -> <- ->.
      exists x', st', (option_map of w). split; [destruct w; reflexivity|]. split; [auto|].
      rewrite (undo_map of f _ _ (sc_late ca) (p_contains a (phi st))), R; [reflexivity| |].
      + intros x0 y0. now rewrite !(t_to_of H).
      + intros x0. now rewrite (t_contains H), (t_to_of H).
    - intros st Hi. rewrite (t_clear H). destruct (sc_clear _ _ ca _ Hi) as [H1 H2].
      rewrite H2. auto.
    - intros st. apply (t_inj H). rewrite (t_clone H). apply (sc_clone _ _ ca).
    - intros x y Hx Hy. rewrite (t_eq H), (sc_eq _ _ ca) by auto. split.
      + intros E k. rewrite !(t_contains H). auto.
      + intros E k. rewrite <- (t_to_of H k), <- !(t_contains H). auto.
  Defined.
End Sim.
