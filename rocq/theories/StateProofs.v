(** Contents determine the state (hash-free keys), equal maps and sets are
    interchangeable (all keys), and debug output. *)
Require Import List Arith NArith ZArith Bool Lia Permutation.
Import ListNotations.
From Verif Require Import Std Traits Hashbrown MapStorages SetStorages DeriveUnit DeriveAny
  Key Api Spec Reach History SetHistory StateSpec KeyLaws.

(** * Hash-free keys: the state is a function of the contents *)

Definition map_canon {K V} (m : MapStorage K V) : Prop :=
  forall a b : ms_St m, (forall k, ms_get m a k = ms_get m b k) -> a = b.

Definition set_canon {T} (m : SetStorage T) : Prop :=
  forall a b : ss_St m, ss_eq m a b = true -> a = b.

Lemma arr_ext {A R} (u : units R) : forall a b : arr A u,
  (forall k, arr_get u a k = arr_get u b k) -> a = b.
Proof.
  induction u as [|R u IH]; simpl; intros a b H.
  - destruct a, b. reflexivity.
  - destruct a as [x a], b as [y b]. f_equal.
    + exact (H (inl tt)).
    + apply IH. intros k. exact (H (inr k)).
Qed.

Lemma arr_eq_ext {R} (u : units R) : forall a b : arr bool u,
  arr_eq Bool.eqb u a b = true -> a = b.
Proof.
  induction u as [|R u IH]; simpl; intros a b H.
  - destruct a, b. reflexivity.
  - destruct a as [x a], b as [y b]. simpl in H. apply andb_true_iff in H as [H1 H2].
    apply Bool.eqb_prop in H1. subst y. f_equal. auto.
Qed.

Fixpoint fields_canon (P : forall K, KeyImpl K -> Prop) {R} (fs : fields R) : Prop :=
  match fs with
  | FNil => True
  | FUnit fs => fields_canon P fs
  | FTuple ki fs => P _ ki /\ fields_canon P fs
  end.

Lemma any_canon V {R} (fs : fields R) :
  fields_canon (fun K ki => map_canon (ki_map ki V)) fs -> map_canon (any_map_storage V fs).
Proof.
  unfold map_canon. simpl. induction fs as [|R fs IH|K R ki fs IH]; simpl; intros P a b H.
  - destruct a, b. reflexivity.
  - destruct a as [x a], b as [y b]. f_equal.
    + exact (H (inl tt)).
    + apply IH; auto. intros k. exact (H (inr k)).
  - destruct P as [P1 P2]. destruct a as [x a], b as [y b]. f_equal.
    + apply P1. intros k. exact (H (inl k)).
    + apply IH; auto. intros k. exact (H (inr k)).
Qed.

Lemma anys_canon {R} (fs : fields R) :
  fields_canon (fun K ki => set_canon (ki_set ki)) fs -> set_canon (any_set_storage fs).
Proof.
  unfold set_canon. simpl. induction fs as [|R fs IH|K R ki fs IH]; simpl; intros P a b H.
  - destruct a, b. reflexivity.
  - destruct a as [x a], b as [y b]. simpl in H.
    destruct (Bool.eqb x y) eqn:E; [|discriminate]. apply Bool.eqb_prop in E. subst y.
    f_equal. auto.
  - destruct P as [P1 P2]. destruct a as [x a], b as [y b]. simpl in H.
    destruct (ss_eq (ki_set ki) x y) eqn:E; [|discriminate]. f_equal; auto.
Qed.

Lemma derive_canon :
  (forall t, hash_free t = true -> forall ki, derive t = Some ki ->
     (forall V, map_canon (ki_map ki V)) /\ set_canon (ki_set ki)) /\
  (forall vs, hash_free_variants vs = true -> forall fs, derive_fields vs = Some fs ->
     (forall V, fields_canon (fun K ki => map_canon (ki_map ki V)) fs) /\
     fields_canon (fun K ki => set_canon (ki_set ki)) fs).
Proof.
  apply kty_mut.
  - intros _ ki [= <-]. split.
    + intros V [t1 f1] [t2 f2] H. f_equal; [exact (H true)|exact (H false)].
    + intros [a] [b] H. apply N.eqb_eq in H. simpl in H. subst. reflexivity.
  - intros _ ki [= <-]. split.
    + intros V [a] [b] H. f_equal. exact (H tt).
    + intros [a] [b] H. apply Bool.eqb_prop in H. simpl in H. subst. reflexivity.
  - intros p [=].
  - intros t IH F ki E. apply option_map_inv in E as (ki' & E & ->).
    destruct (IH F ki' E) as [I1 I2]. split.
    + intros V [s1 n1] [s2 n2] H. f_equal.
      * apply I1. intros k. exact (H (Some k)).
      * exact (H None).
    + intros [s1 n1] [s2 n2] H. simpl in H. apply andb_true_iff in H as [H1 H2].
      apply Bool.eqb_prop in H1. subst n2. f_equal. auto.
  - intros bitset vs IH F ki E. simpl in E. destruct (as_units vs) as [u|] eqn:Eu.
    + assert (U : forall V, map_canon (unit_map_storage u V)).
      { intros V [a] [b] H. f_equal. apply arr_ext. exact H. }
      unfold derive_unit in E. destruct bitset.
      * destruct (determine_bits _) as [w|]; [|discriminate].
        assert (E' : MkKeyImpl (unit_map_storage u) (bit_set_storage u w) = ki)
          by (simpl in E; congruence).
        subst ki. split; [exact U|]. intros [a] [b] H. apply N.eqb_eq in H. simpl in H.
        subst. reflexivity.
      * assert (E' : MkKeyImpl (unit_map_storage u) (unit_set_storage u) = ki)
          by (simpl in E; congruence).
        subst ki. split; [exact U|]. intros [a] [b] H. f_equal. apply arr_eq_ext. exact H.
    + apply option_map_inv in E as (fs & E & ->). destruct (IH F fs E) as [I1 I2]. split.
      * intros V. apply any_canon. apply I1.
      * apply anys_canon. exact I2.
  - intros _ fs [= <-]. simpl. auto.
  - intros r IH F fs E. apply option_map_inv in E as (fs' & E & ->). apply (IH F fs' E).
  - intros t IHt r IHr F fs E. simpl in E, F. apply andb_true_iff in F as [F1 F2].
    destruct (derive t) as [ki|] eqn:Et; [|discriminate].
    destruct (derive_fields r) as [fs'|] eqn:Er; [|discriminate].
    injection E as <-. destruct (IHt F1 ki eq_refl) as [A1 A2].
    destruct (IHr F2 fs' eq_refl) as [B1 B2]. simpl. auto.
Qed.

(** * All keys: equal contents, equal behaviour up to order *)

Lemma lists_perm2 {K V} (f g : fmap K V) l l' :
  (forall k, f k = g k) -> lists f l -> lists g l' -> Permutation l l'.
Proof.
  intros E [N1 H1] [N2 H2]. apply NoDup_Permutation.
  - eapply NoDup_map_inv. exact N1.
  - eapply NoDup_map_inv. exact N2.
  - intros [k v]. rewrite H1, H2, E. tauto.
Qed.

Lemma retain_list_blind {K V} (f : list (K * V) -> K -> V -> V * answer) (g : K -> V -> V * bool) :
  (forall log k v, f log k v = (fst (g k v), if snd (g k v) then Keep else Discard)) ->
  forall l log, retain_list (logged f) log l =
    (log ++ l,
     flat_map (fun e => if snd (g (fst e) (snd e)) then [(fst e, fst (g (fst e) (snd e)))] else []) l,
     Done).
Proof.
  intros H. induction l as [|[k v] l IH]; intros log; simpl.
  - rewrite app_nil_r. reflexivity.
  - unfold logged at 1. rewrite H. destruct (snd (g k v)); simpl; rewrite IH, <- app_assoc; reflexivity.
Qed.

Section Blind.
  Context {K V : Type} (dec : forall a b : K, a = b \/ a <> b).

  Lemma updates_same (f g f' g' : fmap K V) k o :
    keeps f g -> updates f k o f' -> updates g k o g' -> keeps f' g'.
  Proof.
    intros E [A1 A2] [B1 B2] x. destruct (dec x k) as [->|N].
    - congruence.
    - rewrite A2, B2; auto.
  Qed.

  Lemma keeps_same (f g f' g' : fmap K V) : keeps f g -> keeps f f' -> keeps g g' -> keeps f' g'.
  Proof. intros E A B x. rewrite A, B. apply E. Qed.

  Lemma spec_op_same (f g f' g' : fmap K V) o x y : order_blind o -> keeps f g ->
    spec_op f o x f' -> spec_op g o y g' -> same_result x y /\ keeps f' g'.
  Proof.
    intros B E. destruct o; simpl in *.
    - intros [-> A] [-> C]. rewrite E. split; [reflexivity|]. exact (keeps_same _ _ _ _ E A C).
    - intros [-> A] [-> C]. rewrite E. split; [reflexivity|]. exact (keeps_same _ _ _ _ E A C).
    - intros [-> A] [-> C]. rewrite (E k) in C. rewrite E. split; [reflexivity|].
      destruct (f k); [exact (updates_same _ _ _ _ _ _ E A C)|exact (keeps_same _ _ _ _ E A C)].
    - intros [-> A] [-> C]. rewrite E. split; [reflexivity|]. exact (updates_same _ _ _ _ _ _ E A C).
    - intros [-> A] [-> C]. rewrite E. split; [reflexivity|]. exact (updates_same _ _ _ _ _ _ E A C).
    - intros [(l & Hl & ->) A] [(l' & Hl' & ->) C]. split.
      + simpl. rewrite (Permutation_length (lists_perm2 f g l l' (fun k => eq_sym (E k)) Hl Hl')).
        reflexivity.
      + exact (keeps_same _ _ _ _ E A C).
    - intros [(b & -> & Hb) A] [(b' & -> & Hb') C]. split.
      + simpl. f_equal. assert (b = true <-> b' = true).
        { rewrite Hb, Hb'. split; intros H k; [rewrite E|rewrite <- E]; auto. }
        destruct b, b'; auto; [symmetry|]; apply H; reflexivity.
      + exact (keeps_same _ _ _ _ E A C).
    - intros [-> A] [-> C]. split; [reflexivity|]. intros k. rewrite A, C. reflexivity.
    - destruct B as [h B].
      intros (l & log & l1 & o & Hl & R & -> & H1) (l' & log' & l1' & o' & Hl' & R' & -> & H1').
      rewrite (retain_list_blind f0 h B) in R, R'. injection R as <- <- <-.
      injection R' as <- <- <-.
      pose proof (lists_perm2 f g l l' (fun k => eq_sym (E k)) Hl Hl') as P.
      split; [split; [exact P|reflexivity]|].
      destruct H1 as [N1 H1]. destruct H1' as [N1' H1'].
      assert (Q : forall k v, f' k = Some v <-> g' k = Some v).
      { intros k v. rewrite <- H1, <- H1'. split; apply Permutation_in;
          [|symmetry]; apply Permutation_flat_map; exact P. }
      intros k. destruct (f' k) as [v|] eqn:Ef.
      + apply Q in Ef. exact Ef.
      + destruct (g' k) as [v|] eqn:Eg; auto. apply Q in Eg. congruence.
    - intros [(l & Hl & ->) A] [(l' & Hl' & ->) C]. split.
      + simpl. eapply lists_perm2; [|exact Hl|exact Hl']. intros k. symmetry. apply E.
      + exact (keeps_same _ _ _ _ E A C).
    - intros [-> A] [-> C]. split; [reflexivity|]. intros k. rewrite A, C, E. reflexivity.
    - intros [-> A] [-> C]. split; [reflexivity|]. exact (keeps_same _ _ _ _ E A C).
    - rewrite (E k). destruct (f k) as [v|]; intros [-> A] [-> C]; (split; [reflexivity|]);
        [exact (keeps_same _ _ _ _ E A C)|exact (updates_same _ _ _ _ _ _ E A C)].
    - rewrite (E k). destruct (f k) as [v|]; [|destruct (f0 k)]; intros [-> A] [-> C];
        (split; [reflexivity|]);
        first [exact (keeps_same _ _ _ _ E A C)|exact (updates_same _ _ _ _ _ _ E A C)].
    - rewrite (E k). destruct (f k) as [v|]; intros [-> A] [-> C]; (split; [|exact (updates_same _ _ _ _ _ _ E A C)]).
      + destruct (snd (g0 v)); reflexivity.
      + reflexivity.
    - intros [-> A] [-> C]. rewrite E. split; [reflexivity|]. exact (updates_same _ _ _ _ _ _ E A C).
    - intros [-> A] [-> C]. rewrite E. split; [reflexivity|]. exact (updates_same _ _ _ _ _ _ E A C).
  Qed.

  Lemma spec_ops_same ops : forall (f g f' g' : fmap K V) xs ys, Forall order_blind ops ->
    keeps f g -> spec_ops f ops xs f' -> spec_ops g ops ys g' ->
    Forall2 same_result xs ys /\ keeps f' g'.
  Proof.
    induction ops as [|o ops IH]; intros f g f' g' [|x xs] [|y ys] B E A C; simpl in *;
      try contradiction.
    - split; [constructor|]. exact (keeps_same _ _ _ _ E A C).
    - destruct A as (f1 & A1 & A2), C as (g1 & C1 & C2). inversion_clear B as [|? ? B1 B2].
      destruct (spec_op_same f g f1 g1 o x y B1 E A1 C1) as [S1 E1].
      destruct (IH f1 g1 f' g' xs ys B2 E1 A2 C2) as [S2 E2]. split; [constructor|]; auto.
  Qed.
End Blind.

Section BlindSet.
  Context {T : Type} (dec : forall a b : T, a = b \/ a <> b).
  Variables (lf : T -> leaf) (sb : T -> option T).

  Lemma same_sets (p q p' q' : T -> bool) : same_set p q -> same_set p p' -> same_set q q' ->
    same_set p' q'.
  Proof. intros E A B x. rewrite <- A, <- B. apply E. Qed.

  Lemma retain_elems_blind (f : list T -> T -> answer) (g : T -> bool) :
    (forall log k, f log k = if g k then Keep else Discard) ->
    forall l log, retain_elems (slogged f) log l = (log ++ l, filter g l, Done).
  Proof.
    intros H. induction l as [|k l IH]; intros log; simpl.
    - rewrite app_nil_r. reflexivity.
    - unfold slogged at 1. rewrite H. destruct (g k); simpl; rewrite IH, <- app_assoc; reflexivity.
  Qed.

  Lemma same_true (a b : bool) : (a = true <-> b = true) -> a = b.
  Proof. destruct a, b; intuition congruence. Qed.

  Lemma spec_exact_same (p q p' q' : T -> bool) o x y : order_blind_set o -> same_set p q ->
    spec_exact lf sb p o x p' -> spec_exact lf sb q o y q' ->
    same_result_set x y /\ same_set p' q'.
  Proof.
    intros B E. destruct o; simpl in *.
    - intros [-> [A1 A2]] [-> [C1 C2]]. rewrite E. split; [reflexivity|]. intros z.
      destruct (dec z k) as [->|N]; [congruence|]. rewrite A2, C2; auto.
    - intros [-> [A1 A2]] [-> [C1 C2]]. split.
      + simpl. rewrite E. destruct (sb k) as [z|]; [rewrite (E z)|]; reflexivity.
      + intros z. destruct (dec z k) as [->|N]; [congruence|]. rewrite A2, C2; auto.
    - intros [-> A] [-> C]. rewrite E. split; [reflexivity|]. exact (same_sets _ _ _ _ E A C).
    - intros [(l & Hl & ->) A] [(l' & Hl' & ->) C]. split.
      + simpl. f_equal. apply Permutation_length. destruct Hl as [N H], Hl' as [N' H'].
        apply NoDup_Permutation; auto. intros z. rewrite H, H', E. tauto.
      + exact (same_sets _ _ _ _ E A C).
    - intros [(b & -> & Hb) A] [(b' & -> & Hb') C]. split.
      + simpl. f_equal. apply same_true. rewrite Hb, Hb'.
        split; intros H k; specialize (H k); rewrite <- H, E; tauto.
      + exact (same_sets _ _ _ _ E A C).
    - intros [-> A] [-> C]. split; [reflexivity|]. intros z. rewrite A, C. reflexivity.
    - destruct B as [g B].
      intros (l & log & l1 & o & N & Hl & R & -> & H1) (l' & log' & l1' & o' & N' & Hl' & R' & -> & H1').
      rewrite (retain_elems_blind f g B) in R, R'. injection R as <- <- <-.
      injection R' as <- <- <-.
      assert (P : Permutation l l').
      { apply NoDup_Permutation; auto. intros z. rewrite Hl, Hl', E. tauto. }
      split; [split; [exact P|reflexivity]|]. intros z. apply same_true.
      rewrite <- (proj2 H1), <- (proj2 H1'), !filter_In, Hl, Hl', E. tauto.
    - intros [(l & Hl & ->) A] [(l' & Hl' & ->) C]. split.
      + simpl. destruct Hl as [N H], Hl' as [N' H'].
        apply NoDup_Permutation; auto. intros z. rewrite H, H', E. tauto.
      + exact (same_sets _ _ _ _ E A C).
  Qed.

  Lemma spec_all_same ops : forall (p q p' q' : T -> bool) xs ys, Forall order_blind_set ops ->
    same_set p q -> spec_all (spec_exact lf sb) p ops xs p' -> spec_all (spec_exact lf sb) q ops ys q' ->
    Forall2 same_result_set xs ys /\ same_set p' q'.
  Proof.
    induction ops as [|o ops IH]; intros f g f' g' [|x xs] [|y ys] B E A C; simpl in *;
      try contradiction.
    - split; [constructor|]. exact (same_sets _ _ _ _ E A C).
    - destruct A as (f1 & A1 & A2), C as (g1 & C1 & C2). inversion_clear B as [|? ? B1 B2].
      destruct (spec_exact_same f g f1 g1 o x y B1 E A1 C1) as [S1 E1].
      destruct (IH f1 g1 f' g' xs ys B2 E1 A2 C2) as [S2 E2]. split; [constructor|]; auto.
  Qed.
End BlindSet.

Lemma keys_dec :
  (forall t (a b : key t), a = b \/ a <> b) /\ (forall vs (a b : keys vs), a = b \/ a <> b).
Proof.
  apply kty_mut.
  - intros a b. destruct (Bool.bool_dec a b); auto.
  - intros [] []. auto.
  - intros p a b. pose proof (prim_eqb_eq p a b) as H. destruct (prim_eqb p a b).
    + left. apply H. reflexivity.
    + right. intros E. apply H in E. discriminate.
  - intros t IH [a|] [b|]; try (right; discriminate); auto.
    destruct (IH a b) as [->|N]; [auto|]. right. intros [= E]. auto.
  - intros bs vs IH a b. apply IH.
  - intros [].
  - intros r IH [[]|a] [[]|b]; try (right; discriminate); auto.
    destruct (IH a b) as [->|N]; [auto|]. right. intros [= E]. auto.
  - intros t IHt r IHr [a|a] [b|b]; try (right; discriminate).
    + destruct (IHt a b) as [->|N]; [auto|]. right. intros [= E]. auto.
    + destruct (IHr a b) as [->|N]; [auto|]. right. intros [= E]. auto.
Qed.

Definition key_dec t : forall a b : key t, a = b \/ a <> b := proj1 keys_dec t.
