(** When no hash table is involved, the reference leaves no choice: every program over
    sets has one outcome only.  So it does not matter whether sets of unit variants are
    arrays or bit sets. *)
Require Import List Arith NArith ZArith Bool Lia Permutation.
Import ListNotations.
From Verif Require Import Std Traits Key Spec OrdSpec Api Reach KeyLaws KeyFacts MapProofs MapCore MapLaws SetCore SetFacts
  OrdProofs RawProofs Avail AvailSpec AvailProofs Program ProgramProofs SetProgram SetProgramSpec SetProgramProofs SetProgramMain.

Lemma split_once {A} (k : A) l1 : forall l2 r1 r2, l1 ++ k :: l2 = r1 ++ k :: r2 ->
  ~ In k (l1 ++ l2) -> ~ In k (r1 ++ r2) -> l1 ++ l2 = r1 ++ r2.
Proof.
  induction l1 as [|x l1 IH]; intros l2 [|y r1] r2 E N1 N2; cbn in E; inversion E; subst; auto.
  - destruct N1. cbn. apply in_or_app. right. now left.
  - destruct N2. cbn. apply in_or_app. right. now left.
  - cbn in *. f_equal. apply IH; auto.
Qed.
Lemma lex_fun {A} (pc : A -> A -> option comparison) a b c c' :
  lex pc a b = Some c -> lex pc a b = Some c' -> c = c'.
Proof. congruence. Qed.

Section Unique.
  Context {S : Type} (t : kty) (keep : S -> key t -> S * option bool).
  Hypothesis Hfree : hash_free t = true.
  Notation T := (key t).

  Lemma total (a b : T) : a = b \/ key_before t a b \/ key_before t b a.
  Proof. exact (proj1 key_before_total t Hfree a b). Qed.
  Lemma listed_fun (l l' : list T) : NoDup l -> NoDup l' -> sorted_by (key_before t) l ->
    sorted_by (key_before t) l' -> (forall k, In k l <-> In k l') -> l = l'.
  Proof.
    intros N N' S1 S2 H. apply (sorted_unique (key_before t)); auto.
    - intros a b _ _. apply total.
    - now apply NoDup_Permutation.
  Qed.
  Lemma has_fun h h' (l : list T) : decides t h l -> decides t h' l -> forall k, h k = h' k.
  Proof. intros H H' k. apply bool_ext. rewrite (H k), (H' k). reflexivity. Qed.
  Lemma inserted_fun l k l1 l2 : inserted t l k l1 -> inserted t l k l2 -> l1 = l2.
  Proof.
    intros [H|l1' H P1 S1] H2; inversion H2 as [H'|l2' H' P2 S2]; subst; auto; try contradiction.
    apply (sorted_unique (key_before t)); auto.
    - intros a b _ _. apply total.
    - now rewrite P1, P2.
  Qed.
  Lemma inserts_fun l r l1 : inserts t l r l1 -> forall l2, inserts t l r l2 -> l1 = l2.
  Proof.
    induction 1 as [l|l k r l1 l2 H1 H2 IH]; intros l3 H3; inversion H3; subst; auto.
    match goal with H : inserted t l k ?x |- _ =>
      assert (l1 = x) as <- by (eapply inserted_fun; eassumption) end. auto.
  Qed.
  Lemma visits_fun l h h' vs vs' : visits t l h vs -> visits t l h' vs' -> vs = vs'.
  Proof.
    intros (N & S1 & H & _) (N' & S2 & H' & _). apply listed_fun; auto. intros k. rewrite H, H'. reflexivity.
  Qed.
  Lemma numbered_fun x n n' : numbered t x n -> numbered t x n' -> n = n'.
  Proof.
    intros H H'. apply N.bits_inj_iff. intros i. apply bool_ext. rewrite (H i), (H' i). reflexivity.
  Qed.
  Lemma width_fun w w' : width t w -> width t w' -> w = w'.
  Proof. intros (H1 & H2 & H3) (H1' & H2' & H3'). pose proof (H3 _ H1' H2'). pose proof (H3' _ H1 H2). lia. Qed.
  Lemma ordered_fun x y c c' : ordered_as t x y c -> ordered_as t x y c' -> c = c'.
  Proof.
    intros H H'.
    destruct H as [c vs E U Hl|c E Hl|n1 n2 B N1 N2];
      destruct H' as [c' vs' E' U' Hl'|c' E' Hl'|n3 n4 B' N3 N4].
    - congruence.
    - rewrite E in E'. discriminate.
    - rewrite E in B'. discriminate.
    - rewrite E in E'. discriminate.
    - congruence.
    - rewrite E in B'. discriminate.
    - rewrite E' in B. discriminate.
    - rewrite E' in B. discriminate.
    - now rewrite (numbered_fun _ _ _ N1 N3), (numbered_fun _ _ _ N2 N4).
  Qed.
  Lemma ordered_able x y c : ordered_as t x y c -> orderable t.
  Proof.
    intros H. unfold orderable. destruct H as [c vs E U Hl|c E Hl|n1 n2 B N1 N2].
    - left. rewrite E. exact U.
    - now right.
    - left. unfold bits in B. destruct t; try discriminate B. now apply andb_true_iff in B.
  Qed.
  Lemma hashed_fun x l l' : hashed t x l -> hashed t x l' -> l = l'.
  Proof.
    intros H H'.
    destruct H as [b E Hb|vs E U|n B N]; destruct H' as [b' E' Hb'|vs' E' U'|n' B' N'].
    - assert (b = b') as -> by (apply bool_ext; rewrite Hb, Hb'; reflexivity). reflexivity.
    - rewrite E in E'. discriminate.
    - rewrite E in B'. discriminate.
    - rewrite E in E'. discriminate.
    - reflexivity.
    - rewrite E in B'. discriminate.
    - rewrite E' in B. discriminate.
    - rewrite E' in B. discriminate.
    - now rewrite (numbered_fun _ _ _ N N').
  Qed.
  Lemma hashed_able x l : hashed t x l -> orderable t.
  Proof.
    intros H. unfold orderable. destruct H as [b E Hb|vs E U|n B N].
    - now right.
    - left. rewrite E. exact U.
    - left. unfold bits in B. destruct t; try discriminate B. now apply andb_true_iff in B.
  Qed.
  Lemma common_fun x y l l' : common t x y l -> common t x y l' -> l = l'.
  Proof.
    intros (hx & hy & Hx & Hy & ->) (hx' & hy' & Hx' & Hy' & ->).
    destruct (size t x <=? size t y); apply filter_ext; [exact (has_fun _ _ _ Hy Hy')|exact (has_fun _ _ _ Hx Hx')].
  Qed.

  Lemma one_fun q s x s1 x1 y1 s2 x2 y2 : pdoes_one t keep q s x s1 x1 y1 ->
    pdoes_one t keep q s x s2 x2 y2 -> s1 = s2 /\ x1 = x2 /\ y1 = y2.
  Proof.
    intros H H'.
    destruct H as [a s x|a s x b Hb|a k s x h D|a k s x l h D I|a k s x l1 l2 E N|a k s x b N Hb|a s x
      |a s x h vs s1 l D V U|a s x h vs s1 l k D V U|a ds s x Hb|a ds s x Hb Hf|a s x l Hh|a s x No
      |a s x n B Nm|a s x B]; inversion H'; subst; try (now auto); try congruence; try contradiction.
    - repeat split. f_equal. apply bool_ext. rewrite Hb. symmetry. assumption.
    - repeat split. f_equal. eapply has_fun; eassumption.
    - repeat split.
      + f_equal. eapply inserted_fun; eassumption.
      + f_equal. unfold insert_tells. now rewrite (has_fun _ _ _ D ltac:(eassumption) k).
    - repeat split. f_equal. eapply (split_once k); [congruence|assumption|assumption].
    - exfalso. match goal with H : ~ In k (els ?z), E : els ?z = _ |- _ => apply H; rewrite E end.
      apply in_or_app. right. now left.
    - exfalso. match goal with H : ~ In k (els ?z), E : els ?z = _ |- _ => apply H; rewrite E end.
      apply in_or_app. right. now left.
    - repeat split. f_equal. apply bool_ext. rewrite Hb. symmetry. assumption.
    - match goal with V' : visits t _ ?h' ?vs', D' : decides t ?h' _, U' : retain_undo _ _ ?h' _ ?vs' = _ |- _ =>
        lazymatch h' with h => fail | _ => idtac end; assert (vs = vs') as <- by (eapply visits_fun; eassumption);
        rewrite <- (undo_has _ _ h h' (has_fun _ _ _ D D')), U in U' end. split; [congruence|split; congruence].
    - match goal with V' : visits t _ ?h' ?vs', D' : decides t ?h' _, U' : retain_undo _ _ ?h' _ ?vs' = _ |- _ =>
        lazymatch h' with h => fail | _ => idtac end; assert (vs = vs') as <- by (eapply visits_fun; eassumption);
        rewrite <- (undo_has _ _ h h' (has_fun _ _ _ D D')), U in U' end. split; [congruence|split; congruence].
    - match goal with V' : visits t _ ?h' ?vs', D' : decides t ?h' _, U' : retain_undo _ _ ?h' _ ?vs' = _ |- _ =>
        lazymatch h' with h => fail | _ => idtac end; assert (vs = vs') as <- by (eapply visits_fun; eassumption);
        rewrite <- (undo_has _ _ h h' (has_fun _ _ _ D D')), U in U' end. split; [congruence|split; congruence].
    - match goal with V' : visits t _ ?h' ?vs', D' : decides t ?h' _, U' : retain_undo _ _ ?h' _ ?vs' = _ |- _ =>
        lazymatch h' with h => fail | _ => idtac end; assert (vs = vs') as <- by (eapply visits_fun; eassumption);
        rewrite <- (undo_has _ _ h h' (has_fun _ _ _ D D')), U in U' end. split; [congruence|split; congruence].
    - repeat split. f_equal. eapply hashed_fun; eassumption.
    - exfalso. apply hashed_able in Hh. contradiction.
    - exfalso. match goal with H : hashed t _ _ |- _ => apply hashed_able in H end. contradiction.
    - repeat split. f_equal. eapply numbered_fun; eassumption.
  Qed.

  Lemma two_fun q x x' y1 y2 : pdoes_two t q x x' y1 -> pdoes_two t q x x' y2 -> y1 = y2.
  Proof.
    intros H H'.
    destruct H as [a b n x y l Cm|a b x y c Hc|a b x y c O|a b x y No|a b x y c O|a b x y No];
      inversion H'; subst; try (now auto).
    - f_equal. f_equal. f_equal. eapply common_fun; eassumption.
    - f_equal. apply bool_ext. rewrite Hc. symmetry. assumption.
    - f_equal. eapply ordered_fun; eassumption.
    - exfalso. apply ordered_able in O. contradiction.
    - exfalso. match goal with H : ordered_as t _ _ _ |- _ => apply ordered_able in H end. contradiction.
    - f_equal. match goal with H : ordered_as t _ _ ?d |- _ =>
        assert (c = d) as <- by (eapply ordered_fun; eassumption) end. reflexivity.
    - exfalso. apply ordered_able in O. contradiction.
    - exfalso. match goal with H : ordered_as t _ _ _ |- _ => apply ordered_able in H end. contradiction.
  Qed.

  Lemma makes_fun q R a x a' x' : makes t q R a x -> makes t q R a' x' -> a = a' /\ x = x'.
  Proof.
    intros H H'.
    destruct H as [a w R|a w l R l' I|c w a b R x y l l' Va Vb Cm I|a r R w x B W Hr N So Hk Hs|a b R x V];
      inversion H'; subst; try (now auto).
    - split; [reflexivity|]. f_equal. eapply inserts_fun; eassumption.
    - match goal with Va' : var a R = Some ?xx, Vb' : var b R = Some ?yy, Cm' : common t ?xx ?yy ?ll |- _ =>
        assert (xx = x) as -> by congruence; assert (yy = y) as -> by congruence;
        assert (l = ll) as <- by (eapply common_fun; eassumption) end.
      split; [reflexivity|]. f_equal. eapply inserts_fun; eassumption.
    - split; [reflexivity|]. destruct x as [ex sx], x' as [ex' sx']. cbn [els stray] in *.
      f_equal.
      + apply listed_fun; auto. intros k. rewrite Hk. symmetry. auto.
      + apply N.bits_inj_iff. intros i. rewrite Hs. symmetry. auto.
    - split; congruence.
  Qed.

  (** What the compiler rejects does nothing else. *)
  Lemma rejected_only q s R s' R' y : rejected t R q -> pdoes t keep q s R s' R' y ->
    s' = s /\ R' = R /\ y = TInvalid.
  Proof.
    intros J D.
    destruct D as [q s R _|q a s R x s' x' y A V _|q a b s R x x' y A V V' _|q s R a x Hl Mk|a b s R x V Hl|a s R x V
      |a ds s R x V Hb|a b s R x y hx hy vs Hab V1 V2 _ _ _|a b s R x y l Hab V1 V2 _]; auto; exfalso.
    - inversion J; subst; try discriminate A; [congruence|destruct q; discriminate].
    - inversion J; subst; try discriminate A; [destruct q; discriminate|].
      assert (a0 = a) as -> by congruence. assert (b0 = b) as -> by congruence. intuition congruence.
    - inversion Mk; subst; inversion J; subst; try discriminate; try lia; try (intuition congruence).
      + match goal with H : _ \/ _ |- _ => destruct H as [H|[H|H]] end; [lia|congruence|congruence].
      + match goal with H : _ \/ _ |- _ => destruct H as [H|[H|(w' & W' & H)]] end; [lia|congruence|].
        match goal with W : width t ?w |- _ => assert (w' = w) as -> by (eapply width_fun; eassumption) end. lia.
      + match goal with H : _ \/ _ |- _ => destruct H as [H|H] end; [congruence|lia].
    - inversion J; subst; try discriminate. match goal with H : _ \/ _ |- _ => destruct H as [H|H] end; [congruence|lia].
    - inversion J; subst; try discriminate. congruence.
    - inversion J; subst; try discriminate. match goal with H : _ \/ _ |- _ => destruct H as [G1|[G1 G2]] end; [congruence|].
      rewrite (Hb G1) in G2. discriminate.
    - inversion J; subst; try discriminate. intuition congruence.
    - inversion J; subst; try discriminate. intuition congruence.
  Qed.

  Lemma step_fun q s R s1 R1 y1 s2 R2 y2 : pdoes t keep q s R s1 R1 y1 -> pdoes t keep q s R s2 R2 y2 ->
    s1 = s2 /\ R1 = R2 /\ y1 = y2.
  Proof.
    intros H H'.
    destruct H as [q s R J|q a s R x s' x' y A V O|q a b s R x x' y A V V' O|q s R a x Hl Mk|a b s R x V Hl|a s R x V
      |a ds s R x V Hb|a b s R x y hx hy vs Hab V1 V2 D1 D2 Vi|a b s R x y l Hab V1 V2 I].
    - destruct (rejected_only _ _ _ _ _ _ J H') as (-> & -> & ->). auto.
    - inversion H'; subst; try discriminate A.
      + match goal with J : rejected t _ q |- _ =>
          destruct (rejected_only q _ _ _ _ _ J (PdOne t keep q a _ _ x _ x' _ A V O)) as (-> & -> & ->) end. auto.
      + assert (a0 = a) as -> by congruence. match goal with V' : var a R = Some ?z |- _ => assert (z = x) as -> by congruence end.
        match goal with O' : pdoes_one t keep q s x ?ss ?xx ?yy |- _ =>
          destruct (one_fun _ _ _ _ _ _ _ _ _ O O') as (-> & -> & ->) end. auto.
      + destruct q; discriminate.
      + match goal with Mk : makes t q _ _ _ |- _ => inversion Mk; subst; discriminate A end.
    - inversion H'; subst; try discriminate A.
      + match goal with J : rejected t _ q |- _ =>
          destruct (rejected_only q _ _ _ _ _ J (PdTwo t keep q a b s2 R2 x x' y A V V' O)) as (_ & _ & ->) end. auto.
      + destruct q; discriminate.
      + assert (a0 = a) as -> by congruence. assert (b0 = b) as -> by congruence.
        match goal with O' : pdoes_two t q ?z ?z' _ |- _ => assert (z = x) as -> by congruence;
          assert (z' = x') as -> by congruence; rewrite (two_fun _ _ _ _ _ O O') end. auto.
      + match goal with Mk : makes t q _ _ _ |- _ => inversion Mk; subst; discriminate A end.
    - inversion H'; subst; try (inversion Mk; fail); try (inversion Mk; subst; discriminate).
      + match goal with J : rejected t _ q |- _ =>
          destruct (rejected_only q _ _ _ _ _ J (PdMakes t keep q s2 R2 a x Hl Mk)) as (_ & -> & ->) end. auto.
      + match goal with Mk' : makes t q R ?b ?z |- _ => destruct (makes_fun _ _ _ _ _ _ Mk Mk') as [-> ->] end. auto.
    - inversion H'; subst; try discriminate; try (match goal with Mk : makes _ _ _ _ _ |- _ => inversion Mk; fail end).
      + match goal with J : rejected t _ _ |- _ =>
          destruct (rejected_only _ _ _ _ _ _ J (PdMove t keep a b s2 R2 x V Hl)) as (_ & -> & ->) end. auto.
      + repeat split. congruence.
    - inversion H'; subst; try discriminate; try (match goal with Mk : makes _ _ _ _ _ |- _ => inversion Mk; fail end).
      + match goal with J : rejected t _ _ |- _ =>
          destruct (rejected_only _ _ _ _ _ _ J (PdDrop t keep a s2 R2 x V)) as (_ & -> & ->) end. auto.
      + repeat split.
    - inversion H'; subst; try discriminate; try (match goal with Mk : makes _ _ _ _ _ |- _ => inversion Mk; fail end).
      + match goal with J : rejected t _ _ |- _ =>
          destruct (rejected_only _ _ _ _ _ _ J (PdIntoIter t keep a ds s2 R2 x V Hb)) as (_ & -> & ->) end. auto.
      + repeat split. congruence.
    - inversion H'; subst; try discriminate; try (match goal with Mk : makes _ _ _ _ _ |- _ => inversion Mk; fail end).
      + match goal with J : rejected t _ _ |- _ =>
          destruct (rejected_only _ _ _ _ _ _ J (PdKeepIn t keep a b s2 R2 x y hx hy vs Hab V1 V2 D1 D2 Vi)) as (_ & -> & ->) end. auto.
      + repeat split. assert (x0 = x) as -> by congruence. assert (y0 = y) as -> by congruence.
        assert (vs = vs0) as <- by (eapply visits_fun; eassumption).
        now rewrite (filter_ext _ _ (has_fun _ _ _ D2 ltac:(eassumption))).
    - inversion H'; subst; try discriminate; try (match goal with Mk : makes _ _ _ _ _ |- _ => inversion Mk; fail end).
      + match goal with J : rejected t _ _ |- _ =>
          destruct (rejected_only _ _ _ _ _ _ J (PdAddAll t keep a b s2 R2 x y l Hab V1 V2 I)) as (_ & -> & ->) end. auto.
      + repeat split. assert (x0 = x) as -> by congruence. assert (y0 = y) as -> by congruence.
        assert (l = l0) as <- by (eapply inserts_fun; eassumption). reflexivity.
  Qed.

  Lemma all_fun l : forall s R s1 R1 xs s2 R2 ys, pdoes_all t keep l s R s1 R1 xs ->
    pdoes_all t keep l s R s2 R2 ys -> s1 = s2 /\ R1 = R2 /\ xs = ys.
  Proof.
    induction l as [|q l IH]; intros s R s1 R1 xs s2 R2 ys H H'.
    - inversion H; subst. inversion H'; subst. auto.
    - inversion H as [|? ? ? ? s3 R3 x ? ? xs0 D1 A1]; subst. inversion H' as [|? ? ? ? s4 R4 x' ? ? ys0 D2 A2]; subst.
      destruct (step_fun _ _ _ _ _ _ _ _ _ D1 D2) as (-> & -> & ->).
      destruct (IH _ _ _ _ _ _ _ _ A1 A2) as (-> & -> & ->). auto.
  Qed.
End Unique.

(** * Arrays or bit sets *)

Lemma undo_calm {S K} (keep : S -> K -> S * option bool) late late' has l :
  (forall s k, snd (keep s k) <> None) -> forall s,
  retain_undo (asks keep) late has s l = retain_undo (asks keep) late' has s l /\
  snd (retain_undo (asks keep) late has s l) = None.
Proof.
  intros H. induction l as [|k l IH]; intros s; [now split|]. cbn [retain_undo].
  assert (exists s1 b, asks keep s k = (s1, if b : bool then Keep else Discard)) as (s1 & b & ->).
  { pose proof (H s k) as Hk. unfold asks. destruct (keep s k) as [s1 [[]|]]; cbn in Hk;
      [exists s1, true|exists s1, false|]; congruence. }
  destruct b;
    destruct (IH s1) as [E1 E2]; rewrite <- E1;
    destruct (retain_undo (asks keep) late has s1 l) as [[s2 r2] w]; cbn in E2; subst w; now split.
Qed.

(** Statements that do not look at how the set is represented. *)
Definition alike {T} (q : pstmt T) : bool :=
  match q with PCmp _ _ | PLess _ _ | PHash _ | PAsRaw _ | PFromRaw _ _ => false | _ => true end.

Section Choice.
  Variables (vs : variants) (S : Type) (keep : S -> keys vs -> S * option bool).
  Hypothesis Hcalm : forall s k, snd (keep s k) <> None.
  Notation zero := (Forall (fun o : option (content (keys vs)) =>
    match o with Some x => stray x = 0%N | None => True end)).
  Notation t := (KEnum true vs).
  Notation t' := (KEnum false vs).

  Lemma zero_var a R x : zero R -> var a R = Some x -> stray x = 0%N.
  Proof. intros Z V. exact (var_all (fun x => stray x = 0%N) R a x Z V). Qed.

  Lemma switch_one q s x s' x' y : alike q = true -> stray x = 0%N ->
    pdoes_one t keep q s x s' x' y -> pdoes_one t' keep q s x s' x' y /\ stray x' = 0%N.
  Proof.
    intros A Z H.
    destruct H as [a s x|a s x b Hb|a k s x h D|a k s x l h D I|a k s x l1 l2 E N|a k s x b N Hb|a s x
      |a s x h vs0 s1 l D V U|a s x h vs0 s1 l k D V U|a ds s x Hb|a ds s x Hb Hf|a s x l Hh|a s x No
      |a s x n B Nm|a s x B]; try discriminate A; cbn [stray no_stray].
    - split; [exact (PdLen t' keep a s x)|exact Z].
    - split; [exact (PdIsEmpty t' keep a s x b Hb)|exact Z].
    - split; [exact (PdContains t' keep a k s x h D)|exact Z].
    - split; [|exact Z]. refine (PdInsert t' keep a k s x l h D _).
      destruct I as [Hk|l' Hk P So]; [exact (InsOld t' _ k Hk)|exact (InsNew t' _ k l' Hk P So)].
    - split; [exact (PdRemove t' keep a k s x l1 l2 E N)|exact Z].
    - split; [exact (PdRemoveNone t' keep a k s x b N Hb)|exact Z].
    - split; [exact (PdClear t' keep a s x)|reflexivity].
    - split; [|reflexivity]. refine (PdRetain t' keep a s x h vs0 s1 l D V _).
      refine (eq_trans _ U). symmetry. exact (proj1 (undo_calm keep _ _ h vs0 Hcalm s)).
    - exfalso. pose proof (proj2 (undo_calm keep (one_bitset t) (one_bitset t) h vs0 Hcalm s)) as F.
      pose proof (eq_trans (eq_sym F) (f_equal snd U)) as G. discriminate G.
    - split; [exact (PdIter t' keep a ds s x Hb)|exact Z].
    - split; [exact (PdIterInvalid t' keep a ds s x Hb Hf)|exact Z].
  Qed.
  Lemma switch_inserts l r l' : inserts t l r l' -> inserts t' l r l'.
  Proof.
    induction 1 as [l|l k r l1 l2 I _ IH]; [exact (InsNone t' l)|].
    refine (InsMore t' l k r l1 l2 _ IH).
    destruct I as [Hk|l' Hk P So]; [exact (InsOld t' _ k Hk)|exact (InsNew t' _ k l' Hk P So)].
  Qed.
  Lemma switch_two q x x' y : alike q = true -> pdoes_two t q x x' y -> pdoes_two t' q x x' y.
  Proof.
    intros A H. destruct H as [a b n x y l Cm|a b x y c Hc|a b x y c O|a b x y No|a b x y c O|a b x y No];
      try discriminate A.
    - exact (PdInter t' a b n x y l Cm).
    - exact (PdEq t' a b x y c Hc).
  Qed.
  Lemma switch_makes q R a x : alike q = true -> zero R -> makes t q R a x ->
    makes t' q R a x /\ stray x = 0%N.
  Proof.
    intros A Z H.
    destruct H as [a w R|a w l R l' I|c w a b R x y l l' Va Vb Cm I|a r R w x B W Hr N So Hk Hs|a b R x V];
      try discriminate A.
    - split; [exact (MkNew t' a w R)|reflexivity].
    - split; [exact (MkCollect t' a w l R l' (switch_inserts _ _ _ I))|reflexivity].
    - split; [exact (MkInters t' c w a b R x y l l' Va Vb Cm (switch_inserts _ _ _ I))|reflexivity].
    - split; [exact (MkClone t' a b R x V)|eapply zero_var; eassumption].
  Qed.
  Lemma switch_rejected q R : alike q = true -> rejected t R q -> rejected t' R q.
  Proof.
    intros A H. destruct H as [q a Hq V|q a b Hq V|a w Hl|a w l Hl|c w a b H|a r H|a b H|a b H|a V|a ds H|a b H|a b H].
    - exact (RjOne t' R q a Hq V).
    - exact (RjTwo t' R q a b Hq V).
    - exact (RjNew t' R a w Hl).
    - exact (RjCollect t' R a w l Hl).
    - exact (RjInters t' R c w a b H).
    - discriminate A.
    - exact (RjClone t' R a b H).
    - exact (RjMove t' R a b H).
    - exact (RjDrop t' R a V).
    - exact (RjIntoIter t' R a ds H).
    - exact (RjKeepIn t' R a b H).
    - exact (RjAddAll t' R a b H).
  Qed.
  Lemma zero_used a R : zero R -> zero (used_up t a R).
  Proof. intros Z. unfold used_up. destruct (hash_free t); [exact Z|now apply set_var_all]. Qed.

  Lemma switch q s R s' R' y : alike q = true -> zero R ->
    pdoes t keep q s R s' R' y -> pdoes t' keep q s R s' R' y /\ zero R'.
  Proof.
    intros A Z H.
    destruct H as [q s R J|q a s R x s' x' y Hq V O|q a b s R x x' y Hq V V' O|q s R a x Hl Mk|a b s R x V Hl|a s R x V
      |a ds s R x V Hb|a b s R x y hx hy vs0 Hab V1 V2 D1 D2 Vi|a b s R x y l Hab V1 V2 I].
    - split; [exact (PdRejected t' keep q s R (switch_rejected q R A J))|exact Z].
    - destruct (switch_one q s x s' x' y A (zero_var a R x Z V) O) as [O' Z'].
      split; [exact (PdOne t' keep q a s R x s' x' y Hq V O')|now apply set_var_all].
    - split; [exact (PdTwo t' keep q a b s R x x' y Hq V V' (switch_two q x x' y A O))|exact Z].
    - destruct (switch_makes q R a x A Z Mk) as [Mk' Z'].
      split; [exact (PdMakes t' keep q s R a x Hl Mk')|now apply set_var_all].
    - split; [exact (PdMove t' keep a b s R x V Hl)|].
      apply set_var_all; [exact (zero_var a R x Z V)|now apply zero_used].
    - split; [exact (PdDrop t' keep a s R x V)|now apply zero_used].
    - split; [exact (PdIntoIter t' keep a ds s R x V Hb)|now apply zero_used].
    - split; [exact (PdKeepIn t' keep a b s R x y hx hy vs0 Hab V1 V2 D1 D2 Vi)|now apply set_var_all].
    - split; [exact (PdAddAll t' keep a b s R x y l Hab V1 V2 (switch_inserts _ _ _ I))|].
      apply set_var_all; [exact (zero_var a R x Z V1)|exact Z].
  Qed.

  Lemma switch_all l : forall s R s' R' xs, forallb alike l = true -> zero R ->
    pdoes_all t keep l s R s' R' xs -> pdoes_all t' keep l s R s' R' xs.
  Proof.
    induction l as [|q l IH]; intros s R s' R' xs A Z H.
    - inversion H; subst. exact (PdEnd t' keep s' R').
    - cbn in A. apply andb_true_iff in A as [A1 A2]. inversion H as [|? ? ? ? s3 R3 x ? ? xs0 D1 D2]; subst.
      destruct (switch q s R s3 R3 x A1 Z D1) as [D1' Z1].
      exact (PdStep t' keep q l s R s3 R3 x s' R' xs0 D1' (IH _ _ _ _ _ A2 Z1 D2)).
  Qed.

  Lemma choice ki ki' vars l s s1 R1 xs1 s2 R2 xs2 :
    derive t = Some ki -> derive t' = Some ki' -> forallb alike l = true ->
    pexec_all (ki_set ki) (set_impls t TCopy) keep l s (repeat None vars) = (s1, R1, xs1) ->
    pexec_all (ki_set ki') (set_impls t' TCopy) keep l s (repeat None vars) = (s2, R2, xs2) ->
    s1 = s2 /\ xs1 = xs2.
  Proof.
    intros E E' A H H'. destruct (all_units vs) eqn:U.
    - destruct (c67 t ki S keep vars l s s1 R1 xs1 E H) as (M & D & _).
      destruct (c67 t' ki' S keep vars l s s2 R2 xs2 E' H') as (M' & D' & _).
      apply switch_all in D; [|exact A|clear; induction vars; cbn; auto].
      destruct (all_fun t' keep (hash_free_units vs U) l _ _ _ _ _ _ _ _ D D') as (-> & _ & ->). auto.
    - assert (derive t = derive t') as Et.
      { cbn. rewrite (OrdProofs.as_units_none vs U). reflexivity. }
      rewrite Et, E' in E. injection E as <-.
      assert (set_impls t TCopy = set_impls t' TCopy) as Ei.
      { unfold set_impls. etransitivity; [exact (proj1 set_impls_closed t TCopy)|].
        symmetry. exact (proj1 set_impls_closed t' TCopy). }
      rewrite Ei in H.
      pose proof (eq_trans (eq_sym H) H') as F. injection F as -> _ ->. auto.
  Qed.
End Choice.
