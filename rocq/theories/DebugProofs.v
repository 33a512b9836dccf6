(** Debug output. *)
Require Import String List Arith Lia.
Import ListNotations.
From Verif Require Import Std Traits IterLaws Api Debug Reach.
Local Open Scope string_scope.

Lemma app_assoc_s a b c : (a ++ b) ++ c = a ++ (b ++ c).
Proof. induction a; simpl; congruence. Qed.

Lemma app_nil_s a : a ++ "" = a.
Proof. induction a; simpl; congruence. Qed.

(** The text of the remaining entries. *)
Fixpoint rest_text (l : list string) : string :=
  match l with [] => "" | e :: l => ", " ++ e ++ rest_text l end.
Definition more_text (first : bool) (l : list string) : string :=
  if first then String.concat ", " l else rest_text l.

Lemma concat_more l : forall e, String.concat ", " (e :: l) = e ++ rest_text l.
Proof.
  induction l as [|x l IH]; intros e.
  - simpl. rewrite app_nil_s. reflexivity.
  - change (String.concat ", " (e :: x :: l)) with (e ++ ", " ++ String.concat ", " (x :: l)).
    rewrite IH. reflexivity.
Qed.

Lemma entry_text t h e l :
  db_text (debug_entry (MkBuilder t h) e) ++ more_text false l = t ++ more_text (negb h) (e :: l).
Proof.
  destruct h; unfold debug_entry; simpl db_text.
  - simpl. rewrite !app_assoc_s. reflexivity.
  - change (more_text (negb false) (e :: l)) with (String.concat ", " (e :: l)).
    rewrite concat_more, app_assoc_s. reflexivity.
Qed.

Lemma debug_entries_text {A} (i : iterator A) f l : forall n b s,
  drain i n s = Some l ->
  exists h, debug_entries i f n b s =
    Some (MkBuilder (db_text b ++ more_text (negb (db_has_fields b)) (map f l)) h).
Proof.
  induction l as [|x l IH]; intros [|n] [t h] s; simpl; try discriminate;
    destruct (it_next i s) as [[y|] s1]; try discriminate.
  - destruct (drain i n s1); discriminate.
  - intros _. exists h. unfold more_text. destruct h; simpl; rewrite app_nil_s; reflexivity.
  - destruct (drain i n s1) as [l'|] eqn:E; simpl; [|discriminate]. intros [= -> ->].
    destruct (IH n (debug_entry (MkBuilder t h) (f x)) s1 E) as [h' IH'].
    exists h'. rewrite IH'. simpl db_has_fields. simpl negb. rewrite entry_text. reflexivity.
Qed.

Lemma inter_entries_text {K} (fk : K -> string) (m : SetStorage K) l : forall n b (x : intersection m),
  inter_drain m n x = Some l ->
  exists h, inter_entries fk n b x =
    Some (MkBuilder (db_text b ++ more_text (negb (db_has_fields b)) (map fk l)) h).
Proof.
  induction l as [|y l IH]; intros [|n] [t h] x; simpl; try discriminate;
    destruct (inter_next m n x) as [[[z|] x1]|]; try discriminate.
  - destruct (inter_drain m n x1); discriminate.
  - intros _. exists h. unfold more_text. destruct h; simpl; rewrite app_nil_s; reflexivity.
  - destruct (inter_drain m n x1) as [l'|] eqn:E; simpl; [|discriminate]. intros [= -> ->].
    destruct (IH n (debug_entry (MkBuilder t h) (fk y)) x1 E) as [h' IH'].
    exists h'. rewrite IH'. simpl db_has_fields. simpl negb. rewrite entry_text. reflexivity.
Qed.

Lemma map_debug_text {K V} fk fv (m : MapStorage K V) st l :
  yields (ms_Iter m) (map_iter m st) l ->
  returns (fun n => map_debug fk fv m n st)
    ("{" ++ String.concat ", " (map (fun e => fk (fst e) ++ ": " ++ fv (snd e)) l) ++ "}").
Proof.
  intros [n0 Y]. exists n0. intros n Hn. unfold map_debug.
  destruct (debug_entries_text (ms_Iter m) (fun e => fk (fst e) ++ ": " ++ fv (snd e)) l n
              debug_braces _ (Y n Hn)) as [h ->].
  unfold debug_finish, debug_braces. cbn [option_map db_text db_has_fields negb more_text].
  rewrite app_assoc_s. reflexivity.
Qed.

Lemma set_debug_text {K} fk (m : SetStorage K) st l :
  yields (ss_Iter m) (set_iter m st) l ->
  returns (fun n => set_debug fk m n st) ("{" ++ String.concat ", " (map fk l) ++ "}").
Proof.
  intros [n0 Y]. exists n0. intros n Hn. unfold set_debug.
  destruct (debug_entries_text (ss_Iter m) fk l n debug_braces _ (Y n Hn)) as [h ->].
  unfold debug_finish, debug_braces. cbn [option_map db_text db_has_fields negb more_text].
  rewrite app_assoc_s. reflexivity.
Qed.

Lemma inter_clone_id {K} (m : SetStorage K) (L : it_laws (ss_Iter m)) (x : intersection m) :
  inter_clone x = x.
Proof. destruct x. unfold inter_clone. simpl. rewrite (il_clone _ L). reflexivity. Qed.

Lemma inter_debug_text {K} fk (m : SetStorage K) (L : it_laws (ss_Iter m))
    (x : intersection m) l :
  returns (fun n => inter_drain m n x) l ->
  returns (fun n => inter_debug fk n x) ("[" ++ String.concat ", " (map fk l) ++ "]").
Proof.
  intros [n0 Y]. exists n0. intros n Hn. unfold inter_debug.
  rewrite (inter_clone_id m L).
  destruct (inter_entries_text fk m l n debug_brackets _ (Y n Hn)) as [h ->].
  unfold debug_finish, debug_brackets. cbn [option_map db_text db_has_fields negb more_text].
  rewrite app_assoc_s. reflexivity.
Qed.
