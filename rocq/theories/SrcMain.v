(** The theorems of C68: all hand-written storages together; and, with C64 and C67, what
    their source text does on lists of entries. *)
Require Import List Bool String.
Import ListNotations.
From Verif Require Import Std Traits AnyCodeSpec AnyRetains SrcParse SrcRun SrcSpec SrcFiles SrcBool SrcSingle SrcSets SrcOption SrcOption2
  SrcHash SrcSets2 MapStorages SetStorages Hashbrown Key Spec Reach Api IterProofs KeyLaws KeyFacts
  DropSpec ClearSpec Program ProgramSpec ProgramMain SetProgram SetProgramSpec SetProgramMain Avail AvailSpec SrcWhole EffectProofs SrcSound.

Section Storages.
  Context {V S : Type}.

  Lemma c68_map t ki (U : user_fns (key t) V S) w l s : derive t = Some ki -> by_hand t = true ->
    text_map t U w l s = Some (fst (answers (map_req U (ki_map ki V)) l s (ms_empty (ki_map ki V) w))).
  Proof.
    destruct t as [| |p|t|b vs]; intros E H; try discriminate H; clear H; cbn [text_map]; cbv zeta.
    - injection E as <-. rewrite bool_map_read. apply bool_map_told.
    - injection E as <-. rewrite single_map_read. apply single_map_told.
    - injection E as <-. rewrite hash_map_read. apply hash_map_told.
      exact (fun f g s st e => proj1 (hash_retains (prim_eqb p)) V S f g s st e).
    - cbn [derive] in E. destruct (derive t) as [ki'|] eqn:D; [|discriminate].
      injection E as <-. rewrite option_map_read. apply option_map_told.
      exact (fun f g s st e => proj1 (proj1 derive_retains t ki' D) V S f g s st e).
  Qed.
  Lemma c68_map_eq t ki (U : user_fns (key t) V S) w1 w2 l1 l2 s : derive t = Some ki -> by_hand t = true ->
    text_map_eq t U w1 w2 l1 l2 s =
    Some (SrcSpec.compared (map_req U (ki_map ki V)) (map_compare U (ki_map ki V))
            (ms_empty (ki_map ki V) w1) (ms_empty (ki_map ki V) w2) l1 l2 s).
  Proof.
    destruct t as [| |p|t|b vs]; intros E H; try discriminate H; clear H; cbn [text_map_eq]; cbv zeta.
    - injection E as <-. rewrite bool_map_read. apply bool_map_compared.
    - injection E as <-. rewrite single_map_read. apply single_map_compared.
    - injection E as <-. rewrite hash_map_read. apply hash_map_compared.
      exact (fun f g s st e => proj1 (hash_retains (prim_eqb p)) V S f g s st e).
    - cbn [derive] in E. destruct (derive t) as [ki'|] eqn:D; [|discriminate].
      injection E as <-. rewrite option_map_read. apply option_map_compared.
      exact (fun f g s st e => proj1 (proj1 derive_retains t ki' D) V S f g s st e).
  Qed.

  Lemma c68_set t ki (U : user_fns (key t) V S) w l s : derive t = Some ki -> by_hand t = true ->
    text_set t U w l s = Some (fst (answers (set_req U (ki_set ki)) l s (ss_empty (ki_set ki) w))).
  Proof.
    destruct t as [| |p|t|b vs]; intros E H; try discriminate H; clear H; cbn [text_set]; cbv zeta.
    - injection E as <-. rewrite bool_set_read. apply bool_set_told.
    - injection E as <-. rewrite single_set_read. apply single_set_told.
    - injection E as <-. rewrite hash_set_read. apply hash_set_told.
      exact (fun f g s st e => proj2 (hash_retains (prim_eqb p)) S f g s st e).
    - cbn [derive] in E. destruct (derive t) as [ki'|] eqn:D; [|discriminate].
      injection E as <-. rewrite option_set_read. apply option_set_told.
      exact (fun f g s st e => proj2 (proj1 derive_retains t ki' D) S f g s st e).
  Qed.
  Lemma c68_set_eq t ki (U : user_fns (key t) V S) w1 w2 l1 l2 s : derive t = Some ki -> by_hand t = true ->
    text_set_eq t U w1 w2 l1 l2 s =
    Some (SrcSpec.compared (set_req U (ki_set ki)) (set_compare (ki_set ki))
            (ss_empty (ki_set ki) w1) (ss_empty (ki_set ki) w2) l1 l2 s).
  Proof.
    destruct t as [| |p|t|b vs]; intros E H; try discriminate H; clear H; cbn [text_set_eq]; cbv zeta.
    - injection E as <-. rewrite bool_set_read. apply bool_set_compared.
    - injection E as <-. rewrite single_set_read. apply single_set_compared.
    - injection E as <-. rewrite hash_set_read. apply hash_set_compared.
      exact (fun f g s st e => proj2 (hash_retains (prim_eqb p)) S f g s st e).
    - cbn [derive] in E. destruct (derive t) as [ki'|] eqn:D; [|discriminate].
      injection E as <-. rewrite option_set_read. apply option_set_compared.
      exact (fun f g s st e => proj2 (proj1 derive_retains t ki' D) S f g s st e).
  Qed.
End Storages.

(** * No bad answers *)

Lemma c68_sound t ki V S (U : user_fns (key t) V S) w l s : derive t = Some ki -> by_hand t = true ->
  exists xs s', text_map t U w l s = Some (xs, s') /\ ~ In Bad xs.
Proof.
  intros E B. rewrite (c68_map t ki U w l s E B).
  pose proof (new_answers_fine (ki_map ki V) (derive_map_laws t ki V E) U (placed t)
    (@m_clears t ki E V) (fun X f => proj1 derive_clones t ki E V X f) w l s) as H.
  destruct (answers (map_req U (ki_map ki V)) l s (ms_empty (ki_map ki V) w)) as [[xs s'] st].
  now exists xs, s'.
Qed.
Lemma c68_set_sound t ki V S (U : user_fns (key t) V S) w l s : derive t = Some ki -> by_hand t = true ->
  exists xs s', text_set t U w l s = Some (xs, s') /\ ~ In Bad xs.
Proof.
  intros E B. rewrite (c68_set t ki U w l s E B).
  pose proof (set_answers_fine (ki_set ki) U l s (ss_empty (ki_set ki) w)) as H.
  destruct (answers (set_req U (ki_set ki)) l s (ss_empty (ki_set ki) w)) as [[xs s'] st].
  now exists xs, s'.
Qed.

(** * Lists of entries *)

Lemma asks_run {A B} (I : iterator A) (f : option A -> B) h ds : forall it,
  (In Back ds -> is_some (it_back I) = true) ->
  exists o it', run_it I ds it = Some (o, it') /\ say I true f h (asked ds) it = map f o.
Proof.
  induction ds as [|[] ds IH]; intros it H; cbn [run_it asked map say].
  - now exists [], it.
  - destruct (it_next I it) as [x it1].
    destruct (IH it1) as (o & it2 & E & Es); [intros Hb; apply H; now right|].
    rewrite E. cbn. exists (x :: o), it2. split; [reflexivity|]. cbn. f_equal. exact Es.
  - specialize (H (or_introl eq_refl)) as Hb. destruct (it_back I) as [b|]; [|discriminate].
    destruct (b it) as [x it1].
    destruct (IH it1) as (o & it2 & E & Es); [reflexivity|].
    rewrite E. cbn. exists (x :: o), it2. split; [reflexivity|]. cbn. f_equal. exact Es.
Qed.

Section Lists.
  Context {K V S : Type} (m : MapStorage K V) (H : helpers S K V).
  Hypothesis ext : forall (f g : retain_fn S K V) s st,
    (forall s k v, f s k v = g s k v) -> ms_retain m f s st = ms_retain m g s st.

  Lemma same_requests l : forall qs s st,
    every request l = Some qs ->
    (forall a ds, In (SIter a ds) l -> In Back ds -> is_some (it_back (ms_Iter m)) = true) ->
    exists s' st' xs, exec_all m H l s [Some st] = (s', [Some st'], xs, true) /\
      answers (map_req (user_of H) m) qs s st = (map heard xs, s', st').
  Proof.
    induction l as [|q l IH]; intros qs s st E B; cbn [every] in E.
    - injection E as <-. now exists s, st, [].
    - destruct (request q) as [r|] eqn:Er; [|discriminate].
      destruct (every request l) as [rs|] eqn:El; [|discriminate]. injection E as <-.
      assert (Hq : exists s1 st1 x, exec m H q s [Some st] = (s1, [Some st1], Some x) /\
                     map_req (user_of H) m r s st = (s1, st1, heard x)).
      { clear IH El. destruct q; cbn [request] in Er; try discriminate Er;
          destruct a; try discriminate Er; injection Er as <-; cbn [exec on_var var nth exec_one map_req].
        - now eexists _, _, _.
        - now eexists _, _, _.
        - now eexists _, _, _.
        - now eexists _, _, _.
        - unfold map_insert. destruct (ms_insert m st k v) as [o st1]. now eexists _, _, _.
        - unfold map_remove. destruct (ms_remove m st k) as [o st1]. now eexists _, _, _.
        - unfold map_retain. rewrite (ext (keep_or_drop H) (keep_fn (user_of H)) s st) by reflexivity.
          destruct (ms_retain m (keep_fn (user_of H)) s st) as [[s1 st1] o].
          eexists _, _, _. split; [reflexivity|]. now destruct o.
        - unfold SrcSpec.shown.
          destruct (asks_run (ms_Iter m)
            (fun o => Item (option_map (fun e => (Some (fst e), Some (snd e))) o)) hint_of ds (ms_iter m st)
            (B 0 ds (or_introl eq_refl))) as (o & it' & E & Es).
          unfold map_iter. rewrite E, Es. now eexists _, _, _. }
      destruct Hq as (s1 & st1 & x & E1 & E2).
      destruct (IH rs s1 st1 eq_refl (fun a ds h => B a ds (or_intror h))) as (s2 & st2 & xs & E3 & E4).
      exists s2, st2, (x :: xs). cbn [exec_all answers]. rewrite E1, E3, E2, E4. now split.
  Qed.
End Lists.

Lemma c68_lists t ki V S (H : helpers S (key t) V) w l qs s :
  derive t = Some ki -> by_hand t = true -> every request l = Some qs ->
  (forall a ds, In (SIter a ds) l -> In Back ds -> hash_free t = true) ->
  exists xs s' es,
    text_map t (user_of H) w qs s = Some (map heard xs, s') /\
    does_all (key_before t) (placed t) (hash_free t) H l s [Some []] s' [Some es] xs true.
Proof.
  intros E B Q D.
  destruct (same_requests (ki_map ki V) H
              (fun f g s st e => proj1 (proj1 derive_retains t ki E) V S f g s st e)
              l qs s (ms_empty (ki_map ki V) w) Q) as (s' & st' & xs & E1 & E2).
  { intros a ds Hi Hb. pose proof (@m_end1 t ki E V) as He. unfold double_ended in He.
    unfold is_some. now rewrite He, (D a ds Hi Hb). }
  destruct (c64 E H 1 (SNew 0 w :: l) s s' [Some st'] (Fine :: xs) true) as (M & HM & HF).
  { cbn. unfold map_new. now rewrite E1. }
  assert (L : exists es, M = [Some es]).
  { inversion HF as [|a b c d Ho Hr]; subst. inversion Hr; subst.
    destruct b as [es|]; [now exists es|destruct Ho]. }
  destruct L as [es ->].
  exists xs, s', es. split.
  - rewrite (c68_map t ki (user_of H) w qs s E B), E2. reflexivity.
  - inversion HM as [|? ? ? ? ? ? Ha|? ? ? ? ? ? ? ? ? ? ? Ha Hb]; subst; clear HM.
    inversion Ha; subst; try discriminate.
    match goal with X : drops_map _ _ _ _ _ _ _ |- _ => cbn in X; destruct X as [-> ->] end.
    exact Hb.
Qed.

Section SetLists.
  Context {K S : Type} (m : SetStorage K) (copies : bool) (keep : S -> K -> S * option bool).
  Hypothesis ext : forall (f g : set_retain_fn S K) s st,
    (forall s k, f s k = g s k) -> ss_retain m f s st = ss_retain m g s st.

  Lemma same_set_requests l : forall qs s st,
    every set_request l = Some qs ->
    (forall a ds, In (PIter a ds) l -> In Back ds -> is_some (it_back (ss_Iter m)) = true) ->
    exists s' st' xs, pexec_all m copies keep l s [Some st] = (s', [Some st'], xs) /\
      answers (set_req (asking keep) m) qs s st = (map set_heard xs, s', st').
  Proof.
    induction l as [|q l IH]; intros qs s st E B; cbn [every] in E.
    - injection E as <-. now exists s, st, [].
    - destruct (set_request q) as [r|] eqn:Er; [|discriminate].
      destruct (every set_request l) as [rs|] eqn:El; [|discriminate]. injection E as <-.
      assert (Hq : exists s1 st1 x, pexec m copies keep q s [Some st] = (s1, [Some st1], x) /\
                     set_req (asking keep) m r s st = (s1, st1, set_heard x)).
      { clear IH El. destruct q; cbn [set_request] in Er; try discriminate Er;
          destruct a; try discriminate Er; try (destruct b; try discriminate Er); injection Er as <-;
          cbn [pexec var nth pexec_one set_req].
        - now eexists _, _, _.
        - now eexists _, _, _.
        - now eexists _, _, _.
        - unfold set_insert. destruct (ss_insert m st k) as [o st1]. now eexists _, _, _.
        - unfold set_remove. destruct (ss_remove m st k) as [o st1]. now eexists _, _, _.
        - now eexists _, _, _.
        - unfold set_retain. rewrite (ext (asks keep) (keep1_fn (asking keep)) s st) by reflexivity.
          destruct (ss_retain m (keep1_fn (asking keep)) s st) as [[s1 st1] o].
          eexists _, _, _. split; [reflexivity|]. now destruct o.
        - unfold SrcSpec.shown.
          destruct (asks_run (ss_Iter m)
            (fun o => Item (K:=K) (V:=Empty_set) (option_map (fun k => (Some k, None)) o)) hint_of ds (ss_iter m st)
            (B 0 ds (or_introl eq_refl))) as (o & it' & E & Es).
          unfold set_iter. rewrite E, Es. now eexists _, _, _.
        - now eexists _, _, _. }
      destruct Hq as (s1 & st1 & x & E1 & E2).
      destruct (IH rs s1 st1 eq_refl (fun a ds h => B a ds (or_intror h))) as (s2 & st2 & xs & E3 & E4).
      exists s2, st2, (x :: xs). cbn [pexec_all answers]. rewrite E1, E3, E2, E4. now split.
  Qed.
End SetLists.

Lemma c68_set_lists t ki S (keep : S -> key t -> S * option bool) w l qs s :
  derive t = Some ki -> by_hand t = true -> every set_request l = Some qs ->
  (forall a ds, In (PIter a ds) l -> In Back ds -> hash_free t = true) ->
  exists xs s' x,
    text_set t (asking keep) w qs s = Some (map set_heard xs, s') /\
    pdoes_all t keep l s [Some (no_stray t [])] s' [Some x] xs.
Proof.
  intros E B Q D.
  destruct (same_set_requests (ki_set ki) (set_impls t TCopy) keep
              (fun f g s st e => proj2 (proj1 derive_retains t ki E) S f g s st e)
              l qs s (ss_empty (ki_set ki) w) Q) as (s' & st' & xs & E1 & E2).
  { intros a ds Hi Hb. destruct (proj1 derive_ends t ki E) as (_ & He & _). unfold double_ended in He.
    unfold is_some. now rewrite He, (D a ds Hi Hb). }
  destruct (c67 t ki S keep 1 (PNew 0 w :: l) s s' [Some st'] (TFine :: xs) E) as (M & HM & HF).
  { cbn. unfold set_new. now rewrite E1. }
  assert (L : exists x, M = [Some x]).
  { inversion HF as [|a b c d Ho Hr]; subst. inversion Hr; subst.
    destruct b as [x|]; [now exists x|destruct Ho]. }
  destruct L as [x ->].
  exists xs, s', x. split.
  - rewrite (c68_set t ki (asking keep) w qs s E B), E2. reflexivity.
  - inversion HM as [|? ? ? ? ? ? ? ? ? ? Ha Hb]; subst; clear HM.
    inversion Ha; subst; try discriminate.
    match goal with X : makes _ _ _ _ _ |- _ => inversion X; subst end.
    exact Hb.
Qed.
