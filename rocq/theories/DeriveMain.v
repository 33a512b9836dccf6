(** The code read from the text of the derive macro answers like a map and a set, and
    like the storages of the model. *)
Require Import List Arith NArith Bool String.
Import ListNotations.
From Verif Require Import Std Traits DeriveUnit DeriveAny Key Spec Rust UnitCode AnyCode AnyRun
  CodeSpec AnyCodeSpec AnyRetains AnyCodeMain UnitCodeModel DeriveQuote DeriveRead DeriveInst DeriveCode DeriveItems
  DeriveEqual.
From Verif Require PropsCode PropsAny.

Lemma text_inv : forall bitset vs g, unit_text bitset vs = Some g ->
  unit_code bitset vs = Some (ge_map g, ge_set g) /\ ge_entry g = entry_code.
Proof.
  intros bitset vs g H. rewrite unit_text_is in H.
  destruct (unit_code bitset vs) as [[m s] |]; [|discriminate]. injection H as <-. now split.
Qed.

Lemma unit_text_serves : forall (S V : Type) (U : user S V) bitset vs g,
  unit_text bitset vs = Some g -> NoDup vs ->
  ge_entry g = entry_code /\
  (forall l s, Forall (well_named vs) l ->
     serve U (map_step U) (ge_map g) l s = Some (answers (ref_map vs U) l s (fun _ => None))) /\
  (forall l s, Forall (set_well_named vs) l ->
     serve U (set_step U) (ge_set g) l s
     = Some (answers (ref_set vs U bitset) l s (fun _ => false))).
Proof.
  intros S V U bitset vs g H N. apply text_inv in H as [H E]. split; [assumption|].
  exact (PropsCode.C60_generated S V U bitset vs _ _ H N).
Qed.

Lemma unit_text_raw : forall (S V : Type) (U : user S V) vs g d m l s,
  unit_text true vs = Some g -> NoDup vs ->
  bits_are vs d m -> Forall (set_well_named vs) l ->
  exists d', serve_raw U (ge_set g) d l s = Some (answers (ref_set vs U true) l s m, d') /\
    bits_are vs d' (snd (after (ref_set vs U true) l s m)).
Proof.
  intros S V U vs g d m l s H. apply text_inv in H as [H _].
  exact (PropsCode.C60_raw S V U vs _ _ d m l s H).
Qed.

Lemma unit_text_refused : forall bitset vs,
  unit_text bitset vs = None <-> bitset = true /\ 128 < List.length vs.
Proof.
  intros. rewrite unit_text_is, <- PropsCode.C60_refused.
  destruct (unit_code bitset vs); simpl; split; congruence.
Qed.

Lemma any_text_answers : forall (T : Type) (T_dec : forall a b : T, {a = b} + {a <> b})
    (K : T -> Type) (impl : forall t, KeyImpl (K t)) (flds : vfields T),
  NoDup (map fst flds) -> (forall t, retains (impl t)) ->
  exists g, any_text flds = Some g /\ ge_entry g = any_entry_code flds /\
    (forall q, iterator_text q flds = Some (iter_code q flds)) /\
    forall (V S : Type) (U : auser K V S) w,
    (forall l s,
       option_map fst (work T_dec impl U flds (do_task T_dec impl U flds) (ge_map g) w l s) =
       Some (fst (replies (model_task impl U flds) l s
                    (ms_empty (any_map_storage V (fs_of impl flds)) w)))) /\
    (forall l s,
       option_map fst (work T_dec impl U flds (do_set_task T_dec impl U flds) (ge_set g) w l s) =
       Some (fst (replies (model_set_task impl U flds) l s
                    (ss_empty (any_set_storage (fs_of impl flds)) w)))).
Proof.
  intros T T_dec K impl flds N R. eexists. split; [apply any_text_is|].
  split; [reflexivity|]. split; [intros; apply iterator_text_is|].
  intros V S U w. split; intros.
  - now apply PropsAny.C61_map.
  - now apply PropsAny.C61_set.
Qed.
