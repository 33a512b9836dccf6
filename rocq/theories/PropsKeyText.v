(** C74: the source text of src/key.rs. *)
Require Import List Arith NArith ZArith Bool String.
Import ListNotations.
From Verif Require Import Std Traits Key Samples SrcLex DeriveQuote KeyRead KeyReadProofs.
Open Scope string_scope.

(** With the feature [hashbrown], the storages that the text chooses for every key type are
    those of the model, at any depth. *)
Theorem C74_storages : forall t, text_derive true t = derive t.
Proof. exact (proj1 text_derive_is). Qed.
Print Assumptions C74_storages.
(** Without it, the types that hold no integer, [char], string or bytes are the same keys, and
    the others are no keys. *)
Theorem C74_without_hashbrown : forall t, text_derive false t = if dynamic t then None else derive t.
Proof. exact (proj1 text_derive_static). Qed.
Print Assumptions C74_without_hashbrown.
(** The types with an impl are those of the model, each with one impl. *)
Theorem C74_types : forall ty, (exists r, In r key_rows /\ rw_ty r = ty) <->
  ty = [W "Option"; P "<"; W "K"; P ">"] \/ exists t, type_tokens t = Some ty.
Proof. exact types_are. Qed.
Print Assumptions C74_types.
Theorem C74_once : NoDup (List.map rw_ty key_rows).
Proof. exact once. Qed.
Print Assumptions C74_once.

(** * Examples *)
(** An enum with a [bool], one with an [u32], and what holds them. *)
Example C74_examples :
  text_derive true thing_t = Some thing_ki /\ dynamic thing_t = true /\ text_derive false thing_t = None /\
  dynamic (KEnum false (VTuple (KOption KBool) (VUnit VNil))) = false /\
  text_derive false (KEnum false (VTuple (KOption KBool) (VUnit VNil))) <> None.
Proof.
  rewrite C74_storages, !C74_without_hashbrown. repeat split; try reflexivity. discriminate.
Qed.
(** [u16] and [i16] are no keys; [&'static str] is one. *)
Example C74_types_example :
  ~ (exists r, In r key_rows /\ rw_ty r = [W "u16"]) /\ ~ (exists r, In r key_rows /\ rw_ty r = [W "i16"]) /\
  (exists r, In r key_rows /\ rw_ty r = [P "&"; L (TLife "static"); W "str"]) /\ List.length key_rows = 16.
Proof.
  repeat split.
  - rewrite C74_types. intros [H|[[| |[]| |] H]]; discriminate.
  - rewrite C74_types. intros [H|[[| |[]| |] H]]; discriminate.
  - apply C74_types. right. now exists (KPrim PStr).
Qed.
