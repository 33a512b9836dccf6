(** The text of src/key.rs chooses the storages of the model. *)
Require Import List Arith NArith ZArith Bool String.
Import ListNotations.
From Verif Require Import Std Traits OptionBucket Hashbrown MapStorages SetStorages DeriveUnit DeriveAny Key KeyLaws.
From Verif Require Import SrcLex KeyText DeriveQuote DeriveRead KeyRead.
Open Scope string_scope.

(** The key types that need hash tables (key.rs:150-158, 169-181). *)
Fixpoint dynamic (t : kty) : bool :=
  match t with
  | KBool | KUnit => false
  | KPrim _ => true
  | KOption t => dynamic t
  | KEnum _ vs => dynamics vs
  end
with dynamics (vs : variants) : bool :=
  match vs with
  | VNil => false
  | VUnit r => dynamics r
  | VTuple t r => dynamic t || dynamics r
  end.

(** The rows, computed (key.rs:137-182). *)
Definition the_rows : list row := Eval vm_compute in key_rows.
Lemma rows_are : key_rows = the_rows.
Proof. vm_cast_no_check (@eq_refl (list row) the_rows). Qed.

Lemma plain_bool hb : plain_key hb KBool = derive KBool.
Proof. unfold plain_key, row_for. rewrite rows_are. destruct hb; reflexivity. Qed.
Lemma plain_unit hb : plain_key hb KUnit = derive KUnit.
Proof. unfold plain_key, row_for. rewrite rows_are. destruct hb; reflexivity. Qed.
Lemma plain_prim p : plain_key true (KPrim p) = derive (KPrim p).
Proof. unfold plain_key, row_for. rewrite rows_are. destruct p; reflexivity. Qed.
Lemma plain_none p : plain_key false (KPrim p) = None.
Proof. unfold plain_key, row_for. rewrite rows_are. destruct p; reflexivity. Qed.
Lemma option_key_is hb K (ki : KeyImpl K) : option_key hb ki =
  Some (MkKeyImpl (fun V => opt_map_storage (ki_map ki V)) (opt_set_storage (ki_set ki))).
Proof. unfold option_key, row_for. rewrite rows_are. destruct hb; reflexivity. Qed.

Lemma text_derive_is :
  (forall t, text_derive true t = derive t) /\ (forall vs, text_derive_fields true vs = derive_fields vs).
Proof.
  apply kty_mut.
  - exact (plain_bool true).
  - exact (plain_unit true).
  - exact plain_prim.
  - intros t IH. cbn [text_derive derive]. rewrite IH. destruct (derive t) as [ki|]; [|reflexivity].
    apply option_key_is.
  - intros bitset vs IH. cbn [text_derive derive]. rewrite IH. reflexivity.
  - reflexivity.
  - intros r IH. cbn [text_derive_fields derive_fields]. rewrite IH. reflexivity.
  - intros t IHt r IHr. cbn [text_derive_fields derive_fields]. rewrite IHt, IHr. reflexivity.
Qed.

Lemma units_not_dynamic : forall vs u, as_units vs = Some u -> dynamics vs = false.
Proof.
  induction vs as [|r IH|t r IH]; intros u E; cbn in *; [reflexivity| |discriminate].
  destruct (as_units r) as [u'|]; [|discriminate]. exact (IH u' eq_refl).
Qed.
Lemma text_derive_static :
  (forall t, text_derive false t = if dynamic t then None else derive t) /\
  (forall vs, text_derive_fields false vs = if dynamics vs then None else derive_fields vs).
Proof.
  apply kty_mut.
  - exact (plain_bool false).
  - exact (plain_unit false).
  - exact plain_none.
  - intros t IH. cbn [text_derive derive dynamic]. rewrite IH. destruct (dynamic t); [reflexivity|].
    destruct (derive t) as [ki|]; [|reflexivity]. apply option_key_is.
  - intros bitset vs IH. cbn [text_derive derive dynamic]. rewrite IH.
    destruct (as_units vs) as [u|] eqn:E; [now rewrite (units_not_dynamic vs u E)|].
    destruct (dynamics vs); reflexivity.
  - reflexivity.
  - intros r IH. cbn [text_derive_fields derive_fields dynamics]. rewrite IH. destruct (dynamics r); reflexivity.
  - intros t IHt r IHr. cbn [text_derive_fields derive_fields dynamics]. rewrite IHt, IHr.
    destruct (dynamic t); [reflexivity|]. destruct (dynamics r); cbn; [|reflexivity].
    destruct (derive t); reflexivity.
Qed.

Lemma types_are : forall ty, (exists r, In r key_rows /\ rw_ty r = ty) <->
  ty = [W "Option"; P "<"; W "K"; P ">"] \/ exists t, type_tokens t = Some ty.
Proof.
  intros ty. rewrite rows_are. split.
  - intros [r [H <-]]. cbn in H.
    repeat (destruct H as [<-|H]; [first [now left
      | right; first [exists KBool; reflexivity | exists KUnit; reflexivity
        | let go p := (exists (KPrim p); reflexivity) in
          first [go PChar|go PU8|go PU32|go PU64|go PU128|go PUsize|go PI8|go PI32|go PI64|go PI128|go PIsize|go PStr|go PBytes]]]|]).
    contradiction.
  - intros [->|[t E]].
    + eexists. split; [right; left; reflexivity|reflexivity].
    + assert (H : In ty (List.map rw_ty the_rows)).
      { destruct t as [| |[]| |]; cbn in E; try discriminate; injection E as <-; cbn; tauto. }
      apply in_map_iff in H as [r [E' H]]. exists r. now split.
Qed.
Lemma once : NoDup (List.map rw_ty key_rows).
Proof.
  rewrite rows_are. cbn [List.map the_rows rw_ty].
  repeat constructor; cbn; intros H; repeat destruct H as [H|H]; try discriminate; contradiction.
Qed.
