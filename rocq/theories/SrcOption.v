(** Running src/map/storage/option.rs: it does what [opt_map_storage] does. *)
Require Import List Arith NArith Bool String Lia.
Import ListNotations.
From Verif Require Import Std Traits MapStorages SrcText SrcStd SrcParse SrcRun SrcSpec SrcFiles SrcProofs SrcForeign.
Open Scope string_scope.

Definition option_map_ast : list item := Eval vm_compute in program option_map_text.
Lemma option_map_read : program option_map_text = option_map_ast.
Proof. vm_compute. reflexivity. Qed.

Section OptionMap.
  Context {K V S : Type} (m : MapStorage K V) (U : user_fns (option K) V S).
  Hypothesis ext : forall (f g : retain_fn S K V) s st,
    (forall s k v, f s k v = g s k v) -> ms_retain m f s st = ms_retain m g s st.
  Notation F := (option_map_file m S option_map_ast).
  Notation M := (opt_map_storage m).
  Notation val := (val V (foreign_map m)).

  Definition rep (st : opt_map m) : val :=
    VData "OptionMapStorage" ""
      [("some", VForeign (XMap m (om_some m st))); ("none", opt_rep user_rep (om_none m st))].
  Definition same_step (q : req (option K) V) : Prop := forall s st,
    src_req F U q s (rep st) = let '(s1, st1, a) := map_req U M q s st in (s1, rep st1, a).

  Ltac simple :=
    model_side; unfold rep; cbn [om_some om_none opt_rep]; unfold user_rep; cbn [src_req];
    unfold call_on, invoke, self_arg, reclone, go; repeat found; cbn iota; foreign_runs.
  Lemma len_ok : same_step MLen.
  Proof. intros s [st [n|]]; simple; ms_finish. Qed.
  Lemma is_empty_ok : same_step MIsEmpty.
  Proof. intros s [st [n|]]; simple; ms_finish. Qed.
  Lemma contains_ok : forall k, same_step (MContains k).
  Proof. intros [k|] s [st [n|]]; simple; ms_finish. Qed.
  Lemma get_ok : forall k, same_step (MGet k).
  Proof. intros [k|] s [st [n|]]; simple; ms_finish. Qed.
  Lemma insert_ok : forall k v, same_step (MInsert k v).
  Proof. intros [k|] v s [st [n|]]; simple; ms_finish. Qed.
  Lemma remove_ok : forall k, same_step (MRemove k).
  Proof. intros [k|] s [st [n|]]; simple; ms_finish. Qed.
  Lemma clear_ok : same_step MClear.
  Proof. intros s [st [n|]]; simple; ms_finish. Qed.
  Lemma clone_ok : same_step MClone.
  Proof. intros s [st [n|]]; simple; ms_finish. Qed.
  Lemma set_ok : forall k v, same_step (MSet k v).
  Proof. intros [k|] v s [st [n|]]; simple. all: ms_finish. Qed.
  Lemma entry_ok : forall k a, same_step (MEntry k a).
  Proof.
    intros [k|] [| |v|v|v|] s [st [n|]].
    all: model_side; unfold rep; cbn [om_some om_none opt_rep]; unfold user_rep; cbn [src_req];
      unfold do_entry, invoke, go; repeat found; lazy beta iota zeta; foreign_runs; lazy beta iota zeta;
      repeat match goal with |- context [at_self ?F ?e] => ev (at_self F e) end;
      unfold on_entry, self_arg, invoke, go; repeat found; lazy beta iota zeta; foreign_runs.
    all: ms_finish.
  Qed.
  Lemma eq_ok : forall s a b, src_eq F U s (rep a) (rep b) = Some (map_compare U M s a b).
  Proof.
    intros s [a [x|]] [b [y|]]; model_side; unfold rep; cbn [om_some om_none opt_rep]; unfold user_rep;
      unfold src_eq, go; foreign_runs; ms_finish.
  Qed.
End OptionMap.
