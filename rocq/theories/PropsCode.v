(** Property theorems about the code that the derive writes for unit enums. *)
Require Import List Arith NArith Bool String Lia.
Import ListNotations.
From Verif Require Import Std Traits DeriveUnit Rust UnitCode CodeSpec UnitCodeModel.
Open Scope string_scope.
Open Scope list_scope.

(** * C60: the generated code of an enum without fields *)

(** Run, the code behaves as a map and a set of variant names. *)
Theorem C60_generated : forall (S V : Type) (U : user S V) bitset vs cm cs,
  unit_code bitset vs = Some (cm, cs) -> NoDup vs ->
  (forall l s, Forall (well_named vs) l ->
     serve U (map_step U) cm l s = Some (answers (ref_map vs U) l s (fun _ => None))) /\
  (forall l s, Forall (set_well_named vs) l ->
     serve U (set_step U) cs l s = Some (answers (ref_set vs U bitset) l s (fun _ => false))).
Proof. intros S V U. exact (unit_code_serves U). Qed.
Print Assumptions C60_generated.

(** A set as an integer: from one whose bits are the elements, to one. *)
Theorem C60_raw : forall (S V : Type) (U : user S V) vs cm cs d m l s,
  unit_code true vs = Some (cm, cs) -> NoDup vs ->
  bits_are vs d m -> Forall (set_well_named vs) l ->
  exists d', serve_raw U cs d l s = Some (answers (ref_set vs U true) l s m, d') /\
    bits_are vs d' (snd (after (ref_set vs U true) l s m)).
Proof. intros S V U. exact (unit_code_raw U). Qed.
Print Assumptions C60_raw.

(** No code is generated only for a bitset of more than 128 variants. *)
Theorem C60_refused : forall bitset vs,
  unit_code bitset vs = None <-> bitset = true /\ 128 < List.length vs.
Proof. exact unit_code_refused. Qed.
Print Assumptions C60_refused.

(** The storages of the model, with which the other properties are proved, answer
    every request as the generated code does. *)
Theorem C60_modelled : forall (R S V : Type) (u : units R) (name : R -> string)
  (U : user S V) bitset,
  NoDup (map name (variants_of u)) ->
  match unit_code bitset (map name (variants_of u)), derive_unit bitset u with
  | Some (cm, cs), Some impl =>
      (forall l s w, Forall (well_named (map name (variants_of u))) l ->
         serve U (map_step U) cm l s =
         Some (answers (model_step U (variants_of u) name (ki_map impl V)
                          (List.length (variants_of u))) l s (ms_empty (ki_map impl V) w))) /\
      (forall l s w, Forall (set_well_named (map name (variants_of u))) l ->
         serve U (set_step U) cs l s =
         Some (answers (model_set_step U (variants_of u) name (ki_set impl)
                          (List.length (variants_of u))) l s (ss_empty (ki_set impl) w)))
  | None, None => True
  | _, _ => False
  end.
Proof. intros R S V. exact unit_code_model. Qed.
Print Assumptions C60_modelled.

(** * Examples *)

(** A user who writes down what is asked and dropped, keeps ["Down"] only, and whose
    closure panics at ["Left"]. *)
Definition scribe : user (list string) nat := MkUser
  (fun s x => (s ++ [x], if String.eqb x "Left" then None else Some (String.eqb x "Down")))
  (fun s x v => (s ++ [x], v + 1,
                 if String.eqb x "Left" then None else Some (String.eqb x "Down")))
  (fun s v => (s ++ ["drop"], false)).

Definition compass := ["Up"; "Down"; "Left"; "Right"].

Example C60_generated_map_example :
  NoDup compass /\
  let l := [QInsert "Left" 3; QInsert "Up" 1; QInsert "Down" 2; QInsert "Up" 10; QLen; QIter;
            QRetain; QIter; QEntry "Up" (IInsert 7); QEntry "Up" (IInsert 8);
            QEntry "Right" IRemove; QIterMut (fun x v => v * 2); QSet "Left" 0;
            QRemove "Down"; QValues; QContains "Down"; QClear; QIsEmpty] in
  Forall (well_named compass) l /\
  option_map (fun c => serve scribe (map_step scribe) (fst c) l [])
             (unit_code false compass) =
  Some (Some (
    [AOpt None; AOpt None; AOpt None; AOpt (Some 1); ANat 3;
     AItems [(Some "Up", Some 10); (Some "Down", Some 2); (Some "Left", Some 3)];
     AUnwound; AItems [(Some "Down", Some 3); (Some "Left", Some 4)];
     AItems [(None, Some 7)]; AOpt (Some 7); AOpt None; AUnit; AUnit;
     AOpt (Some 6); AItems [(None, Some 16); (None, Some 0)]; ABool false; AUnit; ABool true],
    ["Up"; "drop"; "Down"; "Left"; "drop"; "drop"])).
Proof.
  split; [|split; [|vm_compute; reflexivity]].
  - repeat constructor; cbn; intuition discriminate.
  - repeat (apply Forall_cons; [cbn; tauto|]); apply Forall_nil.
Qed.

(** The two kinds of set part when the closure panics: the array has forgotten
    ["Up"] by then, the integer has not. *)
Example C60_generated_set_example :
  let l := [PInsert "Left"; PInsert "Up"; PInsert "Down"; PInsert "Up"; PRetain; PIter;
            PRemove "Left"; PRetain; PIter] in
  Forall (set_well_named compass) l /\
  map (fun b => option_map (fun c => serve scribe (set_step scribe) (snd c) l [])
                           (unit_code b compass)) [false; true] =
  [Some (Some ([ABool true; ABool true; ABool true; ABool false; AUnwound;
                AItems [(Some "Down", None); (Some "Left", None)]; ABool true; AUnit;
                AItems [(Some "Down", None)]],
               ["Up"; "Down"; "Left"; "Down"]));
   Some (Some ([ABool true; ABool true; ABool true; ABool false; AUnwound;
                AItems [(Some "Up", None); (Some "Down", None); (Some "Left", None)];
                ABool true; AUnit; AItems [(Some "Down", None)]],
               ["Up"; "Down"; "Left"; "Up"; "Down"]))].
Proof.
  split; [|vm_compute; reflexivity].
  repeat (apply Forall_cons; [cbn; tauto|]); apply Forall_nil.
Qed.

Example C60_raw_example :
  bits_are compass 9 (fun x => String.eqb x "Up" || String.eqb x "Right") /\
  option_map (fun c => serve_raw scribe (snd c) 9 [PIter; PInsert "Left"; PRemove "Up"] [])
             (unit_code true compass) =
  Some (Some ([AItems [(Some "Up", None); (Some "Right", None)]; ABool true; ABool true],
              [], 12%N)).
Proof.
  split; [|vm_compute; reflexivity].
  intros [|[|[|[|i]]]]; try reflexivity.
  rewrite N.bits_above_log2; [now destruct i|]. change (N.log2 9) with 3%N. lia.
Qed.

Example C60_refused_example :
  unit_code true (repeat "A" 129) = None /\ unit_code true (repeat "A" 128) <> None /\
  unit_code false (repeat "A" 129) <> None.
Proof.
  split; [|split].
  - apply C60_refused. rewrite repeat_length. split; [reflexivity|lia].
  - intros H. apply C60_refused in H as [_ H]. rewrite repeat_length in H. lia.
  - intros H. apply C60_refused in H as [H _]. discriminate.
Qed.

Example C60_modelled_example :
  let u := UCons (UCons UNil) in
  let name := fun k : unit + (unit + Empty_set) =>
    match k with inl _ => "On" | inr _ => "Off" end in
  map name (variants_of u) = ["On"; "Off"] /\
  NoDup (map name (variants_of u)) /\
  option_map (fun impl => answers (model_step scribe (variants_of u) name (ki_map impl nat) 2)
      [QInsert "Off" 1; QInsert "On" 2; QIter; QRetain; QLen] []
      (ms_empty (ki_map impl nat) (fun l _ => l)))
    (derive_unit true u) =
  Some ([AOpt None; AOpt None; AItems [(Some "On", Some 2); (Some "Off", Some 1)]; AUnit; ANat 0],
        ["On"; "drop"; "Off"; "drop"]).
Proof.
  split; [reflexivity|split; [|vm_compute; reflexivity]].
  repeat constructor; cbn; intuition discriminate.
Qed.
