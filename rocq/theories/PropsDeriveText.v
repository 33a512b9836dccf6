(** Property theorems about the text of the derive macro. *)
Require Import List Arith NArith ZArith Bool String.
Import ListNotations.
From Verif Require Import Std Traits DeriveUnit DeriveAny Key Spec Rust UnitCode AnyCode AnyRun
  CodeSpec AnyCodeSpec AnyRetains Samples DeriveCode DeriveEqual DeriveMain PropsCode PropsAny.
Open Scope string_scope.
Open Scope list_scope.

(** * C69: from the text of the derive macro to a map and a set *)

(** The macro's text, run for an enum of unit variants, writes code that behaves as a map
    and a set of the names of the variants.  ([serve] calls the entries of [entry_code].) *)
Theorem C69_unit : forall (S V : Type) (U : user S V) bitset vs g,
  unit_text bitset vs = Some g -> NoDup vs ->
  ge_entry g = entry_code /\
  (forall l s, Forall (well_named vs) l ->
     serve U (map_step U) (ge_map g) l s = Some (answers (ref_map vs U) l s (fun _ => None))) /\
  (forall l s, Forall (set_well_named vs) l ->
     serve U (set_step U) (ge_set g) l s
     = Some (answers (ref_set vs U bitset) l s (fun _ => false))).
Proof. exact unit_text_serves. Qed.
Print Assumptions C69_unit.

(** A set as an integer. *)
Theorem C69_raw : forall (S V : Type) (U : user S V) vs g d m l s,
  unit_text true vs = Some g -> NoDup vs ->
  bits_are vs d m -> Forall (set_well_named vs) l ->
  exists d', serve_raw U (ge_set g) d l s = Some (answers (ref_set vs U true) l s m, d') /\
    bits_are vs d' (snd (after (ref_set vs U true) l s m)).
Proof. exact unit_text_raw. Qed.
Print Assumptions C69_raw.

(** The macro's text refuses bitsets of more than 128 variants, and no other enum of unit
    variants. *)
Theorem C69_refused : forall bitset vs,
  unit_text bitset vs = None <-> bitset = true /\ 128 < List.length vs.
Proof. exact unit_text_refused. Qed.
Print Assumptions C69_refused.

(** For an enum with a tuple variant it always writes code, which answers as the storages
    of the model.  ([work] calls the entries of [any_entry_code] and the iterators of
    [iter_code].) *)
Theorem C69_any : forall (T : Type) (T_dec : forall a b : T, {a = b} + {a <> b})
    (K : T -> Type) (impl : forall t, KeyImpl (K t)) (flds : vfields T),
  NoDup (map fst flds) -> (forall t, retains (impl t)) ->
  exists g, any_text flds = Some g /\ ge_entry g = any_entry_code flds /\
    (forall q, iterator_text q flds = Some (iter_code q flds)) /\
    forall (V S : Type) (U : auser K V S) w,
    (forall l s,
       option_map fst (work T_dec impl U flds (do_task T_dec impl U flds) (ge_map g) w l s) =
       Some (fst (replies (model_task impl U flds) l s
                    (ms_empty (any_map_storage V (fs_of impl flds)) w)))) /\
    (forall l s,
       option_map fst (work T_dec impl U flds (do_set_task T_dec impl U flds) (ge_set g) w l s) =
       Some (fst (replies (model_set_task impl U flds) l s
                    (ss_empty (any_set_storage (fs_of impl flds)) w)))).
Proof. exact any_text_answers. Qed.
Print Assumptions C69_any.

(** The codes that C60 and C61 are about are those that the text of the macro writes. *)
Theorem C69_transcribed :
  (forall bitset vs, unit_text bitset vs
     = option_map (fun c => MkGenerated (fst c) (snd c) entry_code) (unit_code bitset vs)) /\
  (forall T (flds : vfields T), any_text flds
     = Some (MkGenerated (any_map_code flds) (any_set_code flds) (any_entry_code flds))) /\
  (forall T q (flds : vfields T), iterator_text q flds = Some (iter_code q flds)).
Proof. exact (conj unit_text_is (conj any_text_is iterator_text_is)). Qed.
Print Assumptions C69_transcribed.

(** * Examples *)

(** The text itself is run here, for [compass] of C60. *)
Example C69_unit_example :
  NoDup compass /\
  option_map (fun g =>
      (serve scribe (map_step scribe) (ge_map g)
         [QInsert "Left" 3; QInsert "Up" 1; QInsert "Up" 10; QIter; QRemove "Left"; QLen] [],
       serve scribe (set_step scribe) (ge_set g)
         [PInsert "Left"; PInsert "Up"; PInsert "Up"; PRetain; PIter] []))
    (unit_text true compass) =
  Some (Some ([AOpt None; AOpt None; AOpt (Some 1);
               AItems [(Some "Up", Some 10); (Some "Left", Some 3)]; AOpt (Some 3); ANat 1], []),
        Some ([ABool true; ABool true; ABool false; AUnwound;
               AItems [(Some "Up", None); (Some "Left", None)]], ["Up"; "Left"])).
Proof.
  split; [repeat constructor; cbn; intuition discriminate|]. vm_compute. reflexivity.
Qed.

Example C69_raw_example :
  bits_are compass 9 (fun x => String.eqb x "Up" || String.eqb x "Right") /\
  option_map (fun g => serve_raw scribe (ge_set g) 9 [PIter; PInsert "Left"; PRemove "Up"] [])
             (unit_text true compass) =
  Some (Some ([AItems [(Some "Up", None); (Some "Right", None)]; ABool true; ABool true],
              [], 12%N)).
Proof. split; [exact (proj1 C60_raw_example)|]. vm_compute. reflexivity. Qed.

Example C69_refused_example :
  unit_text true (repeat "A" 129) = None /\ unit_text true (repeat "A" 128) <> None.
Proof.
  split; [apply C69_refused; rewrite repeat_length; split; [reflexivity|repeat constructor]|].
  intros H. apply C69_refused in H as [_ H]. rewrite repeat_length in H. exact (Nat.lt_irrefl _ H).
Qed.

Example C69_any_example :
  NoDup (map fst thing) /\ (forall t, retains (el_impl t)) /\
  option_map (fun g => option_map fst (work Bool.bool_dec el_impl noter thing
      (do_task Bool.bool_dec el_impl noter thing) (ge_map g) w0
      [TInsert (num 4) 2; TInsert on 1; TInsert (flag true) 5; TInsert (num 4) 3; TLen;
       TIter OfIter [Front; Front; Front; Front]] [])) (any_text thing) =
  Some (Some ([ROpt None; ROpt None; ROpt None; ROpt (Some 2); RNat 3;
               RItems [Some (Some (sFlag true), Some 5); Some (Some (sNum 4), Some 3);
                       Some (Some sOn, Some 1); None]], [])).
Proof.
  split; [exact (proj1 C61_map_example)|]. split; [exact el_retains|].
  rewrite any_text_is. vm_compute. reflexivity.
Qed.

(** Both other kinds of code: none is the empty one. *)
Example C69_transcribed_example :
  option_map (fun g => (List.length (cd_methods (ge_map g)), List.length (cd_methods (ge_set g)),
                        List.length (cd_methods (ge_entry g)))) (any_text thing) = Some (19, 12, 8) /\
  option_map (fun c => List.map fst (cd_methods c)) (iterator_text KKeys thing)
  = Some ["next"; "next_back"; "clone"].
Proof. rewrite any_text_is, iterator_text_is. split; reflexivity. Qed.
