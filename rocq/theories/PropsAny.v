(** Property theorems about the code that the derive writes for enums with tuple
    variants. *)
Require Import List Arith NArith ZArith Bool String.
Import ListNotations.
From Verif Require Import Std Traits DeriveAny Key Spec Rust AnyCode AnyRun CodeSpec AnyCodeSpec
  AnyRetains AnyCodeMain Samples.
Open Scope string_scope.
Open Scope list_scope.

(** * C61: the generated code of an enum with tuple variants *)

(** Run, the code of the map answers every list of requests as the storage of the
    model does, and the user's functions are called in the same order. *)
Theorem C61_map : forall (T : Type) (T_dec : forall a b : T, {a = b} + {a <> b})
    (K : T -> Type) (impl : forall t, KeyImpl (K t)) (V S : Type) (U : auser K V S)
    (flds : vfields T) w l s,
  NoDup (map fst flds) -> (forall t, retains (impl t)) ->
  option_map fst (work T_dec impl U flds (do_task T_dec impl U flds) (any_map_code flds) w l s) =
  Some (fst (replies (model_task impl U flds) l s
               (ms_empty (any_map_storage V (fs_of impl flds)) w))).
Proof. intros. now apply map_answers. Qed.
Print Assumptions C61_map.

(** The same of the set. *)
Theorem C61_set : forall (T : Type) (T_dec : forall a b : T, {a = b} + {a <> b})
    (K : T -> Type) (impl : forall t, KeyImpl (K t)) (V S : Type) (U : auser K V S)
    (flds : vfields T) w l s,
  NoDup (map fst flds) -> (forall t, retains (impl t)) ->
  option_map fst (work T_dec impl U flds (do_set_task T_dec impl U flds)
                    (any_set_code flds) w l s) =
  Some (fst (replies (model_set_task impl U flds) l s
               (ss_empty (any_set_storage (fs_of impl flds)) w))).
Proof. intros. now apply set_answers. Qed.
Print Assumptions C61_set.

(** Comparing two maps, after any requests to both. *)
Theorem C61_map_eq : forall (T : Type) (T_dec : forall a b : T, {a = b} + {a <> b})
    (K : T -> Type) (impl : forall t, KeyImpl (K t)) (V S : Type) (U : auser K V S)
    (flds : vfields T) w1 w2 l1 l2 s,
  NoDup (map fst flds) -> (forall t, retains (impl t)) ->
  work2 T_dec impl U flds (do_task T_dec impl U flds) (any_map_code flds) w1 w2 l1 l2 s =
  let m := any_map_storage V (fs_of impl flds) in
  let '(_, s1, a) := replies (model_task impl U flds) l1 s (ms_empty m w1) in
  let '(_, s2, b) := replies (model_task impl U flds) l2 s1 (ms_empty m w2) in
  Some (model_eq impl U flds a b s2).
Proof. intros. now apply map_eq_answers. Qed.
Print Assumptions C61_map_eq.

(** Comparing two sets, after any requests to both. *)
Theorem C61_set_eq : forall (T : Type) (T_dec : forall a b : T, {a = b} + {a <> b})
    (K : T -> Type) (impl : forall t, KeyImpl (K t)) (V S : Type) (U : auser K V S)
    (flds : vfields T) w1 w2 l1 l2 s,
  NoDup (map fst flds) -> (forall t, retains (impl t)) ->
  work2 T_dec impl U flds (do_set_task T_dec impl U flds) (any_set_code flds) w1 w2 l1 l2 s =
  let m := any_set_storage (fs_of impl flds) in
  let '(_, s1, a) := replies (model_set_task impl U flds) l1 s (ss_empty m w1) in
  let '(_, s2, b) := replies (model_set_task impl U flds) l2 s1 (ss_empty m w2) in
  Some (s2, RBool (ss_eq m a b)).
Proof. intros. now apply set_eq_answers. Qed.
Print Assumptions C61_set_eq.

(** This holds of every key type that is an enum with a tuple variant, however its
    variants are named: its storages in the model are those of some such [flds]. *)
Theorem C61_enum : forall bitset vs ki names,
  as_units vs = None -> derive (KEnum bitset vs) = Some ki ->
  NoDup names -> List.length names = variant_count vs ->
  exists (T : Type) (T_dec : forall a b : T, {a = b} + {a <> b})
         (K : T -> Type) (impl : forall t, KeyImpl (K t)) (flds : vfields T),
    map fst flds = names /\
    existT KeyImpl (R_of (K := K) flds) (derive_any (fs_of impl flds)) =
    existT KeyImpl (key (KEnum bitset vs)) ki /\
    forall (V S : Type) (U : auser K V S),
      (forall w l s,
         option_map fst (work T_dec impl U flds (do_task T_dec impl U flds)
                           (any_map_code flds) w l s) =
         Some (fst (replies (model_task impl U flds) l s
                      (ms_empty (any_map_storage V (fs_of impl flds)) w)))) /\
      (forall w l s,
         option_map fst (work T_dec impl U flds (do_set_task T_dec impl U flds)
                           (any_set_code flds) w l s) =
         Some (fst (replies (model_set_task impl U flds) l s
                      (ss_empty (any_set_storage (fs_of impl flds)) w)))).
Proof. exact enum_code. Qed.
Print Assumptions C61_enum.

(** * Examples *)

(** enum Thing { Off, Flag(bool), Num(u8), On }, where [true] stands for the type
    [bool] and [false] for [u8]. *)
Definition el (t : bool) : Type := if t then bool else Z.
Definition el_impl (t : bool) : KeyImpl (el t) :=
  match t return KeyImpl (el t) with true => bool_ki | false => u8_ki end.
Definition thing : vfields bool :=
  [("Off", None); ("Flag", Some true); ("Num", Some false); ("On", None)].

Notation Thing := (R_of (K := el) thing).
Definition off : Thing := inl tt.
Definition flag (b : bool) : Thing := inr (inl b).
Definition num (n : Z) : Thing := inr (inr (inl n)).
Definition on : Thing := inr (inr (inr (inl tt))).

Definition sOff : skey el := Plain "Off".
Definition sFlag (b : bool) : skey el := Holding "Flag" true b.
Definition sNum (n : Z) : skey el := Holding "Num" false n.
Definition sOn : skey el := Plain "On".

(** A user who writes down the values that are seen, keeps the odd ones, after adding
    ten, and panics at seven; cloning three panics. *)
Definition noter : auser el nat (list nat) := MkAUser
  (fun s k => (s, match k with
                  | Holding _ true false => None
                  | Plain x => Some (String.eqb x "On")
                  | _ => Some true end))
  (fun s k v => (s ++ [v], 10 + v, if Nat.eqb v 7 then None else Some (Nat.odd v)))
  (MkValueFns (fun s v => (s ++ [v], if Nat.eqb v 3 then None else Some v))
              (fun s a b => (s ++ [a; b], Some (Nat.eqb a b)))
              (fun s v => (s ++ [100 + v], false))).

Lemma el_retains t : retains (el_impl t).
Proof.
  destruct t.
  - exact (proj1 derive_retains KBool bool_ki eq_refl).
  - exact (proj1 derive_retains (KPrim PU8) u8_ki eq_refl).
Qed.

Example C61_map_example :
  NoDup (map fst thing) /\ (forall t, retains (el_impl t)) /\
  option_map fst (work Bool.bool_dec el_impl noter thing
    (do_task Bool.bool_dec el_impl noter thing)
    (any_map_code thing) w0
    [TInsert (num 4) 2; TInsert on 1; TInsert (flag true) 5; TInsert (num 9) 4;
     TInsert (num 4) 3; TLen; TIter OfIter [Front; Back; Front; Again; Front; Front; Front];
     TIter OfValues [Back; Front; Again; Back; Front; Front]; TClone;
     TEntry off (IInsert 8); TEntry off (IInsert 6); TRetain;
     TIter OfIntoIter [Front; Front; Front; Front];
     TIterMut (fun k v => match k with Holding _ _ _ => 0 | Plain _ => v end) [Front; Front];
     TGet (flag true); TEntry (num 9) IRemove; TClear; TIsEmpty] []) =
  Some ([ROpt None; ROpt None; ROpt None; ROpt None; ROpt (Some 2); RNat 4;
         RItems [Some (Some (sFlag true), Some 5); Some (Some (sNum 4), Some 3);
                 Some (Some (sNum 9), Some 4); Some (Some sOn, Some 1); None];
         RItems [Some (None, Some 5); Some (None, Some 3); Some (None, Some 4)];
         RUnwound; RVal 8; ROpt (Some 8); RUnit;
         RItems [Some (Some (sFlag true), Some 15); Some (Some (sNum 4), Some 13);
                 Some (Some sOn, Some 11); None];
         RItems [Some (Some (sFlag true), Some 15); Some (Some (sNum 4), Some 13)];
         ROpt (Some 0); ROpt None; RUnit; RBool true],
        [5; 3; 6; 116; 5; 3; 4; 114; 1; 100; 100; 111]).
Proof.
  split; [|split; [exact el_retains|]].
  - repeat constructor; cbn; intuition discriminate.
  - vm_compute. reflexivity.
Qed.

(** Without the hash table the iterators are double-ended:
    enum Pair { A, B(bool) }. *)
Definition pair : vfields bool := [("A", None); ("B", Some true)].

Example C61_back_example :
  NoDup (map fst pair) /\
  option_map (fun r => fst (fst r)) (work Bool.bool_dec el_impl noter pair
    (do_task Bool.bool_dec el_impl noter pair)
    (any_map_code pair) w0
    [TInsert (inl tt) 2; TInsert (inr (inl true)) 1; TInsert (inr (inl false)) 5;
     TIter OfValues [Back; Front; Again; Back; Front; Back];
     TIterMut (fun _ v => v + 1) [Back; Front]; TIter OfIter [Front; Front; Front]] []) =
  Some [ROpt None; ROpt None; ROpt None;
        RItems [Some (None, Some 5); Some (None, Some 2); Some (None, Some 1); None; None];
        RItems [Some (Some (Holding "B" true false), Some 5); Some (Some (Plain "A"), Some 2)];
        RItems [Some (Some (Plain "A"), Some 3); Some (Some (Holding "B" true true), Some 1);
                Some (Some (Holding "B" true false), Some 6)]].
Proof.
  split; [repeat constructor; cbn; intuition discriminate|]. vm_compute. reflexivity.
Qed.

(** The closure panics at [Flag(false)]: [Off] is gone by then, [Num(4)] not reached.
    (Inserting [Flag(false)] answers [false], see C26.) *)
Example C61_set_example :
  option_map (fun r => fst (fst r)) (work Bool.bool_dec el_impl noter thing
    (do_set_task Bool.bool_dec el_impl noter thing) (any_set_code thing) w0
    [UInsert (num 4); UInsert off; UInsert (flag false); UInsert off; URetain; ULen;
     URemove (flag false); UInsert on; UIter false [Front; Again; Front; Front]; URetain; UContains on;
     UContains off; UClone; UIter true [Front; Front]; UClear; UIsEmpty] []) =
  Some [RBool true; RBool true; RBool false; RBool false; RUnwound; RNat 2; RBool true;
        RBool true; RItems [Some (Some (sNum 4), None); Some (Some sOn, None); None]; RUnit; RBool true;
        RBool false; RUnit; RItems [Some (Some (sNum 4), None); Some (Some sOn, None)]; RUnit;
        RBool true].
Proof. vm_compute. reflexivity. Qed.

(** The order of the hash table does not matter; the comparison stops at the first
    difference. *)
Example C61_map_eq_example :
  let run l1 l2 := work2 Bool.bool_dec el_impl noter thing
    (do_task Bool.bool_dec el_impl noter thing) (any_map_code thing) w0 (fun _ _ => []) l1 l2 [] in
  run [TInsert (num 4) 2; TInsert (num 5) 1; TInsert off 8]
      [TInsert off 8; TInsert (num 5) 1; TInsert (num 4) 2] =
    Some ([8; 8; 2; 2; 1; 1], RBool true) /\
  run [TInsert on 8; TInsert (num 4) 2] [TInsert on 8; TInsert (num 4) 3] =
    Some ([2; 3], RBool false).
Proof. split; vm_compute; reflexivity. Qed.

Example C61_set_eq_example :
  let run l1 l2 := work2 Bool.bool_dec el_impl noter thing
    (do_set_task Bool.bool_dec el_impl noter thing) (any_set_code thing)
    w0 (fun _ _ => []) l1 l2 [] in
  run [UInsert (num 4); UInsert (num 5); UInsert off]
      [UInsert off; UInsert (num 5); UInsert (num 4)] =
    Some ([], RBool true) /\
  run [UInsert (num 4); UInsert on] [UInsert (num 4); UInsert off] = Some ([], RBool false).
Proof. split; vm_compute; reflexivity. Qed.

Example C61_enum_example :
  let vs := Key.VUnit (VTuple KBool (VTuple (KOption (KPrim PU8)) (VTuple dir_t VNil))) in
  as_units vs = None /\ derive (KEnum false vs) = Some thing_ki /\
  NoDup ["Unit"; "Flag"; "Num"; "Sub"] /\
  List.length ["Unit"; "Flag"; "Num"; "Sub"] = variant_count vs.
Proof.
  repeat split. repeat constructor; cbn; intuition discriminate.
Qed.
