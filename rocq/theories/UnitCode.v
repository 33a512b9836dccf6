(** The code that [#[derive(Key)]] generates for an enum of unit variants
    (fixed-map-derive/src/unit_variants.rs), as programs of Rust.v: what the
    templates become for the variants [vs]. *)
Require Import List Arith NArith Bool String.
Import ListNotations.
From Verif Require Import Std DeriveUnit Names Rust.
Open Scope string_scope.

(** Nothing is called on storages generated elsewhere (unit_variants.rs:226-374). *)
Notation Expr := (expr Empty_set).

(** A call with one and with two arguments (e.g. unit_variants.rs:259, 273). *)
Definition call1 {M} (p : prim) (a : expr M) : expr M := EPrim p (XCons a XNil).
(** See [call1] (unit_variants.rs:273). *)
Definition call2 {M} (p : prim) (a b : expr M) : expr M := EPrim p (XCons a (XCons b XNil)).

(** [names], unit_variants.rs:13-18. *)
Definition names (vs : list string) : list string := field_names (List.length vs).

(** [let [#(#names),*] = &self.data;], e.g. unit_variants.rs:258. *)
Definition let_names (vs : list string) (body : Expr) : Expr :=
  ELetArr (names vs) (ERefTo BSelf "data") body.

(** [match key { #(#ident::#variants => .. #names .., )* }],
    e.g. unit_variants.rs:272-274. *)
Definition match_key (x : string) (vs : list string) (arm : string -> Expr) : Expr :=
  EMatch (EVar x) (arms_of (List.map (fun e => (PVariant (fst e), arm (snd e)))
                                     (List.combine vs (names vs)))).

(** [0 #(+ ..)*], e.g. unit_variants.rs:259. *)
Definition sum_of {M} (l : list (expr M)) : expr M :=
  List.fold_left (call2 Add) l (EUsize 0).

(** [true #(&& ..)*], e.g. unit_variants.rs:265. *)
Definition all_of {M} (l : list (expr M)) : expr M :=
  List.fold_left EAnd l (EBool true).

(** [option_to_entry], unit_variants.rs:117-123, with the structs of
    unit_variants.rs:61-64 and 79-82. *)
Definition option_to_entry : fn Empty_set :=
  (["opt"; "key"],
   EMatch (call1 BucketNew (EVar "opt")) (arms_of [
     (PVariantOf "Some" "inner",
      EVariantOf "Occupied" (EStruct ["key"; "inner"]
                                     (xs_of [EVar "key"; EVar "inner"])));
     (PVariantOf "None" "inner",
      EVariantOf "Vacant" (EStruct ["key"; "inner"]
                                   (xs_of [EVar "key"; EVar "inner"])))])).

(** [impl_entry], unit_variants.rs:47-124: the methods of the two kinds of entries,
    by their names. *)
Definition entry_code : code Empty_set :=
  let inner := EField BLent "inner" in
  MkCode []
  [("VacantEntry::key", ([], EField BLent "key"));         (* 68-71 *)
   ("VacantEntry::insert", (["value"],                     (* 73-76 *)
     call2 BucketInsert inner (EVar "value")));
   ("OccupiedEntry::key", ([], EField BLent "key"));       (* 86-89 *)
   ("OccupiedEntry::get", ([], call1 BucketRef inner));    (* 91-94 *)
   ("OccupiedEntry::get_mut", ([], call1 BucketRef inner)); (* 96-99 *)
   ("OccupiedEntry::into_mut", ([], call1 BucketRef inner)); (* 101-104 *)
   ("OccupiedEntry::insert", (["value"],                   (* 106-109 *)
     call2 BucketReplace inner (EVar "value")));
   ("OccupiedEntry::remove", ([], call1 BucketTake inner))]. (* 111-114 *)

(** [impl_map], unit_variants.rs:127-376: the methods of
    [impl MapStorage<..> for __MapStorage<V>].  Their receivers are [self]. *)
Definition map_code (vs : list string) : code Empty_set := MkCode
  [("option_to_entry", option_to_entry)]
  [("empty", ([],                                          (* 249-254 *)
     EStruct ["data"] (xs_of [EArr (xs_of (List.map (fun _ => ENone) vs))])));
   ("len", ([],                                            (* 256-260 *)
     let_names vs
       (sum_of (List.map (fun n => call1 UsizeFrom (call1 OptIsSome (EVar n)))
                         (names vs)))));
   ("is_empty", ([],                                       (* 262-266 *)
     let_names vs
       (all_of (List.map (fun n => call1 OptIsNone (EVar n)) (names vs)))));
   ("insert", (["key"; "value"],                           (* 268-275 *)
     let_names vs
       (match_key "key" vs (fun n => call2 OptReplace (EVar n) (EVar "value")))));
   ("contains_key", (["value"],                            (* 277-284 *)
     let_names vs
       (match_key "value" vs (fun n => call1 OptIsSome (EVar n)))));
   ("get", (["value"],                                     (* 286-293 *)
     let_names vs
       (match_key "value" vs (fun n => call1 OptAsRef (EVar n)))));
   ("get_mut", (["value"],                                 (* 295-302 *)
     let_names vs
       (match_key "value" vs (fun n => call1 OptAsMut (EVar n)))));
   ("remove", (["value"],                                  (* 304-311 *)
     let_names vs
       (match_key "value" vs (fun n => call1 MemTake (EVar n)))));
   ("retain", ([],                                         (* 313-325 *)
     let_names vs
       (seq_of (List.map (fun e =>
          EIfLet (BVar "val") (call1 OptAsMut (EVar (snd e)))
            (EIf (call1 Not (EFunc2 (EVariant (fst e)) (EVar "val")))
                 (EAssignTo (EVar (snd e)) ENone)
                 EUnit)) (List.combine vs (names vs))))));
   ("clear", ([],                                          (* 327-330 *)
     EAssignTo (ERefTo BSelf "data") (EArr (xs_of (List.map (fun _ => ENone) vs)))));
   ("iter", ([],                                           (* 332-336 *)
     let_names vs
       (EFlatMap
          (call1 IntoIter (EArr (xs_of (List.map (fun e =>
             EPair (EVariant (fst e)) (EVar (snd e))) (List.combine vs (names vs))))))
          "k" "v"
          (ESome (EPair (EVar "k") (EQuestion (call1 OptAsRef (EVar "v"))))))));
   ("keys", ([],                                           (* 338-342 *)
     let_names vs
       (call1 Flatten (call1 IntoIter (EArr (xs_of (List.map (fun e =>
          EIf (call1 OptIsSome (EVar (snd e))) (ESome (EVariant (fst e))) ENone)
          (List.combine vs (names vs)))))))));
   ("values", ([],                                         (* 344-347 *)
     call1 Flatten (call1 IntoIter (ERefTo BSelf "data"))));
   ("iter_mut", ([],                                       (* 349-353 *)
     let_names vs
       (EFlatMap
          (call1 IntoIter (EArr (xs_of (List.map (fun e =>
             EPair (EVariant (fst e)) (EVar (snd e))) (List.combine vs (names vs))))))
          "k" "v"
          (ESome (EPair (EVar "k") (EQuestion (call1 OptAsMut (EVar "v"))))))));
   ("values_mut", ([],                                     (* 355-358 *)
     call1 Flatten (call1 IntoIter (ERefTo BSelf "data"))));
   ("into_iter", ([],                                      (* 360-364 *)
     ELetArr (names vs) (EField BSelf "data")
       (EFlatMap
          (call1 IntoIter (EArr (xs_of (List.map (fun e =>
             EPair (EVariant (fst e)) (EVar (snd e))) (List.combine vs (names vs))))))
          "k" "v"
          (ESome (EPair (EVar "k") (EQuestion (EVar "v")))))));
   ("entry", (["key"],                                     (* 366-373 *)
     let_names vs
       (match_key "key" vs (fun n =>
          ECall "option_to_entry" (xs_of [EVar n; EVar "key"])))))].

(** [impl_set], unit_variants.rs:551-691: the methods of
    [impl SetStorage<..> for __SetStorage]. *)
Definition set_code (vs : list string) : code Empty_set :=
  let iter := let_names vs
    (call1 Flatten (call1 IntoIter (EArr (xs_of (List.map (fun e =>
       EIf (call1 Deref (EVar (snd e))) (ESome (EVariant (fst e))) ENone)
       (List.combine vs (names vs))))))) in
  MkCode []
  [("empty", ([],                                          (* 615-620 *)
     EStruct ["data"] (xs_of [EArr (xs_of (List.map (fun _ => EBool false) vs))])));
   ("len", ([],                                            (* 622-626 *)
     let_names vs
       (sum_of (List.map (fun n => call1 UsizeFrom (call1 Deref (EVar n))) (names vs)))));
   ("is_empty", ([],                                       (* 628-632 *)
     let_names vs
       (all_of (List.map (fun n => call1 Not (call1 Deref (EVar n))) (names vs)))));
   ("insert", (["value"],                                  (* 634-641 *)
     let_names vs
       (match_key "value" vs (fun n =>
          call1 Not (call2 MemReplace (EVar n) (EBool true))))));
   ("contains", (["value"],                                (* 643-650 *)
     let_names vs (match_key "value" vs (fun n => call1 Deref (EVar n)))));
   ("remove", (["value"],                                  (* 652-659 *)
     let_names vs
       (match_key "value" vs (fun n => call2 MemReplace (EVar n) (EBool false)))));
   ("retain", ([],                                         (* 661-671 *)
     let_names vs
       (seq_of (List.map (fun e =>
          EIf (call1 Deref (EVar (snd e)))
              (EAssignTo (EVar (snd e)) (EFunc (EVariant (fst e))))
              EUnit) (List.combine vs (names vs))))));
   ("clear", ([],                                          (* 673-676 *)
     EAssignTo (ERefTo BSelf "data")
       (EArr (xs_of (List.map (fun _ => EBool false) vs)))));
   ("iter", ([], iter));                                   (* 678-682 *)
   ("into_iter", ([], iter))].                             (* 684-688 *)

(** [numbers], unit_variants.rs:406-411: [1u128 << n] for the variant number [n]. *)
Definition numbers (vs : list string) : list N :=
  List.map number (List.seq 0 (List.length vs)).

(** [impl_bitset], unit_variants.rs:379-531, for the integer type of [width] bits:
    the methods of [impl SetStorage<..> for __SetStorage] and of [RawStorage]. *)
Definition bitset_code (width : N) (vs : list string) : code Empty_set :=
  let data := EField BSelf "data" in
  let is_set n := call2 NeInt (call2 BitAnd data (EInt n)) (EInt 0) in
  let iter := call1 Flatten (call1 IntoIter (EArr (xs_of (List.map (fun e =>
     EIf (is_set (snd e)) (ESome (EVariant (fst e))) ENone)
     (List.combine vs (numbers vs)))))) in
  MkCode
  [("to_bits", (["value"],                                 (* 414-419 *)
     EMatch (EVar "value") (arms_of (List.map (fun e => (PVariant (fst e), EInt (snd e)))
                                              (List.combine vs (numbers vs))))))]
  [("empty", ([], EStruct ["data"] (xs_of [EInt 0])));     (* 448-453 *)
   ("len", ([], call1 CountOnes data));                    (* 455-458 *)
   ("is_empty", ([], call2 EqInt data (EInt 0)));          (* 460-463 *)
   ("insert", (["value"],                                  (* 465-470 *)
     ELet "mask" (ECall "to_bits" (xs_of [EVar "value"]))
     (ELet "update" (call2 BitOr data (EVar "mask"))
       (call2 EqInt
          (call2 BitAnd (call2 MemReplace (ERefTo BSelf "data") (EVar "update"))
                        (EVar "mask"))
          (EInt 0)))));
   ("contains", (["value"],                                (* 472-475 *)
     call2 NeInt (call2 BitAnd data (ECall "to_bits" (xs_of [EVar "value"])))
                 (EInt 0)));
   ("remove", (["value"],                                  (* 477-482 *)
     ELet "mask" (ECall "to_bits" (xs_of [EVar "value"]))
     (ELet "update" (call2 BitAnd data (call1 (BitNot width) (EVar "mask")))
       (call2 NeInt
          (call2 BitAnd (call2 MemReplace (ERefTo BSelf "data") (EVar "update"))
                        (EVar "mask"))
          (EInt 0)))));
   ("retain", ([],                                         (* 484-498 *)
     ELet "update" (EInt 0)
       (ESeq
         (seq_of (List.map (fun e =>
            EIf (is_set (snd e))
                (EIf (EFunc (EVariant (fst e)))
                     (EAssign "update" (call2 BitOr (EVar "update") (EInt (snd e))))
                     EUnit)
                EUnit) (List.combine vs (numbers vs))))
         (EAssignTo (ERefTo BSelf "data") (EVar "update")))));
   ("clear", ([], EAssignTo (ERefTo BSelf "data") (EInt 0))); (* 500-503 *)
   ("iter", ([], iter));                                   (* 505-508 *)
   ("into_iter", ([], iter));                              (* 510-513 *)
   ("as_raw", ([], data));                                 (* 520-523 *)
   ("from_raw", (["data"], EStruct ["data"] (xs_of [EVar "data"])))]. (* 525-528 *)

(** [implement], unit_variants.rs:9-45: the map storage and the set storage, or
    [None] when the bitset is refused. *)
Definition unit_code (bitset : bool) (vs : list string)
  : option (code Empty_set * code Empty_set) :=
  if bitset then
    option_map (fun w => (map_code vs, bitset_code w vs))
               (determine_bits (N.of_nat (List.length vs)))
  else Some (map_code vs, set_code vs).
