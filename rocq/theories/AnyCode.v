(** The code that [#[derive(Key)]] generates for an enum with a tuple variant
    (fixed-map-derive/src/any_variants.rs), as programs of Rust.v: what the templates
    become for given variants. *)
Require Import List Arith NArith Bool String.
Import ListNotations.
From Verif Require Import Std Names Rust UnitCode.
Open Scope string_scope.

(** The iterator structs, any_variants.rs:153-158, 440-441. *)
Inductive ikind : Type :=
| KIter | KKeys | KValues | KIterMut | KValuesMut | KIntoIter
| KSetIter | KSetIntoIter.

(** Methods that are called on storages, entries and iterators of the element types
    [T] (any_variants.rs:41-45): [MEmpty i t] .. [MEntry t] are
    [#as_map_storage::..] (210-403, 789-1428, 1907), [MOccKey t] .. [MVacInsert t]
    the methods of its entries (1913-1937), [SEmpty i t] .. [SClear t]
    [#as_set_storage::..] (493-641); [MStart q t] makes an iterator (789, 915,
    1061, 1197, 1305, 1428, 1552, 1696).  The number [i] of a field tells the calls
    of [empty] apart.  The last four belong to the type of the receiver (171, 198,
    713, 721). *)
Inductive meth {T : Type} : Type :=
| MEmpty (i : nat) (t : T) | MInsert (t : T) | MLen (t : T) | MIsEmpty (t : T)
| MContainsKey (t : T) | MGet (t : T) | MGetMut (t : T) | MRemove (t : T)
| MRetain (t : T) | MClear (t : T) | MStart (q : ikind) (t : T) | MEntry (t : T)
| MOccKey (t : T) | MOccGet (t : T) | MOccGetMut (t : T) | MOccIntoMut (t : T)
| MOccInsert (t : T) | MOccRemove (t : T) | MVacKey (t : T) | MVacInsert (t : T)
| SEmpty (i : nat) (t : T) | SInsert (t : T) | SLen (t : T) | SIsEmpty (t : T)
| SContains (t : T) | SRemove (t : T) | SRetain (t : T) | SClear (t : T)
| MNe | MClone | MNext | MNextBack.
Arguments meth : clear implicits.

Section Templates.
  Context {T : Type}.
  Notation Expr := (expr (meth T)).

  (** The variants of the enum: name, and the type in the parentheses
      ([Kind::Complex]) if there is one (any_variants.rs:21-73). *)
  Definition vfields : Type := list (string * option T).

  (** [fields.iter().map(|f| match f.kind { .. })], e.g. any_variants.rs:209-212: one
      piece of code per variant, given its number, name and type. *)
  Fixpoint each {A} (simple : nat -> string -> A) (complex : nat -> string -> T -> A)
    (i : nat) (flds : vfields) : list A :=
    match flds with
    | [] => []
    | (x, None) :: r => simple i x :: each simple complex (S i) r
    | (x, Some t) :: r => complex i x t :: each simple complex (S i) r
    end.

  (** The pieces of code that only tuple variants have, e.g.
      any_variants.rs:1916-1937. *)
  Definition each_tuple {A} (complex : nat -> string -> T -> A) (flds : vfields) : list A :=
    List.concat (each (fun _ _ => []) (fun i x t => [complex i x t]) 0 flds).

  (** [#names], any_variants.rs:23, 2138-2140. *)
  Definition anames (flds : vfields) : list string := field_names (List.length flds).

  (** [self.#name] by reference, e.g. any_variants.rs:231. *)
  Definition my (i : nat) : Expr := ERefTo BSelf (field_name i).

  (** A call of a method of something else, e.g. any_variants.rs:231. *)
  Definition ext (m : meth T) (l : list Expr) : Expr := EExt m (xs_of l).

  (** [match key { #(#patterns => .. ,)* }], e.g. any_variants.rs:239-241, with the
      patterns of 27-29 and 47-50. *)
  Definition by_variant (x : string) (flds : vfields)
    (simple : nat -> Expr) (complex : nat -> T -> Expr) : Expr :=
    EMatch (EVar x) (arms_of
      (each (fun i n => (PVariant n, simple i))
            (fun i n t => (PVariantOf n "v", complex i t)) 0 flds)).

  (** [PartialEq::eq], any_variants.rs:170-176 and 452-458. *)
  Definition eq_fn_code (flds : vfields) : fn (meth T) := ([],
    ESeq (seq_of (List.map (fun f =>
            EIf (ext MNe [ERefTo BSelf f; ERefTo BOther f]) (EReturn (EBool false)) EUnit)
            (anames flds)))
         (EBool true)).

  (** [Clone::clone], any_variants.rs:196-200 and 479-483. *)
  Definition clone_fn_code (flds : vfields) : fn (meth T) := ([],
    EStruct (anames flds)
      (xs_of (List.map (fun f => ext MClone [ERefTo BSelf f]) (anames flds)))).

  (** [#type_name { start: 0, end: #end, #(#init,)* }], e.g. any_variants.rs:842-850. *)
  Definition start_iter (flds : vfields) (init : list Expr) : fn (meth T) := ([],
    EStruct ("start" :: "end" :: anames flds)
      (xs_of (EUsize 0 :: EUsize (List.length flds) :: init))).

  (** [fn option_to_entry], any_variants.rs:2068-2074. *)
  Definition any_option_to_entry_fn : fn (meth T) :=
    (["opt"; "key"],
     let simple := EStruct ["key"; "inner"] (xs_of [EVar "key"; EVar "inner"]) in
     EMatch (call1 BucketNew (EVar "opt")) (arms_of [
       (PVariantOf "Some" "inner", EVariantOf "Occupied" (EVariantOf "Simple" simple));
       (PVariantOf "None" "inner", EVariantOf "Vacant" (EVariantOf "Simple" simple))])).

  (** [impl_map_storage], any_variants.rs:142-426, and the methods that
      [map_storage_iter] etc. add (842-851, 992-1001, 1138-1147, 1237-1246, 1369-1378,
      1479-1488, 2077-2087): the methods of [impl MapStorage<..> for
      __MapStorage<V>], of [PartialEq] and of [Clone]. *)
  Definition any_map_code (flds : vfields) : code (meth T) := MkCode
    [("option_to_entry", any_option_to_entry_fn)]
    [("eq", eq_fn_code flds);
     ("clone", clone_fn_code flds);
     ("empty", ([],                                        (* 208-224 *)
       EStruct (anames flds)
         (xs_of (each (fun _ _ => ENone) (fun i _ t => ext (MEmpty i t) []) 0 flds))));
     ("insert", (["key"; "value"],                         (* 226-244 *)
       by_variant "key" flds
         (fun i => call2 OptReplace (my i) (EVar "value"))
         (fun i t => ext (MInsert t) [my i; EVar "v"; EVar "value"])));
     ("len", ([],                                          (* 246-260 *)
       sum_of (each (fun i _ => call1 UsizeFrom (call1 OptIsSome (my i)))
                    (fun i _ t => ext (MLen t) [my i]) 0 flds)));
     ("is_empty", ([],                                     (* 262-276 *)
       all_of (each (fun i _ => call1 OptIsNone (my i))
                    (fun i _ t => ext (MIsEmpty t) [my i]) 0 flds)));
     ("contains_key", (["value"],                          (* 278-296 *)
       by_variant "value" flds
         (fun i => call1 OptIsSome (my i))
         (fun i t => ext (MContainsKey t) [my i; EVar "v"])));
     ("get", (["value"],                                   (* 298-316 *)
       by_variant "value" flds
         (fun i => call1 OptAsRef (my i))
         (fun i t => ext (MGet t) [my i; EVar "v"])));
     ("get_mut", (["value"],                               (* 318-336 *)
       by_variant "value" flds
         (fun i => call1 OptAsMut (my i))
         (fun i t => ext (MGetMut t) [my i; EVar "v"])));
     ("remove", (["value"],                                (* 338-356 *)
       by_variant "value" flds
         (fun i => call1 OptTake (my i))
         (fun i t => ext (MRemove t) [my i; EVar "v"])));
     ("retain", ([],                                       (* 358-385 *)
       seq_of (each
         (fun i n => EIfLet (BVar "val") (call1 OptAsMut (my i))
            (EIf (call1 Not (EFunc2 (EVariant n) (EVar "val")))
                 (EAssignTo (my i) ENone) EUnit))
         (fun i n t => EExtRetain (MRetain t) (my i) ["k"; "v"]
            (EFunc2 (EVariantOf n (EVar "k")) (EVar "v"))) 0 flds)));
     ("clear", ([],                                        (* 387-403 *)
       seq_of (each (fun i _ => EAssignTo (my i) ENone)
                    (fun i _ t => ext (MClear t) [my i]) 0 flds)));
     ("iter", start_iter flds                              (* 781-792, 848-850 *)
       (each (fun i _ => call1 OptAsRef (my i))
             (fun i _ t => ext (MStart KIter t) [my i]) 0 flds));
     ("keys", start_iter flds                              (* 893-915, 998-1000 *)
       (each (fun i _ => call1 OptIsSome (my i))
             (fun i _ t => ext (MStart KKeys t) [my i]) 0 flds));
     ("values", start_iter flds                            (* 1039-1061, 1144-1146 *)
       (each (fun i _ => call1 OptAsRef (my i))
             (fun i _ t => ext (MStart KValues t) [my i]) 0 flds));
     ("iter_mut", start_iter flds                          (* 1185-1200, 1243-1245 *)
       (each (fun i _ => call1 OptAsMut (my i))
             (fun i _ t => ext (MStart KIterMut t) [my i]) 0 flds));
     ("values_mut", start_iter flds                        (* 1283-1305, 1375-1377 *)
       (each (fun i _ => call1 OptAsMut (my i))
             (fun i _ t => ext (MStart KValuesMut t) [my i]) 0 flds));
     ("into_iter", start_iter flds                         (* 1416-1431, 1485-1487 *)
       (each (fun i _ => EField BSelf (field_name i))
             (fun i _ t => ext (MStart KIntoIter t) [EField BSelf (field_name i)]) 0 flds));
     ("entry", (["key"],                                   (* 1886-1911, 2082-2086 *)
       EMatch (EVar "key") (arms_of (each
         (fun i n => (PVariant n, ECall "option_to_entry" (xs_of [my i; EVar "key"])))
         (fun i n t => (PVariantOf n "key",
            EMatch (ext (MEntry t) [my i; EVar "key"]) (arms_of [
              (PVariantOf "Occupied" "entry",
               EVariantOf "Occupied" (EVariantOf (field_name i) (EVar "entry")));
              (PVariantOf "Vacant" "entry",
               EVariantOf "Vacant" (EVariantOf (field_name i) (EVar "entry")))])))
         0 flds))))].

  (** [impl_set_storage], any_variants.rs:429-667, and what [set_storage_iter] and
      [set_storage_into_iter] add (1624-1633, 1781-1790). *)
  Definition any_set_code (flds : vfields) : code (meth T) := MkCode []
    [("eq", eq_fn_code flds);
     ("clone", clone_fn_code flds);
     ("empty", ([],                                        (* 491-507 *)
       EStruct (anames flds)
         (xs_of (each (fun _ _ => EBool false) (fun i _ t => ext (SEmpty i t) []) 0 flds))));
     ("insert", (["key"],                                  (* 509-527 *)
       by_variant "key" flds
         (fun i => call1 Not (call2 MemReplace (my i) (EBool true)))
         (fun i t => ext (SInsert t) [my i; EVar "v"])));
     ("len", ([],                                          (* 529-543 *)
       sum_of (each (fun i _ => call1 UsizeFrom (EField BSelf (field_name i)))
                    (fun i _ t => ext (SLen t) [my i]) 0 flds)));
     ("is_empty", ([],                                     (* 545-559 *)
       all_of (each (fun i _ => call1 Not (EField BSelf (field_name i)))
                    (fun i _ t => ext (SIsEmpty t) [my i]) 0 flds)));
     ("contains", (["value"],                              (* 561-579 *)
       by_variant "value" flds
         (fun i => EField BSelf (field_name i))
         (fun i t => ext (SContains t) [my i; EVar "v"])));
     ("remove", (["value"],                                (* 581-599 *)
       by_variant "value" flds
         (fun i => call2 MemReplace (my i) (EBool false))
         (fun i t => ext (SRemove t) [my i; EVar "v"])));
     ("retain", ([],                                       (* 601-626 *)
       seq_of (each
         (fun i n => EIf (EField BSelf (field_name i))
            (EAssignTo (my i) (EFunc (EVariant n))) EUnit)
         (fun i n t => EExtRetain (SRetain t) (my i) ["k"]
            (EFunc (EVariantOf n (EVar "k")))) 0 flds)));
     ("clear", ([],                                        (* 628-644 *)
       seq_of (each (fun i _ => EAssignTo (my i) (EBool false))
                    (fun i _ t => ext (SClear t) [my i]) 0 flds)));
     ("iter", start_iter flds                              (* 1529-1552, 1630-1632 *)
       (each (fun i _ => EField BSelf (field_name i))
             (fun i _ t => ext (MStart KSetIter t) [my i]) 0 flds));
     ("into_iter", start_iter flds                         (* 1673-1696, 1787-1789 *)
       (each (fun i _ => EField BSelf (field_name i))
             (fun i _ t => ext (MStart KSetIntoIter t) [EField BSelf (field_name i)]) 0 flds))].

  (** ** The iterator structs *)

  (** An arm of [next] for a unit variant: with pairs (any_variants.rs:694-700,
      702-708), with keys (897-903, 905-911, 1534-1548, 1678-1692), with values
      (1043-1049, 1051-1057, 1287-1301). *)
  Definition simple_arm (q : ikind) (i : nat) (n : string) : pat * Expr :=
    (PNum i,
     match q with
     | KIter | KIterMut | KIntoIter =>
         EIfLet (BVar "value") (call1 OptTake (my i))
           (EReturn (ESome (EPair (EVariant n) (EVar "value"))))
     | KKeys | KSetIter | KSetIntoIter =>
         EIf (call1 MemTake (my i)) (EReturn (ESome (EVariant n))) EUnit
     | KValues | KValuesMut =>
         EIfLet (BVar "value") (call1 OptTake (my i)) (EReturn (ESome (EVar "value")))
     end).

  (** An arm of [next] ([m] is [MNext]) or [next_back] ([MNextBack]) for a tuple
      variant: with pairs (any_variants.rs:711-717, 719-725), with keys (917-931,
      1554-1568, 1698-1712), with values (1063-1077, 1307-1321). *)
  Definition complex_arm (m : meth T) (q : ikind) (i : nat) (n : string) (t : T) : pat * Expr :=
    (PNum i,
     match q with
     | KIter | KIterMut | KIntoIter =>
         EIfLet (BPair "key" "value") (ext m [my i])
           (EReturn (ESome (EPair (EVariantOf n (EVar "key")) (EVar "value"))))
     | KKeys | KSetIter | KSetIntoIter =>
         EIfLet (BVar "key") (ext m [my i]) (EReturn (ESome (EVariantOf n (EVar "key"))))
     | KValues | KValuesMut =>
         EIfLet (BVar "value") (ext m [my i]) (EReturn (ESome (EVar "value")))
     end).

  (** The arms and [_ => break], any_variants.rs:1806-1809, 1841-1844. *)
  Definition iter_arms (m : meth T) (q : ikind) (flds : vfields) : arms (meth T) :=
    arms_of (each (simple_arm q) (complex_arm m q) 0 flds ++ [(PWild, EBreak)]).

  (** [IteratorNext], any_variants.rs:1800-1815. *)
  Definition step_forward (q : ikind) (flds : vfields) : Expr :=
    let start := EField BSelf "start" in
    let end_ := EField BSelf "end" in
    EWhile (call2 Lt start end_)
      (ESeq (EMatch start (iter_arms MNext q flds))
            (EAssignTo (ERefTo BSelf "start")
               (call2 Min (call2 WrappingAdd start (EUsize 1)) end_))).

  (** [IteratorNextBack], any_variants.rs:1833-1850. *)
  Definition step_backward (q : ikind) (flds : vfields) : Expr :=
    let start := EField BSelf "start" in
    let end_ := EField BSelf "end" in
    EWhile (call2 Lt start end_)
      (ELet "next" (call2 WrappingSub end_ (EUsize 1))
        (ESeq (EMatch (EVar "next") (iter_arms MNextBack q flds))
              (EAssignTo (ERefTo BSelf "end") (call2 Max (EVar "next") start)))).

  (** The impls of an iterator struct: [Iterator::next] (any_variants.rs:826-829, 976-979,
      1122-1125, 1221-1224, 1353-1356, 1463-1466, 1608-1611, 1761-1764),
      [DoubleEndedIterator::next_back] (835-838, 985-988, 1131-1134, 1230-1233,
      1362-1365, 1472-1475, 1617-1620, 1774-1777), [Clone::clone] (812-818, 962-968,
      1108-1114, 1449-1455, 1594-1600, 1744-1750), which the iterators over [&mut V]
      do not have. *)
  Definition iter_code (q : ikind) (flds : vfields) : code (meth T) := MkCode []
    ([("next", ([], ESeq (step_forward q flds) ENone));
      ("next_back", ([], ESeq (step_backward q flds) ENone))] ++
     match q with
     | KIterMut | KValuesMut => []
     | _ =>
         [("clone", ([],
            EStruct ("start" :: "end" :: anames flds)
              (xs_of (EField BSelf "start" :: EField BSelf "end" ::
                      List.map (fun f => ext MClone [ERefTo BSelf f]) (anames flds)))))]
     end)%list.

  (** ** Entries *)

  (** The methods of [SimpleVacantEntry] and [SimpleOccupiedEntry],
      any_variants.rs:1943-1986. *)
  Definition simple_entry_fns : list (string * fn (meth T)) :=
    let inner := call1 (GetField "inner") (EVar "self") in
    [("SimpleVacantEntry::insert", (["self"; "value"],       (* 1950-1953 *)
       call2 BucketInsert inner (EVar "value")));
     ("SimpleOccupiedEntry::get", (["self"], call1 BucketRef inner));      (* 1962-1965 *)
     ("SimpleOccupiedEntry::get_mut", (["self"], call1 BucketRef inner));  (* 1967-1970 *)
     ("SimpleOccupiedEntry::into_mut", (["self"], call1 BucketRef inner)); (* 1972-1975 *)
     ("SimpleOccupiedEntry::insert", (["self"; "value"],     (* 1977-1980 *)
       call2 BucketReplace inner (EVar "value")));
     ("SimpleOccupiedEntry::remove", (["self"], call1 BucketTake inner))]. (* 1982-1985 *)

  (** [match self { Simple(entry) => .., #(..)* }], e.g. any_variants.rs:2002-2005. *)
  Definition match_entry (flds : vfields) (simple : Expr)
    (complex : nat -> string -> T -> Expr) : Expr :=
    EMatch (EBase BLent) (arms_of
      ((PVariantOf "Simple" "entry", simple) ::
       each_tuple (fun i n t => (PVariantOf (field_name i) "entry", complex i n t)) flds)).

  (** [map_storage_entry], any_variants.rs:1853-2090: the methods of the two kinds of
      entries.  The entry is the value that is lent. *)
  Definition any_entry_code (flds : vfields) : code (meth T) :=
    let entry := EVar "entry" in
    let value := EVar "value" in
    MkCode simple_entry_fns
    [("VacantEntry::key", ([],                              (* 2000-2006 *)
       match_entry flds (call1 (GetField "key") entry)
         (fun _ n t => EVariantOf n (ext (MVacKey t) [entry]))));
     ("VacantEntry::insert", (["value"],                    (* 2008-2014 *)
       match_entry flds (ECall "SimpleVacantEntry::insert" (xs_of [entry; value]))
         (fun _ _ t => ext (MVacInsert t) [entry; value])));
     ("OccupiedEntry::key", ([],                            (* 2019-2025 *)
       match_entry flds (call1 (GetField "key") entry)
         (fun _ n t => EVariantOf n (ext (MOccKey t) [entry]))));
     ("OccupiedEntry::get", ([],                            (* 2027-2033 *)
       match_entry flds (ECall "SimpleOccupiedEntry::get" (xs_of [entry]))
         (fun _ _ t => ext (MOccGet t) [entry])));
     ("OccupiedEntry::get_mut", ([],                        (* 2035-2041 *)
       match_entry flds (ECall "SimpleOccupiedEntry::get_mut" (xs_of [entry]))
         (fun _ _ t => ext (MOccGetMut t) [entry])));
     ("OccupiedEntry::into_mut", ([],                       (* 2043-2049 *)
       match_entry flds (ECall "SimpleOccupiedEntry::into_mut" (xs_of [entry]))
         (fun _ _ t => ext (MOccIntoMut t) [entry])));
     ("OccupiedEntry::insert", (["value"],                  (* 2051-2057 *)
       match_entry flds (ECall "SimpleOccupiedEntry::insert" (xs_of [entry; value]))
         (fun _ _ t => ext (MOccInsert t) [entry; value])));
     ("OccupiedEntry::remove", ([],                         (* 2059-2065 *)
       match_entry flds (ECall "SimpleOccupiedEntry::remove" (xs_of [entry]))
         (fun _ _ t => ext (MOccRemove t) [entry])))].
End Templates.
Arguments vfields : clear implicits.
