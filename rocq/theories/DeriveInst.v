(** The code that the derive macro makes (DeriveRead.v), for given variants, as programs
    of Rust.v: what the words [#name], [#var], .. become for each variant, and which
    operations of Rust.v the paths and methods in it are. *)
Require Import List Arith NArith Bool String Ascii.
Import ListNotations.
From Verif Require Import SrcLex DeriveUnit Names Rust UnitCode AnyCode DeriveQuote DeriveRead.
Open Scope string_scope.

(** ** Names of things outside of the generated code *)

(** Tokens as text, for comparing the types in paths (any_variants.rs:41-44). *)
Fixpoint show (l : list tt) : string :=
  match l with
  | [] => ""
  | t :: r =>
      match t with
      | W x | P x => x
      | L (TLife x) => "'" ++ x
      | _ => "?"
      end ++ " " ++ show r
  end.

(** [a::b::c] (unit_variants.rs:259). *)
Definition joined (segs : list string) : string := String.concat "::" segs.

(** Functions of core and of fixed-map by their paths, with the number of arguments
    (unit_variants.rs:75-113, 259-309, 341, 639, any_variants.rs:1811, 1847). *)
Definition prims : list (string * (nat * prim)) :=
  [("core::option::Option::is_some", (1, OptIsSome));
   ("core::option::Option::is_none", (1, OptIsNone));
   ("core::option::Option::as_ref", (1, OptAsRef));
   ("core::option::Option::as_mut", (1, OptAsMut));
   ("core::option::Option::replace", (2, OptReplace));
   ("core::option::Option::take", (1, OptTake));
   ("core::mem::replace", (2, MemReplace));
   ("core::mem::take", (1, MemTake));
   ("usize::from", (1, UsizeFrom));
   ("usize::min", (2, Min));
   ("usize::max", (2, Max));
   ("fixed_map::option_bucket::OptionBucket::new", (1, BucketNew));
   ("fixed_map::option_bucket::SomeBucket::as_ref", (1, BucketRef));
   ("fixed_map::option_bucket::SomeBucket::as_mut", (1, BucketRef));
   ("fixed_map::option_bucket::SomeBucket::into_mut", (1, BucketRef));
   ("fixed_map::option_bucket::SomeBucket::replace", (2, BucketReplace));
   ("fixed_map::option_bucket::SomeBucket::take", (1, BucketTake));
   ("fixed_map::option_bucket::NoneBucket::insert", (2, BucketInsert));
   ("core::iter::IntoIterator::into_iter", (1, IntoIter));
   ("core::iter::Iterator::flatten", (1, Flatten))].

(** Methods by name, with the number of further arguments (unit_variants.rs:341,
    any_variants.rs:1811, 1836). *)
Definition methods : list (string * (nat * prim)) :=
  [("is_some", (0, OptIsSome));
   ("wrapping_add", (1, WrappingAdd));
   ("wrapping_sub", (1, WrappingSub))].

(** The enums outside of the generated code whose variants occur
    (unit_variants.rs:120-121). *)
Definition known_enums : list string :=
  ["fixed_map::map::Entry"; "fixed_map::option_bucket::OptionBucket"].

(** The integer type of a bitset is chosen by the number of variants: the ranges in the
    text of [determine_bits] (unit_variants.rs:533-548). *)
Definition bits_arms (F : file) : list (N * N * N) :=
  match find "determine_bits" (fi_fns F) with
  | Some fn =>
      match whole "Ok ( match en . variants . len ( ) $grp )" (mf_body fn) with
      | Some [b] =>
          match arms_in 50 b with
          | Some l =>
              List.concat (List.map (fun pb =>
                match whole "$num .. = $num" (fst pb),
                      whole "( Ident :: new ( $str , Span :: call_site ( ) ) , $num )" (snd pb) with
                | Some [[L (TNum lo)]; [L (TNum hi)]], Some [_; [L (TNum w)]] => [(lo, hi, w)]
                | _, _ => []
                end) l)
          | None => []
          end
      | _ => []
      end
  | None => []
  end.
(** The first arm that matches (unit_variants.rs:534-547). *)
Fixpoint bits_of (l : list (N * N * N)) (n : N) : option N :=
  match l with
  | [] => None
  | (lo, hi, w) :: r => if (N.leb lo n && N.leb n hi)%bool then Some w else bits_of r n
  end.

(** ** The scope of a function *)

(** What [self] is: the storage, iterator or entry itself, or a variable
    (unit_variants.rs:69, 258, any_variants.rs:1951). *)
Inductive receiver : Type :=
| RBase (b : base)
| RVar.

(** What is in scope in a function: its receiver and the type of it; the parameter of
    type [F]; the functions, enums and structs that are generated; the width of the
    bitset in code of [impl_bitset]; the types of variables that hold entries
    (any_variants.rs:379, 1943-1991, 2003, 2069, unit_variants.rs:414). *)
Record scope : Type := MkScope {
  sc_self : receiver;
  sc_type : string;
  sc_func : string;
  sc_fns : list string;
  sc_enums : list (string * list (string * string));
  sc_structs : list (string * list (rep string));
  sc_width : option N;
  sc_types : list (string * string)
}.

(** See [scope] (any_variants.rs:2003). *)
Definition with_type (x ty : string) (sc : scope) : scope :=
  MkScope (sc_self sc) (sc_type sc) (sc_func sc) (sc_fns sc) (sc_enums sc) (sc_structs sc)
          (sc_width sc) ((x, ty) :: sc_types sc).
(** See [scope] (any_variants.rs:379). *)
Definition with_func (f : string) (sc : scope) : scope :=
  MkScope (sc_self sc) (sc_type sc) f (sc_fns sc) (sc_enums sc) (sc_structs sc)
          (sc_width sc) (sc_types sc).

(** Equal lists of names (any_variants.rs:220, 413). *)
Fixpoint same_names (a b : list (rep string)) : bool :=
  match a, b with
  | [], [] => true
  | One x :: a, One y :: b => String.eqb x y && same_names a b
  | Each (Some x) (Some y) :: a, Each (Some x') (Some y') :: b =>
      String.eqb x x' && String.eqb y y' && same_names a b
  | _, _ => false
  end%bool.

(** All results, or none (any_variants.rs:240). *)
Fixpoint all_some {A} (l : list (option A)) : option (list A) :=
  match l with
  | [] => Some []
  | Some a :: r => option_map (cons a) (all_some r)
  | None :: _ => None
  end.

(** The pieces of all variants (any_variants.rs:240). *)
Definition gather {A} (l : list (list (option A))) : option (list A) :=
  all_some (List.concat l).

Section Inst.
  Context {T Meth : Type}.
  Variable mk : meth T -> option Meth.
  Variable flds : vfields T.
  Notation Expr := (expr Meth).

  (** The variant that code is made for: its number, name and type
      (any_variants.rs:21-73). *)
  Definition variant : Type := option (nat * string * option T).

  (** A piece for each variant (any_variants.rs:240). *)
  Definition each_of {A B} (f : variant -> B -> option A) (s c : option B) : option (list A) :=
    gather (each
      (fun i n => match s with Some b => [f (Some (i, n, None)) b] | None => [] end)
      (fun i n t => match c with Some b => [f (Some (i, n, Some t)) b] | None => [] end)
      0 flds).

  (** Lists with repetitions, which do not occur inside of repetitions
      (any_variants.rs:2003-2004). *)
  Fixpoint inst_reps {A B} (f : variant -> B -> option A) (v : variant) (l : list (rep B))
    : option (list A) :=
    match l with
    | [] => Some []
    | One b :: r =>
        match f v b, inst_reps f v r with
        | Some a, Some l => Some (a :: l)
        | _, _ => None
        end
    | Each s c :: r =>
        match v with
        | Some _ => None
        | None =>
            match r with
            | [] => each_of f s c
            | _ =>
                match each_of f s c, inst_reps f v r with
                | Some a, Some l => Some (a ++ l)%list
                | _, _ => None
                end
            end
        end
    end.

  (** A name, [#name] or [#var] (any_variants.rs:23, 240). *)
  Definition name_of (v : variant) (x : string) : option string :=
    match x with
    | String "#" _ =>
        match v with
        | Some (i, n, _) =>
            if String.eqb x "#name" then Some (field_name i)
            else if String.eqb x "#var" then Some n
            else None
        | None => None
        end
    | _ => Some x
    end.

  (** The enum that a path to a variant starts with is one that is known
      (any_variants.rs:365, 1908, 2003). *)
  Definition enum_path (sc : scope) (segs : list string) : bool :=
    let e := joined (List.removelast segs) in
    existsb (String.eqb e) ("#ident" :: known_enums ++ List.map fst (sc_enums sc)).

  (** Patterns of arms (any_variants.rs:240, 695, 1808, 1907-1908, 2003). *)
  Definition inst_pat (sc : scope) (v : variant) (p : xpat) : option pat :=
    match p with
    | PtWild => Some PWild
    | PtPath ["#index"] => match v with Some (i, _, _) => Some (PNum i) | None => None end
    | PtPath segs =>
        if enum_path sc segs then option_map PVariant (name_of v (List.last segs ""))
        else None
    | PtCall segs (PtPath [x]) =>
        if enum_path sc segs then
          option_map (fun n => PVariantOf n x) (name_of v (List.last segs ""))
        else None
    | _ => None
    end.
  (** The variables of a pattern that hold entries of a generated type
      (any_variants.rs:1988-1991, 2003). *)
  Definition pat_types (sc : scope) (p : xpat) : scope :=
    match p with
    | PtCall [e; x] (PtPath [y]) =>
        match find e (sc_enums sc) with
        | Some vs => match find x vs with Some ty => with_type y ty sc | None => sc end
        | None => sc
        end
    | _ => sc
    end.
  (** Patterns of [if let] (any_variants.rs:696, 713). *)
  Definition inst_bind (p : xpat) : option Rust.bind :=
    match p with
    | PtCall segs (PtPath [x]) =>
        if String.eqb (joined segs) "core::option::Option::Some" then Some (BVar x) else None
    | PtCall segs (PtPair x y) =>
        if String.eqb (joined segs) "core::option::Option::Some" then Some (BPair x y) else None
    | _ => None
    end.

  (** Binary operators (unit_variants.rs:259, 265, 462-469, any_variants.rs:1805). *)
  Definition binary (op : string) : option (Expr -> Expr -> Expr) :=
    find op [("+", call2 Add); ("&&", EAnd); ("&", call2 BitAnd); ("|", call2 BitOr);
             ("==", call2 EqInt); ("!=", call2 NeInt); ("<", call2 Lt)].

  (** [<E as Key>], the storages of it as implementations of their traits, the entries
      of it (any_variants.rs:41-44, 1913-1914, 1923-1924). *)
  Definition as_key : string := "#element as :: fixed_map :: Key ".
  (** See [as_key] (any_variants.rs:42). *)
  Definition as_map : string :=
    "< " ++ as_key ++ "> :: MapStorage :: < V > as :: fixed_map :: map :: MapStorage < #element , V > ".
  (** See [as_key] (any_variants.rs:44). *)
  Definition as_set : string :=
    "< " ++ as_key ++ "> :: SetStorage as :: fixed_map :: set :: SetStorage < #element > ".
  (** See [as_key] (any_variants.rs:1913-1914). *)
  Definition as_vacant : string :=
    "< " ++ as_map ++ "> :: Vacant < 'a > as :: fixed_map :: map :: VacantEntry < 'a , #element , V > ".
  (** See [as_key] (any_variants.rs:1923-1924). *)
  Definition as_occupied : string :=
    "< " ++ as_map ++ "> :: Occupied < 'a > as :: fixed_map :: map :: OccupiedEntry < 'a , #element , V > ".

  (** Methods of the storages of the type of the variant, and of its entries; see
      [meth] (any_variants.rs:210-403, 493-641, 789-1928). *)
  Definition map_method (i : nat) (t : T) : list (string * meth T) :=
    [("empty", MEmpty i t); ("insert", MInsert t); ("len", MLen t); ("is_empty", MIsEmpty t);
     ("contains_key", MContainsKey t); ("get", MGet t); ("get_mut", MGetMut t);
     ("remove", MRemove t); ("clear", MClear t); ("iter", MStart KIter t);
     ("keys", MStart KKeys t); ("values", MStart KValues t); ("iter_mut", MStart KIterMut t);
     ("values_mut", MStart KValuesMut t); ("into_iter", MStart KIntoIter t)].
  (** See [map_method] (any_variants.rs:493-641, 1552, 1696). *)
  Definition set_method (i : nat) (t : T) : list (string * meth T) :=
    [("empty", SEmpty i t); ("insert", SInsert t); ("len", SLen t); ("is_empty", SIsEmpty t);
     ("contains", SContains t); ("remove", SRemove t); ("clear", SClear t);
     ("iter", MStart KSetIter t); ("into_iter", MStart KSetIntoIter t)].
  (** See [map_method] (any_variants.rs:1916-1921). *)
  Definition vacant_method (t : T) : list (string * meth T) :=
    [("key", MVacKey t); ("insert", MVacInsert t)].
  (** See [map_method] (any_variants.rs:1926-1937). *)
  Definition occupied_method (t : T) : list (string * meth T) :=
    [("key", MOccKey t); ("get", MOccGet t); ("get_mut", MOccGetMut t);
     ("into_mut", MOccIntoMut t); ("insert", MOccInsert t); ("remove", MOccRemove t)].

  (** A method of something of the type of the variant, by a path: which one
      (any_variants.rs:210-403, 493-641, 1194, 1425, 1907-1937).  The methods behind
      [<E as Key>::MapStorage::<V>::] are those of the trait, too. *)
  Definition foreign (v : variant) (q : option (list tt)) (segs : list string)
    : option (meth T) :=
    match v with
    | Some (i, _, Some t) =>
        match q, segs with
        | Some q, [f] =>
            let q := show q in
            if String.eqb q as_map then find f (map_method i t)
            else if String.eqb q as_set then find f (set_method i t)
            else if String.eqb q as_vacant then find f (vacant_method t)
            else if String.eqb q as_occupied then find f (occupied_method t)
            else None
        | Some q, ["MapStorage"; f] =>
            if String.eqb (show q) as_key then find f (map_method i t) else None
        | None, _ =>
            if String.eqb (joined segs) "fixed_map::map::MapStorage::entry" then Some (MEntry t)
            else None
        | _, _ => None
        end
    | _ => None
    end.
  (** Methods of traits by a path to the trait (any_variants.rs:171, 198, 713, 721). *)
  Definition by_trait (segs : list string) : option (meth T) :=
    find (joined segs)
      [("core::cmp::PartialEq::ne", MNe); ("core::clone::Clone::clone", MClone);
       ("core::iter::Iterator::next", MNext);
       ("core::iter::DoubleEndedIterator::next_back", MNextBack)].
  (** [retain] of a storage, with a closure (any_variants.rs:365, 607). *)
  Definition foreign_retain (v : variant) (q : list tt) : option (meth T) :=
    match v with
    | Some (_, _, Some t) =>
        if String.eqb (show q) as_map then Some (MRetain t)
        else if String.eqb (show q) as_set then Some (SRetain t)
        else None
    | _ => None
    end.

  (** Expressions whose value is [()] already (unit_variants.rs:322, 493,
      any_variants.rs:172, 1808). *)
  Definition unit_like (e : tx) : bool :=
    match e with
    | XSet _ _ | XOrSet _ _ | XReturn _ | XBreak => true
    | _ => false
    end.

  (** Names of closure parameters (any_variants.rs:365). *)
  Fixpoint plain_names (l : list xpat) : option (list string) :=
    match l with
    | [] => Some []
    | PtPath [x] :: r => option_map (cons x) (plain_names r)
    | _ => None
    end.

  (** Expressions.  A bucket is a reference in Rust.v, so a reference to a field that
      holds one is the field (unit_variants.rs:93-108). *)
  Fixpoint inst (fuel : nat) (sc : scope) (v : variant) (e : tx) {struct fuel} : option Expr :=
    match fuel with
    | 0 => None
    | S f =>
        let go := inst f sc v in
        let args l := all_some (List.map go l) in
        let call (g : exprs Meth -> option Expr) l :=
          match args l with Some l => g (xs_of l) | None => None end in
        let prim_call (d : option (nat * prim)) l :=
          match d with
          | Some (n, p) => if Nat.eqb n (List.length l) then call (fun xs => Some (EPrim p xs)) l else None
          | None => None
          end in
        let ext_call (m : option (meth T)) l :=
          match m with
          | Some m =>
              match mk m with Some m => call (fun xs => Some (EExt m xs)) l | None => None end
          | None => None
          end in
        let field b x := option_map b (name_of v x) in
        match e with
        | XNum n =>
            match sc_width sc with
            | Some _ => Some (EInt n)
            | None => Some (EUsize (N.to_nat n))
            end
        | XPath None [x] =>
            if String.eqb x "true" then Some (EBool true)
            else if String.eqb x "false" then Some (EBool false)
            else if String.eqb x "None" then Some ENone
            else if String.eqb x "self" then
              match sc_self sc with RBase b => Some (EBase b) | RVar => Some (EVar "self") end
            else if String.eqb x "#count" then Some (EUsize (List.length flds))
            else if String.eqb x "#number" then
              match sc_width sc, v with
              | Some _, Some (i, _, _) => Some (EInt (DeriveUnit.number i))
              | _, _ => None
              end
            else field EVar x
        | XPath None segs =>
            if String.eqb (joined segs) "core::option::Option::None" then Some ENone
            else if String.eqb (joined segs) "#ident::#var" then field EVariant "#var"
            else None
        | XField (XPath None ["self"]) x =>
            match sc_self sc with
            | RBase b => field (EField b) x
            | RVar => field (fun x => call1 (GetField x) (EVar "self")) x
            end
        | XField (XPath None [y]) x => field (fun x => call1 (GetField x) (EVar y)) x
        | XRef (XField (XPath None ["self"]) x) =>
            match sc_self sc with
            | RBase BLent => field (EField BLent) x
            | RBase b => field (ERefTo b) x
            | RVar => field (fun x => call1 (GetField x) (EVar "self")) x
            end
        | XRef (XField (XPath None ["other"]) x) => field (ERefTo BOther) x
        | XDeref e => option_map (call1 Deref) (go e)
        | XNot e =>
            option_map (call1 (match sc_width sc with Some w => BitNot w | None => Not end)) (go e)
        | XBin op a b =>
            match binary op, go a, go b with
            | Some g, Some a, Some b => Some (g a b)
            | _, _, _ => None
            end
        | XFold op a s c =>
            match v, binary op, go a with
            | None, Some g, Some a =>
                option_map (fun l => List.fold_left g l a) (each_of (inst f sc) s c)
            | _, _, _ => None
            end
        | XTry e => option_map EQuestion (go e)
        | XAs (XCall (XPath (Some q) ["count_ones"]) [a]) "usize" =>
            if String.eqb (show q) "#ty " then option_map (call1 CountOnes) (go a) else None
        | XPair a b =>
            match go a, go b with Some a, Some b => Some (EPair a b) | _, _ => None end
        | XArr l => option_map (fun l => EArr (xs_of l)) (inst_reps (inst f sc) v l)
        | XStruct ty l =>
            match find (if String.eqb ty "Self" then sc_type sc else ty) (sc_structs sc) with
            | Some decl =>
                let names := List.map (fun x =>
                  match x with
                  | One (n, _) => One n
                  | Each s c => Each (option_map fst s) (option_map fst c)
                  end) l in
                if same_names decl names then
                  match inst_reps name_of v names,
                        inst_reps (fun v p => inst f sc v (snd p)) v l with
                  | Some ns, Some es => Some (EStruct ns (xs_of es))
                  | _, _ => None
                  end
                else None
            | None => None
            end
        | XIf c t e =>
            match go c, go t, match e with Some e => go e | None => Some EUnit end with
            | Some c, Some t, Some e => Some (EIf c t e)
            | _, _, _ => None
            end
        | XIfLet p e b =>
            match inst_bind p, go e, go b with
            | Some p, Some e, Some b => Some (EIfLet p e b)
            | _, _, _ => None
            end
        | XMatch e l =>
            match go e, inst_reps (fun v pe =>
                    match inst_pat sc v (fst pe), inst f (pat_types sc (fst pe)) v (snd pe) with
                    | Some p, Some e => Some (p, e)
                    | _, _ => None
                    end) v l with
            | Some e, Some l => Some (EMatch e (arms_of l))
            | _, _ => None
            end
        | XWhile c b =>
            match go c, go b with Some c, Some b => Some (EWhile c b) | _, _ => None end
        | XReturn e => option_map EReturn (go e)
        | XBreak => Some EBreak
        | XSet (XDeref p) b =>
            match go p, go b with Some p, Some b => Some (EAssignTo p b) | _, _ => None end
        | XSet (XField (XPath None ["self"]) x) b =>
            match sc_self sc, go b with
            | RBase BSelf, Some b => field (fun x => EAssignTo (ERefTo BSelf x) b) x
            | _, _ => None
            end
        | XOrSet (XPath None [x]) b =>
            option_map (fun b => EAssign x (call2 BitOr (EVar x) b)) (go b)
        | XMeth e m l =>
            match e with
            | XPath None [x] =>
                match find x (sc_types sc) with
                | Some ty => call (fun xs => Some (ECall (ty ++ "::" ++ m) xs)) (e :: l)
                | None =>
                    prim_call (option_map (fun d => (S (fst d), snd d)) (find m methods)) (e :: l)
                end
            | _ => prim_call (option_map (fun d => (S (fst d), snd d)) (find m methods)) (e :: l)
            end
        | XCall (XPath None [x]) l =>
            if String.eqb x (sc_func sc) then
              match args l with
              | Some [a] => Some (EFunc a)
              | Some [a; b] => Some (EFunc2 a b)
              | _ => None
              end
            else if existsb (String.eqb x) (sc_fns sc) then call (fun xs => Some (ECall x xs)) l
            else if String.eqb x "Some" then
              match args l with Some [a] => Some (ESome a) | _ => None end
            else None
        | XCall (XPath None segs) l =>
            if String.eqb (joined segs) "core::option::Option::Some" then
              match args l with Some [a] => Some (ESome a) | _ => None end
            else if String.eqb (joined segs) "core::iter::Iterator::flat_map" then
              match l with
              | [a; XClosure [PtPair x y] b] =>
                  match go a, go b with
                  | Some a, Some b => Some (EFlatMap a x y b)
                  | _, _ => None
                  end
              | _ => None
              end
            else
              match find (joined segs) prims with
              | Some d => prim_call (Some d) l
              | None =>
                  match by_trait segs with
                  | Some m => ext_call (Some m) l
                  | None =>
                      match foreign v None segs with
                      | Some m => ext_call (Some m) l
                      | None =>
                          if enum_path sc segs then
                            match name_of v (List.last segs ""), args l with
                            | Some n, Some [a] => Some (EVariantOf n a)
                            | _, _ => None
                            end
                          else None
                      end
                  end
              end
        | XCall (XPath (Some q) ["retain"]) [p; XClosure xs b] =>
            match foreign_retain v q, plain_names xs, go p, go b with
            | Some m, Some xs, Some p, Some b =>
                option_map (fun m => EExtRetain m p xs b) (mk m)
            | _, _, _, _ => None
            end
        | XCall (XPath (Some q) segs) l => ext_call (foreign v (Some q) segs) l
        | XBlock l => inst_block f sc v l
        | _ => None
        end
    end
  (** Blocks.  The value of a block that ends with a statement is [()]; pieces of
      statements that are repeated for each variant follow each other
      (any_variants.rs:170-176, 383, 1805-1812, unit_variants.rs:258-260). *)
  with inst_block (fuel : nat) (sc : scope) (v : variant) (l : list xstmt) {struct fuel}
    : option Expr :=
    match fuel with
    | 0 => None
    | S f =>
        let then_ e r :=
          match e, inst_block f sc v r with
          | Some a, Some b => Some (ESeq a b)
          | _, _ => None
          end in
        (* the statements of one piece, whose value is not used *)
        let piece v e :=
          match e with
          | XBlock [SSemi e] | XBlock [SExpr e] => inst f sc v e
          | _ => None
          end in
        let repeated s c :=
          match v with
          | None => option_map seq_of (each_of piece s c)
          | Some _ => None
          end in
        match l with
        | [] => Some EUnit
        | SLet (PtPath [x]) e :: r =>
            match inst f sc v e, inst_block f sc v r with
            | Some e, Some b => Some (ELet x e b)
            | _, _ => None
            end
        | SLet (PtNames xs) e :: r =>
            match inst_reps name_of v xs, inst f sc v e, inst_block f sc v r with
            | Some xs, Some e, Some b => Some (ELetArr xs e b)
            | _, _, _ => None
            end
        | SLet _ _ :: _ => None
        | [SExpr e] => inst f sc v e
        | [SSemi e] =>
            if unit_like e then inst f sc v e
            else option_map (fun a => ESeq a EUnit) (inst f sc v e)
        | [SEach s c] => repeated s c
        | SExpr e :: r | SSemi e :: r => then_ (inst f sc v e) r
        | SEach s c :: r => then_ (repeated s c) r
        end
    end.

  (** Functions: the parameters that are values, and the body.  The parameter of type
      [F] is called by [EFunc] and [EFunc2], [other: &Self] is the other storage
      (any_variants.rs:170, 238, 379, 1951). *)
  Definition inst_fn (sc : scope) (d : fndef) : option (fn Meth) :=
    let keep p :=
      match p with
      | ("self", _) => match sc_self sc with RVar => true | RBase _ => false end
      | (_, [W "F"]) => false
      | ("other", [P "&"; W "Self"]) => false
      | _ => true
      end in
    let func := List.filter (fun p => match snd p with [W "F"] => true | _ => false end) (fd_params d) in
    option_map (fun b => (List.map fst (List.filter keep (fd_params d)), b))
      (inst 100 (with_func (match func with [(x, _)] => x | _ => "" end) sc) None (fd_body d)).

  (** ** The generated code *)

  (** The impl of a trait (or the inherent one) for a type (any_variants.rs:416, 1948). *)
  Fixpoint find_impl (trait : option string) (ty : string) (l : list item) : option (list item) :=
    match l with
    | [] => None
    | IImpl t x b :: r =>
        if (match trait, t with
            | Some a, Some b => String.eqb a b
            | None, None => true
            | _, _ => false
            end && String.eqb x ty)%bool
        then Some b else find_impl trait ty r
    | _ :: r => find_impl trait ty r
    end.
  (** The functions among items (any_variants.rs:215-403, 2069). *)
  Fixpoint fns_of (l : list item) : list (string * fndef) :=
    match l with
    | [] => []
    | IFn x d :: r => (x, d) :: fns_of r
    | _ :: r => fns_of r
    end.
  (** The associated types (any_variants.rs:84-85, 845). *)
  Fixpoint types_of (l : list item) : list (string * string) :=
    match l with
    | [] => []
    | IType x y :: r => (x, y) :: types_of r
    | _ :: r => types_of r
    end.
  (** The enums that are generated (any_variants.rs:1988-1996). *)
  Fixpoint enums_of (l : list item) : list (string * list (string * string)) :=
    match l with
    | [] => []
    | IEnum x vs :: r => (x, vs) :: enums_of r
    | _ :: r => enums_of r
    end.
  (** The structs that are generated (any_variants.rs:413, 806, 1943). *)
  Fixpoint structs_of (l : list item) : list (string * list (rep string)) :=
    match l with
    | [] => []
    | IStruct x fs :: r => (x, fs) :: structs_of r
    | _ :: r => structs_of r
    end.

  (** The scope of the functions of an impl (any_variants.rs:416). *)
  Definition scope_of (its : list item) (self : receiver) (ty : string) (width : option N) : scope :=
    MkScope self ty "" (List.map fst (fns_of its)) (enums_of its) (structs_of its) width [].

  (** The named functions of an impl, which has no others; they are called [pre] and
      their name (any_variants.rs:416-420, 1998-2066). *)
  Definition fns_from (sc : scope) (pre : string) (names : list string) (impl : option (list item))
    : option (list (string * fn Meth)) :=
    match impl with
    | Some b =>
        let l := fns_of b in
        if Nat.eqb (List.length l) (List.length names) then
          all_some (List.map (fun x =>
            match find x l with
            | Some d => option_map (fun a => (pre ++ x, a)) (inst_fn sc d)
            | None => None
            end) names)
        else None
    | None => None
    end.

  (** Lists of results one after the other (any_variants.rs:416-422). *)
  Definition joined_fns (l : list (option (list (string * fn Meth))))
    : option (list (string * fn Meth)) :=
    option_map (@List.concat _) (all_some l).

  (** The storage that [impl Key] names (any_variants.rs:83-86). *)
  Definition storage_type (its : list item) (x : string) : option string :=
    match find_impl (Some "Key") "#ident" its with
    | Some b => find x (types_of b)
    | None => None
    end.

  (** The functions outside of impls that are named (any_variants.rs:2069,
      unit_variants.rs:117, 414). *)
  Definition helpers (its : list item) (width : option N) (names : list string)
    : option (list (string * fn Meth)) :=
    all_some (List.map (fun x =>
      match find x (fns_of its) with
      | Some d => option_map (fun a => (x, a)) (inst_fn (scope_of its RVar "" width) d)
      | None => None
      end) names).

  (** A storage: the functions of the impls named (any_variants.rs:413-422). *)
  Definition storage_code (its : list item) (width : option N) (hs : list string)
    (ty : string) (impls : list (string * list string)) : option (code Meth) :=
    match storage_type its ty with
    | Some x =>
        match helpers its width hs,
              joined_fns (List.map (fun p =>
                fns_from (scope_of its (RBase BSelf) x width) "" (snd p)
                         (find_impl (Some (fst p)) x its)) impls) with
        | Some h, Some m => Some (MkCode h m)
        | _, _ => None
        end
    | None => None
    end.

  (** The functions of [MapStorage] and [SetStorage] in the order of [any_map_code],
      [any_set_code] (src/map/storage.rs:47-180, src/set/storage.rs:33-109). *)
  Definition map_fns : list string :=
    ["empty"; "insert"; "len"; "is_empty"; "contains_key"; "get"; "get_mut"; "remove";
     "retain"; "clear"; "iter"; "keys"; "values"; "iter_mut"; "values_mut"; "into_iter"; "entry"].
  (** See [map_fns] (src/set/storage.rs:33-109). *)
  Definition set_fns : list string :=
    ["empty"; "insert"; "len"; "is_empty"; "contains"; "remove"; "retain"; "clear"; "iter";
     "into_iter"].
  (** The same in the order of [map_code], [set_code], [bitset_code]
      (unit_variants.rs:249-373). *)
  Definition unit_map_fns : list string :=
    ["empty"; "len"; "is_empty"; "insert"; "contains_key"; "get"; "get_mut"; "remove";
     "retain"; "clear"; "iter"; "keys"; "values"; "iter_mut"; "values_mut"; "into_iter"; "entry"].
  (** See [unit_map_fns] (unit_variants.rs:448-513, 615-688). *)
  Definition unit_set_fns : list string :=
    ["empty"; "len"; "is_empty"; "insert"; "contains"; "remove"; "retain"; "clear"; "iter";
     "into_iter"].
  (** The methods of entries (src/map/entry.rs:22-187). *)
  Definition vacant_fns : list string := ["key"; "insert"].
  (** See [vacant_fns] (src/map/entry.rs:22-187). *)
  Definition occupied_fns : list string :=
    ["key"; "get"; "get_mut"; "into_mut"; "insert"; "remove"].

  (** The entries (any_variants.rs:1943-2066, unit_variants.rs:60-115). *)
  Definition entry_code_of (its : list item) (simple : bool) : option (code Meth) :=
    let impl self trait ty names :=
      fns_from (scope_of its self ty None) (ty ++ "::") names (find_impl trait ty its) in
    match joined_fns (if simple then
                        [impl RVar None "SimpleVacantEntry" ["insert"];
                         impl RVar None "SimpleOccupiedEntry" (List.tl occupied_fns)]
                      else []),
          joined_fns [impl (RBase BLent) (Some "VacantEntry") "VacantEntry" vacant_fns;
                      impl (RBase BLent) (Some "OccupiedEntry") "OccupiedEntry" occupied_fns] with
    | Some h, Some m => Some (MkCode h m)
    | _, _ => None
    end.

  (** An iterator: the storage, the associated type that names its struct, the function
      that makes it (any_variants.rs:153-158, 440-441). *)
  Definition iterator_of (q : ikind) : string * string * string * string :=
    match q with
    | KIter => ("MapStorage", "MapStorage", "Iter", "iter")
    | KKeys => ("MapStorage", "MapStorage", "Keys", "keys")
    | KValues => ("MapStorage", "MapStorage", "Values", "values")
    | KIterMut => ("MapStorage", "MapStorage", "IterMut", "iter_mut")
    | KValuesMut => ("MapStorage", "MapStorage", "ValuesMut", "values_mut")
    | KIntoIter => ("MapStorage", "MapStorage", "IntoIter", "into_iter")
    | KSetIter => ("SetStorage", "SetStorage", "Iter", "iter")
    | KSetIntoIter => ("SetStorage", "SetStorage", "IntoIter", "into_iter")
    end.

  (** The impls of an iterator struct (any_variants.rs:806-840).  The function of the
      storage makes that struct; [Clone] may be missing. *)
  Definition iterator_code (its : list item) (q : ikind) : option (code Meth) :=
    let '(storage, trait, assoc, start) := iterator_of q in
    match storage_type its storage with
    | Some x =>
        match find_impl (Some trait) x its with
        | Some b =>
            match find assoc (types_of b), find start (fns_of b) with
            | Some ty, Some (MkFn _ (XBlock [SExpr (XStruct ty' _)])) =>
                if String.eqb ty ty' then
                  let sc := scope_of its (RBase BSelf) ty None in
                  let clone := find_impl (Some "Clone") ty its in
                  option_map (MkCode [])
                    (joined_fns
                      ([fns_from sc "" ["next"] (find_impl (Some "Iterator") ty its);
                        fns_from sc "" ["next_back"] (find_impl (Some "DoubleEndedIterator") ty its)] ++
                       match clone with
                       | Some _ => [fns_from sc "" ["clone"] clone]
                       | None => []
                       end)%list)
                else None
            | _, _ => None
            end
        | None => None
        end
    | None => None
    end.
End Inst.
