(** Reading the code that the derive macro makes (token trees of DeriveQuote.v): items,
    patterns, expressions and statements.  What is repeated for each variant is read
    once for a unit variant and once for a tuple variant.  Generic arguments of paths,
    where clauses and return types are skipped. *)
Require Import List Arith NArith Bool String Ascii.
Import ListNotations.
From Verif Require Import SrcLex DeriveQuote.
Open Scope string_scope.

(** Something that is there once, or a piece for each unit variant and one for each
    tuple variant (any_variants.rs:2003-2004). *)
Inductive rep {A : Type} : Type :=
| One (a : A)
| Each (s c : option A).
Arguments rep : clear implicits.

(** Patterns: paths with or without a pattern in parentheses, pairs and arrays of names
    (any_variants.rs:240, 694-713, 1808, unit_variants.rs:258, 335). *)
Inductive xpat : Type :=
| PtPath (segs : list string)
| PtCall (segs : list string) (p : xpat)
| PtPair (x y : string)
| PtNames (l : list (rep string))
| PtWild.

(** Expressions; [q] is what stands between [<] and [>] at the start of a path
    (any_variants.rs:41-44), [XFold] is [a #( op .. )*] (257). *)
Inductive tx : Type :=
| XPath (q : option (list tt)) (segs : list string)
| XNum (n : N)
| XCall (e : tx) (args : list tx)
| XMeth (e : tx) (m : string) (args : list tx)
| XField (e : tx) (f : string)
| XRef (e : tx)
| XDeref (e : tx)
| XNot (e : tx)
| XBin (op : string) (a b : tx)
| XFold (op : string) (a : tx) (s c : option tx)
| XTry (e : tx)
| XAs (e : tx) (ty : string)
| XPair (a b : tx)
| XArr (l : list (rep tx))
| XStruct (ty : string) (l : list (rep (string * tx)))
| XIf (c t : tx) (e : option tx)
| XIfLet (p : xpat) (e body : tx)
| XMatch (e : tx) (l : list (rep (xpat * tx)))
| XWhile (c body : tx)
| XClosure (ps : list xpat) (body : tx)
| XReturn (e : tx)
| XBreak
| XSet (a b : tx)
| XOrSet (a b : tx)
| XBlock (l : list xstmt)
with xstmt : Type :=
| SLet (p : xpat) (e : tx)
| SSemi (e : tx)
| SExpr (e : tx)
| SEach (s c : option tx).

(** ** Paths and patterns *)

(** Behind the [>] that closes the [<] before; [d] more are open
    (any_variants.rs:41-44). *)
Fixpoint angle (d : nat) (acc : list tt) (l : list tt) : option (list tt * list tt) :=
  match l with
  | [] => None
  | P "<" :: r => angle (S d) (P "<" :: acc) r
  | P ">" :: r =>
      match d with
      | 0 => Some (List.rev acc, r)
      | S d => angle d (P ">" :: acc) r
      end
  | x :: r => angle d (x :: acc) r
  end.

(** The rest of a path, generic arguments skipped (any_variants.rs:41, 231). *)
Fixpoint segments (fuel : nat) (l : list tt) : list string * list tt :=
  match fuel with
  | 0 => ([], l)
  | S f =>
      match l with
      | P "::" :: P "<" :: r =>
          match angle 0 [] r with
          | Some (_, r) => segments f r
          | None => ([], l)
          end
      | P "::" :: W x :: r => let '(a, b) := segments f r in (x :: a, b)
      | _ => ([], l)
      end
  end.
(** A path without [<..>] in front (any_variants.rs:232). *)
Definition plain_path (l : list tt) : option (list string * list tt) :=
  match l with
  | P "::" :: _ => Some (segments 20 l)
  | W x :: r => let '(a, b) := segments 20 r in Some (x :: a, b)
  | _ => None
  end.

(** Lists with commas or without; [elem] reads one element (any_variants.rs:240,
    unit_variants.rs:252). *)
Fixpoint plist {A} (fuel : nat) (elem : list tt -> option (A * list tt)) (l : list tt)
  : option (list (rep A)) :=
  match fuel with
  | 0 => None
  | S f =>
      let one b := match elem b with
                   | Some (a, []) | Some (a, [P ","]) => Some a
                   | _ => None
                   end in
      let piece b := match b with
                     | None => Some None
                     | Some b => option_map Some (one b)
                     end in
      let rest a r :=
        option_map (cons a) (plist f elem (match r with P "," :: r => r | _ => r end)) in
      match l with
      | [] => Some []
      | R sep s c :: r =>
          if match sep with [] | [TP ","] => true | _ => false end then
            match piece s, piece c with
            | Some s, Some c => rest (Each s c) r
            | _, _ => None
            end
          else None
      | _ =>
          match elem l with
          | Some (a, r) => rest (One a) r
          | None => None
          end
      end
  end.
(** A list without repetitions (any_variants.rs:231). *)
Fixpoint ones {A} (l : list (rep A)) : option (list A) :=
  match l with
  | [] => Some []
  | One a :: r => option_map (cons a) (ones r)
  | Each _ _ :: _ => None
  end.

(** A single name (any_variants.rs:231). *)
Definition a_name (l : list tt) : option (string * list tt) :=
  match l with W x :: r => Some (x, r) | _ => None end.

(** Patterns (any_variants.rs:240, 694-713, 1808, unit_variants.rs:258, 335). *)
Fixpoint ppat (fuel : nat) (l : list tt) : option xpat :=
  match fuel with
  | 0 => None
  | S f =>
      match l with
      | [W "_"] => Some PtWild
      | [W "mut"; W x] => Some (PtPath [x])
      | [G "(" [W x; P ","; W y]] => Some (PtPair x y)
      | [G "[" b] => option_map PtNames (plist 100 a_name b)
      | _ =>
          match plain_path l with
          | Some (segs, []) => Some (PtPath segs)
          | Some (segs, [G "(" b]) => option_map (PtCall segs) (ppat f b)
          | _ => None
          end
      end
  end.

(** ** Expressions *)

(** What is read: an operand of the level of an operator, what follows the operand [a],
    an expression without operators, what follows it
    (any_variants.rs:257, 1805-1811, unit_variants.rs:469). *)
Inductive what : Type :=
| Level (n : nat)
| Ops (n : nat) (a : tx)
| Prim
| Post (a : tx).

(** The binary operators by level (unit_variants.rs:259, 265, 462, 468, 469,
    any_variants.rs:1805). *)
Definition ops (n : nat) : list string :=
  match n with
  | 1 => ["&&"]
  | 2 => ["=="; "!="; "<"]
  | 3 => ["|"]
  | 4 => ["&"]
  | 5 => ["+"]
  | _ => []
  end.

(** An operator at the start of a repetition (any_variants.rs:257). *)
Definition op_of (o : list tt) : string := match o with P x :: _ => x | _ => "" end.

(** Expressions; [ns] forbids struct expressions, as in front of a block
    (any_variants.rs:1805). *)
Fixpoint px (fuel : nat) (w : what) (ns : bool) (l : list tt) {struct fuel}
  : option (tx * list tt) :=
  match fuel with
  | 0 => None
  | S f =>
      let all b := match px f (Level 0) false b with Some (e, []) => Some e | _ => None end in
      let args b :=
        match plist 100 (px f (Level 0) false) b with Some l => ones l | None => None end in
      let block b := option_map XBlock (pblock f b) in
      (* [0 #( + .. )*], any_variants.rs:257 *)
      let operand n b :=
        match b with
        | None => Some None
        | Some (_ :: b) =>
            match px f (Level (S n)) ns b with
            | Some (e, []) => Some (Some e)
            | _ => None
            end
        | Some [] => None
        end in
      match w with
      | Level 0 =>
          match px f (Level 1) ns l with
          | Some (a, P "=" :: r) =>
              option_map (fun x => (XSet a (fst x), snd x)) (px f (Level 0) ns r)
          | Some (a, P "|=" :: r) =>
              option_map (fun x => (XOrSet a (fst x), snd x)) (px f (Level 0) ns r)
          | other => other
          end
      | Level 6 =>
          match px f (Level 7) ns l with
          | Some (a, W "as" :: W x :: r) => Some (XAs a x, r)
          | other => other
          end
      | Level 7 =>
          let un c r := option_map (fun x => (c (fst x), snd x)) (px f (Level 7) ns r) in
          match l with
          | P "!" :: r => un XNot r
          | P "*" :: r => un XDeref r
          | P "&" :: W "mut" :: r => un XRef r
          | P "&" :: r => un XRef r
          | _ =>
              match px f Prim ns l with
              | Some (a, r) => px f (Post a) ns r
              | None => None
              end
          end
      | Level n =>
          match px f (Level (S n)) ns l with
          | Some (a, r) => px f (Ops n a) ns r
          | None => None
          end
      | Ops n a =>
          match l with
          | P o :: r =>
              if existsb (String.eqb o) (ops n) then
                match px f (Level (S n)) ns r with
                | Some (b, r) => px f (Ops n (XBin o a b)) ns r
                | None => None
                end
              else Some (a, l)
          | R [] s c :: r =>
              let o := match s, c with
                       | Some b, None | None, Some b => op_of b
                       | Some b, Some b' => if String.eqb (op_of b) (op_of b') then op_of b else ""
                       | None, None => ""
                       end in
              if existsb (String.eqb o) (ops n) then
                match operand n s, operand n c with
                | Some s, Some c => px f (Ops n (XFold o a s c)) ns r
                | _, _ => None
                end
              else Some (a, l)
          | _ => Some (a, l)
          end
      | Post a =>
          match l with
          | P "." :: W m :: G "(" b :: r =>
              match args b with Some l => px f (Post (XMeth a m l)) ns r | None => None end
          | P "." :: W m :: r => px f (Post (XField a m)) ns r
          | G "(" b :: r =>
              match args b with Some l => px f (Post (XCall a l)) ns r | None => None end
          | P "?" :: r => px f (Post (XTry a)) ns r
          | _ => Some (a, l)
          end
      | Prim =>
          match l with
          | L (TNum n) :: r => Some (XNum n, r)
          | G "{" b :: r => option_map (fun e => (e, r)) (block b)
          | G "(" b :: r =>
              match args b with
              | Some [a] => Some (a, r)
              | Some [a; c] => Some (XPair a c, r)
              | _ => None
              end
          | G "[" b :: r =>
              option_map (fun l => (XArr l, r)) (plist 100 (px f (Level 0) false) b)
          | W "if" :: W "let" :: r =>
              match split_at (TP "=") r with
              | Some (p, r) =>
                  match ppat 10 p, px f (Level 1) true r with
                  | Some p, Some (e, G "{" b :: r) =>
                      option_map (fun b => (XIfLet p e b, r)) (block b)
                  | _, _ => None
                  end
              | None => None
              end
          | W "if" :: r =>
              match px f (Level 1) true r with
              | Some (c, G "{" b :: W "else" :: G "{" b' :: r) =>
                  match block b, block b' with
                  | Some t, Some e => Some (XIf c t (Some e), r)
                  | _, _ => None
                  end
              | Some (c, G "{" b :: r) => option_map (fun t => (XIf c t None, r)) (block b)
              | _ => None
              end
          | W "match" :: r =>
              match px f (Level 1) true r with
              | Some (e, G "{" b :: r) =>
                  option_map (fun l => (XMatch e l, r)) (plist 100 (parm f) b)
              | _ => None
              end
          | W "while" :: r =>
              match px f (Level 1) true r with
              | Some (c, G "{" b :: r) => option_map (fun b => (XWhile c b, r)) (block b)
              | _ => None
              end
          | W "return" :: r =>
              option_map (fun x => (XReturn (fst x), snd x)) (px f (Level 0) ns r)
          | W "break" :: r => Some (XBreak, r)
          | P "|" :: r =>
              match split_at (TP "|") r with
              | Some (ps, r) =>
                  match plist 10 (fun l => match l with
                                           | W x :: r => Some (PtPath [x], r)
                                           | G "(" [W x; P ","; W y] :: r => Some (PtPair x y, r)
                                           | _ => None
                                           end) ps with
                  | Some ps =>
                      match ones ps, px f (Level 0) ns r with
                      | Some ps, Some (e, r) => Some (XClosure ps e, r)
                      | _, _ => None
                      end
                  | None => None
                  end
              | None => None
              end
          | P "<" :: r =>
              match angle 0 [] r with
              | Some (q, r) => let '(segs, r) := segments 20 r in Some (XPath (Some q) segs, r)
              | None => None
              end
          | _ =>
              match plain_path l with
              | Some (segs, G "{" b :: r) =>
                  if ns then Some (XPath None segs, G "{" b :: r)
                  else
                    match segs, plist 100 (fun l =>
                            match l with
                            | W x :: P ":" :: r =>
                                option_map (fun e => ((x, fst e), snd e)) (px f (Level 0) false r)
                            | W x :: r => Some ((x, XPath None [x]), r)
                            | _ => None
                            end) b with
                    | [ty], Some l => Some (XStruct ty l, r)
                    | _, _ => None
                    end
              | Some (segs, r) => Some (XPath None segs, r)
              | None => None
              end
          end
      end
  end
(** An arm of a [match] (any_variants.rs:239-241, 695-699). *)
with parm (fuel : nat) (l : list tt) {struct fuel} : option ((xpat * tx) * list tt) :=
  match fuel with
  | 0 => None
  | S f =>
      match split_at (TP "=>") l with
      | Some (p, r) =>
          match ppat 10 p, match r with
                           | G "{" _ :: _ => px f Prim false r
                           | _ => px f (Level 0) false r
                           end with
          | Some p, Some (e, r) => Some ((p, e), r)
          | _, _ => None
          end
      | None => None
      end
  end
(** The statements of a block; empty ones are dropped (any_variants.rs:170-176, 383,
    1834-1849). *)
with pblock (fuel : nat) (l : list tt) {struct fuel} : option (list xstmt) :=
  match fuel with
  | 0 => None
  | S f =>
      let rest s r := option_map (cons s) (pblock f r) in
      let piece b := match b with
                     | None => Some None
                     | Some b => option_map (fun l => Some (XBlock l)) (pblock f b)
                     end in
      match l with
      | [] => Some []
      | P ";" :: r => pblock f r
      | R [] s c :: r =>
          match piece s, piece c with
          | Some s, Some c => rest (SEach s c) r
          | _, _ => None
          end
      | W "let" :: r =>
          match split_at (TP "=") r with
          | Some (p, r) =>
              match ppat 10 p, px f (Level 0) false r with
              | Some p, Some (e, P ";" :: r) => rest (SLet p e) r
              | _, _ => None
              end
          | None => None
          end
      | W "if" :: _ | W "match" :: _ | W "while" :: _ | G "{" _ :: _ =>
          match px f Prim false l with
          | Some (e, r) => rest (SExpr e) r
          | None => None
          end
      | _ =>
          match px f (Level 0) false l with
          | Some (e, P ";" :: r) => rest (SSemi e) r
          | Some (e, []) => Some [SExpr e]
          | _ => None
          end
      end
  end.

(** ** Items *)

(** A function: its parameters with their types, and its body (any_variants.rs:238). *)
Record fndef : Type := MkFn { fd_params : list (string * list tt); fd_body : tx }.

(** Items: structs with their fields, enums with the types of their variants, impls of
    traits and inherent impls, functions, associated types
    (any_variants.rs:413-420, 1943-1991, 2069, 845). *)
Inductive item : Type :=
| IStruct (x : string) (fs : list (rep string))
| IEnum (x : string) (vs : list (string * string))
| IImpl (trait : option string) (ty : string) (body : list item)
| IFn (x : string) (d : fndef)
| IType (x ty : string).

(** The last name of a path outside of generic arguments, for the trait of an impl
    (any_variants.rs:416). *)
Fixpoint last_name (x : string) (l : list tt) : string :=
  match l with
  | W y :: r => last_name y r
  | P "::" :: r => last_name x r
  | _ => x
  end.

(** Trait and type of an impl, given what stands between [impl] and the block
    (any_variants.rs:167, 416, 1948). *)
Definition impl_head (l : list tt) : option string * string :=
  let l := match l with
           | P "<" :: r => match angle 0 [] r with Some (_, r) => r | None => l end
           | _ => l
           end in
  match split_at (TId "for") l with
  | Some (t, W x :: _) => (Some (last_name "" t), x)
  | _ => (None, last_name "" l)
  end.

(** Receiver and parameters of a function (any_variants.rs:170, 238, 379). *)
Definition param (l : list tt) : list (string * list tt) :=
  match l with
  | [] => []
  | [P "&"; W "self"] | [P "&"; W "mut"; W "self"] | [W "self"] => [("self", [])]
  | W "mut" :: W x :: P ":" :: ty | W x :: P ":" :: ty => [(x, ty)]
  | _ => [("", [])]
  end.

(** The variants of an enum that are not repeated (any_variants.rs:1988-1991). *)
Definition enum_variants (l : list tt) : list (string * string) :=
  List.concat (List.map (fun p =>
    match p with
    | [W x; G "(" (W y :: _)] => [(x, y)]
    | _ => []
    end) (commas l)).

(** The name of a field; its type is skipped up to the comma outside of [<..>], [d] of
    which are open (any_variants.rs:413, 1943-1946). *)
Fixpoint skip_type (d : nat) (l : list tt) : list tt :=
  match l with
  | [] => []
  | P "," :: r => match d with 0 => l | _ => skip_type d r end
  | P "<" :: r => skip_type (S d) r
  | P ">" :: r => skip_type (Nat.pred d) r
  | _ :: r => skip_type d r
  end.
(** See [skip_type] (any_variants.rs:413, 1943-1946). *)
Definition field_decl (l : list tt) : option (string * list tt) :=
  match l with
  | W x :: P ":" :: r => Some (x, skip_type 0 r)
  | _ => None
  end.

(** What stands before the next block, the block, and what follows
    (any_variants.rs:416). *)
Fixpoint before_block (l : list tt) : option (list tt * list tt * list tt) :=
  match l with
  | [] => None
  | G "{" b :: r => Some ([], b, r)
  | x :: r => option_map (fun p => match p with (a, b, c) => (x :: a, b, c) end) (before_block r)
  end.

(** Items (any_variants.rs:79-89, 413-422, unit_variants.rs:60-123). *)
Fixpoint items (fuel : nat) (l : list tt) : option (list item) :=
  match fuel with
  | 0 => None
  | S f =>
      let rest i r := option_map (cons i) (items f r) in
      match l with
      | [] => Some []
      | W "const" :: W "fn" :: r => items f (W "fn" :: r)
      | W "struct" :: W x :: r =>
          match before_block r with
          | Some (_, b, r) =>
              match plist 100 field_decl b with
              | Some fs => rest (IStruct x fs) r
              | None => None
              end
          | None => None
          end
      | W "enum" :: W x :: r =>
          match before_block r with
          | Some (_, b, r) => rest (IEnum x (enum_variants b)) r
          | None => None
          end
      | W "impl" :: r =>
          match before_block r with
          | Some (h, b, r) =>
              match items f b with
              | Some b => let '(t, x) := impl_head h in rest (IImpl t x b) r
              | None => None
              end
          | None => None
          end
      | W "fn" :: W x :: r =>
          match to_group "(" r with
          | Some (ps, r) =>
              match before_block r with
              | Some (_, b, r) =>
                  match pblock 300 b with
                  | Some b =>
                      rest (IFn x (MkFn (List.concat (List.map param (commas ps))) (XBlock b))) r
                  | None => None
                  end
              | None => None
              end
          | None => None
          end
      | W "type" :: W x :: r =>
          match split_at (TP ";") r with
          | Some (a, r) =>
              match split_at (TP "=") a with
              | Some (_, W y :: _) => rest (IType x y) r
              | _ => rest (IType x "") r
              end
          | None => None
          end
      | _ => None
      end
  end.
