(** Syntax trees of the fragment of Rust that the files of [SrcText] are written in, and a
    parser for it.  Types, lifetimes, generics, [where] clauses, visibility and
    attributes other than [derive] are read over. *)
Require Import List NArith Bool String Ascii.
Import ListNotations.
From Verif Require Import SrcLex.
Open Scope string_scope.

(** Patterns (src/map/storage/option.rs:274, src/map/storage/hashbrown.rs:188, 206,
    src/macro_support.rs:10, 45, src/map/entry.rs:263). *)
Inductive pat : Type :=
| PWild
| PName (x : string)
| PRef (p : pat)
| PTup (l : list pat)
| PCtor (path : list string) (l : list pat).

(** Whether and how a function takes [self] (src/map/storage/boolean.rs:152, 157, 174). *)
Inductive receiver : Type := NoSelf | SelfValue | SelfRef.

(** Expressions, statements and items (src/map/storage/boolean.rs:1-370). *)
Inductive expr : Type :=
| EPath (p : list string)                               (* boolean.rs:11, 228 *)
| EBool (b : bool)                                      (* boolean.rs:98 *)
| ENum (n : N)                                          (* boolean.rs:11 *)
| EStr (x : string)                                     (* src/map.rs:1438 *)
| ETup (l : list expr)                                  (* boolean.rs:112 *)
| EField (e : expr) (f : string)                        (* boolean.rs:96 *)
| ECall (f : expr) (l : list expr)                      (* boolean.rs:235 *)
| EMethod (e : expr) (m : string) (l : list expr)       (* boolean.rs:235 *)
| EMacro (m : string) (l : list expr)                   (* src/option_bucket.rs:125 *)
| EUnary (op : string) (e : expr)                       (* boolean.rs:97, 294, 359 *)
| EBinary (op : string) (a b : expr)                    (* boolean.rs:96, 240 *)
| EAssign (op : string) (a b : expr)                    (* boolean.rs:97, 295 *)
| EIf (c a b : expr)                                    (* boolean.rs:245-249 *)
| EIfLet (p : pat) (e a b : expr)                       (* boolean.rs:293-297 *)
| EMatch (e : expr) (l : list (pat * expr))             (* boolean.rs:359-362 *)
| EBlock (l : list stmt)                                (* boolean.rs:359 *)
| EClosure (ps : list pat) (e : expr)                   (* boolean.rs:313 *)
| EStruct (p : list string) (l : list (string * expr)) (rest : option expr) (* boolean.rs:360, intersection.rs:25-28 *)
| EReturn (e : option expr)                             (* boolean.rs:98 *)
| ELoop (e : expr)                                      (* src/set/intersection.rs:40 *)
| EWhileLet (p : pat) (e b : expr)                      (* src/map.rs:1447 *)
| EFor (p : pat) (e b : expr)                           (* src/map.rs:1379 *)
| EQuestion (e : expr)                                  (* src/set/intersection.rs:41 *)
with stmt : Type :=
| SLet (p : pat) (e : expr)                             (* boolean.rs:313 *)
| SSemi (e : expr)                                      (* boolean.rs:97 *)
| STail (e : expr)                                      (* boolean.rs:317 *)
| SItem (i : item)                                      (* src/map.rs:1427-1444 *)
with item : Type :=
| IConst (x : string) (e : expr)                        (* boolean.rs:11 *)
| IFn (f : fn)                                          (* src/set/storage/boolean.rs:187 *)
| IImpl (of : option string) (ty : string) (l : list fn)  (* boolean.rs:83, 194, src/option_bucket.rs:113 *)
| IStruct (x : string) (derives fields : list string)   (* boolean.rs:73-77 *)
| IEnum (x : string) (l : list (string * bool))         (* src/map/entry.rs:6-14; whether a variant holds something *)
with fn : Type :=
| Fn (x : string) (r : receiver) (ps : list pat) (body : expr). (* boolean.rs:244-250 *)

(** Reading a prefix of the tokens (src/map/storage/boolean.rs:1-370). *)
Definition parser (A : Type) : Type := list token -> option (A * list token).

(** One after the other (boolean.rs:1-370). *)
Definition bindp {A B} (p : parser A) (f : A -> parser B) : parser B := fun l =>
  match p l with
  | Some (a, r) => f a r
  | None => None
  end.
(** Nothing more (boolean.rs:1-370). *)
Definition ret {A} (a : A) : parser A := fun l => Some (a, l).
(** Not as expected (boolean.rs:1-370). *)
Definition failp {A} : parser A := fun _ => None.
Notation "x <- p ;; q" := (bindp p (fun x => q)) (at level 61, p at next level, right associativity).
Notation "p ;; q" := (bindp p (fun _ => q)) (at level 61, right associativity).

(** The next token is this punctuation, or this word (boolean.rs:11). *)
Definition is_p (x : string) (l : list token) : bool :=
  match l with TP y :: _ => String.eqb x y | _ => false end.
(** See [is_p] (boolean.rs:11). *)
Definition is_id (x : string) (l : list token) : bool :=
  match l with TId y :: _ => String.eqb x y | _ => false end.
(** It has to be this punctuation (boolean.rs:11). *)
Definition punct (x : string) : parser unit := fun l => if is_p x l then Some (tt, tl l) else None.
(** It has to be this word (boolean.rs:11). *)
Definition word (x : string) : parser unit := fun l => if is_id x l then Some (tt, tl l) else None.
(** It may be (boolean.rs:79: [pub]). *)
Definition opt_word (x : string) : parser bool := fun l =>
  if is_id x l then Some (true, tl l) else Some (false, l).
(** See [opt_word] (boolean.rs:324: a comma that may be absent). *)
Definition opt_p (x : string) : parser bool := fun l =>
  if is_p x l then Some (true, tl l) else Some (false, l).
(** Any name (boolean.rs:11). *)
Definition name : parser string := fun l => match l with TId x :: r => Some (x, r) | _ => None end.
(** One choice or the other, by the next token (boolean.rs:96). *)
Definition peek {A} (c : list token -> bool) (p q : parser A) : parser A := fun l =>
  if c l then p l else q l.

(** Reading up to the bracket that closes (boolean.rs:15-18).  [->] is a token of its own. *)
Fixpoint skip_to (depth : nat) (l : list token) : option (list token) :=
  match l with
  | [] => None
  | t :: r =>
      match t with
      | TP x =>
          if existsb (String.eqb x) ["<"; "("; "["; "{"] then skip_to (S depth) r
          else if existsb (String.eqb x) [">"; ")"; "]"; "}"] then
            match depth with
            | 0 => None
            | 1 => Some r
            | S d => skip_to d r
            end
          else skip_to depth r
      | _ => skip_to depth r
      end
  end.
(** A bracketed group (boolean.rs:15). *)
Definition group : parser unit := fun l =>
  match l with
  | t :: r => option_map (fun r => (tt, r)) (skip_to 1 r)
  | [] => None
  end.
(** Generic parameters, if there are any (boolean.rs:141). *)
Definition generics : parser unit := peek (is_p "<") group (ret tt).

(** What precedes the end of a type, with the brackets that are open (boolean.rs:15-18,
    160, 204-209). *)
Fixpoint type_until (depth : nat) (l : list token) : option (list token * list token) :=
  match l with
  | [] => None
  | t :: r =>
      let more d := match type_until d r with Some (a, b) => Some (t :: a, b) | None => None end in
      match t with
      | TP x =>
          if existsb (String.eqb x) ["<"; "("; "["] then more (S depth)
          else if existsb (String.eqb x) [">"; ")"; "]"] then
            match depth with 0 => Some ([], l) | S d => more d end
          else
            match depth with
            | 0 => if existsb (String.eqb x) [","; ";"; "="; "{"; "}"; "|"] then Some ([], l) else more 0
            | _ => more depth
            end
      | TId x =>
          match depth with
          | 0 => if existsb (String.eqb x) ["where"; "for"] then Some ([], l) else more 0
          | _ => more depth
          end
      | _ => more depth
      end
  end.
(** A type, as tokens (boolean.rs:160). *)
Definition type_toks : parser (list token) := type_until 0.

(** The name of a type: its last name outside of brackets; references keep their mark
    (boolean.rs:194, src/map.rs:1331, 1346). *)
Fixpoint last_name (depth : nat) (acc : string) (l : list token) : string :=
  match l with
  | [] => acc
  | TP "<" :: r => last_name (S depth) acc r
  | TP ">" :: r => last_name (pred depth) acc r
  | TId x :: r => last_name depth (match depth with 0 => x | _ => acc end) r
  | _ :: r => last_name depth acc r
  end.
(** See [last_name] (src/map.rs:1331, 1346). *)
Definition type_name (l : list token) : string :=
  match l with
  | TP "&" :: TLife _ :: TId "mut" :: r => "&mut " ++ last_name 0 "" r
  | TP "&" :: r => "&" ++ last_name 0 "" r
  | _ => last_name 0 "" l
  end.

(** A [where] clause, if there is one: up to the block (boolean.rs:197-198, src/map.rs:376). *)
Fixpoint until_block (l : list token) : option (list token) :=
  match l with
  | [] => None
  | t :: r => if is_p "{" l || is_p ";" l then Some l else until_block r
  end.
(** See [until_block] (boolean.rs:197-198). *)
Definition opt_where : parser unit := fun l =>
  if is_id "where" l then option_map (fun r => (tt, r)) (until_block l) else Some (tt, l).

(** The names in a [derive] attribute (boolean.rs:73). *)
Fixpoint names_in (l : list token) : list string :=
  match l with
  | TId x :: r => x :: names_in r
  | TP "]" :: _ => []
  | _ :: r => names_in r
  | [] => []
  end.
(** Attributes, and what they derive (boolean.rs:3, 73, 84).  [n] bounds their number. *)
Fixpoint attributes (n : nat) (acc : list string) : parser (list string) := fun l =>
  match n with
  | 0 => None
  | S n =>
      match l with
      | TP "#" :: r =>
          let r := if is_p "!" r then tl r else r in
          let acc := match r with
                     | TP "[" :: TId "derive" :: r' => (acc ++ names_in r')%list
                     | _ => acc
                     end in
          match group r with
          | Some (_, r') => attributes n acc r'
          | None => None
          end
      | _ => Some (acc, l)
      end
  end.

(** [pub], [pub(super)] (src/set/intersection.rs:17). *)
Definition visibility : parser unit :=
  b <- opt_word "pub";; if b then peek (is_p "(") group (ret tt) else ret tt.

(** Names of variants and values that are not variables start with a capital
    (boolean.rs:360); in Rust this is a convention. *)
Definition capital (x : string) : bool :=
  match x with String c _ => between "A" "Z" c | "" => false end.

(** The rest of a path: names, generic arguments being read over (option.rs:333,
    hashbrown.rs:147).  [n] bounds its length. *)
Fixpoint path_rest (n : nat) (acc : list string) : parser (list string) := fun l =>
  match n with
  | 0 => None
  | S n =>
      if is_p "::" l then
        match tl l with
        | TId x :: r => path_rest n (acc ++ [x])%list r
        | TP "<" :: _ => match group (tl l) with Some (_, r) => path_rest n acc r | None => None end
        | _ => None
        end
      else Some (acc, l)
  end.
(** A path; a qualified one is known by its last name (src/set.rs:504). *)
Definition path (n : nat) : parser (list string) := fun l =>
  match l with
  | TId x :: r => path_rest n [x] r
  | TP "::" :: _ => path_rest n [] l
  | TP "<" :: _ => match group l with Some (_, r) => path_rest n ["<>"] r | None => None end
  | _ => None
  end.

(** Binary operators and how tightly they bind (boolean.rs:96, 240, 324, option.rs:263,
    src/set.rs:435). *)
Definition operators : list (string * nat) :=
  [("||", 1); ("&&", 2); ("==", 3); ("!=", 3); ("<=", 3); ("|", 4); ("&", 5); ("+", 6)].
(** See [operators]: the one that comes next (boolean.rs:96). *)
Definition operator_at (l : list token) : option (string * nat) :=
  match l with
  | TP x :: _ => find (fun o => String.eqb x (fst o)) operators
  | _ => None
  end.

(** Where an expression cannot go on, so that [return] has none (boolean.rs:98). *)
Definition at_end (l : list token) : bool :=
  existsb (fun x => is_p x l) [";"; "}"; ")"; ","].

(** A list of things up to a closing bracket, with commas between them (boolean.rs:360,
    112). *)
Fixpoint listed {A} (n : nat) (close : string) (p : parser A) : parser (list A) := fun l =>
  match n with
  | 0 => None
  | S n =>
      if is_p close l then Some ([], tl l)
      else (x <- p;; b <- opt_p ",";;
            if b then r <- listed n close p;; ret (x :: r)
            else punct close;; ret [x]) l
  end.

(** Patterns (see [pat]); [mut] and [ref] are read over, as are types of closure
    parameters. *)
Fixpoint pattern (n : nat) : parser pat :=
  match n with
  | 0 => failp
  | S n => fun l =>
      match l with
      | TP "&" :: r => (opt_word "mut";; p <- pattern n;; ret (PRef p)) r
      | TP "(" :: r => (l <- listed n ")" (pattern n);; ret (PTup l)) r
      | TId "_" :: r => Some (PWild, r)
      | TId "mut" :: r => pattern n r
      | TId x :: r =>
          (p <- path n;;
           peek (is_p "(") (punct "(";; l <- listed n ")" (pattern n);; ret (PCtor p l))
             (ret (match p with
                   | [x] => if capital x then PCtor p [] else PName x
                   | _ => PCtor p []
                   end))) l
      | _ => None
      end
  end.

(** A pattern with a type, if it has one (boolean.rs:244, hashbrown.rs:206). *)
Definition typed_pattern (n : nat) : parser pat :=
  p <- pattern n;; b <- opt_p ":";; if b then type_toks;; ret p else ret p.

(** Parameters of a function: [self] and the others (boolean.rs:152, 244). *)
Definition receiver_at : parser receiver := fun l =>
  match l with
  | TId "self" :: r => Some (SelfValue, r)
  | TId "mut" :: TId "self" :: r => Some (SelfValue, r)
  | TP "&" :: TId "self" :: r => Some (SelfRef, r)
  | TP "&" :: TId "mut" :: TId "self" :: r => Some (SelfRef, r)
  | TP "&" :: TLife _ :: TId "self" :: r => Some (SelfRef, r)
  | _ => Some (NoSelf, l)
  end.
(** See [receiver_at] (boolean.rs:244). *)
Definition params (n : nat) : parser (receiver * list pat) :=
  punct "(";; r <- receiver_at;;
  (match r with NoSelf => ret true | _ => opt_p "," end);;
  l <- listed n ")" (typed_pattern n);; ret (r, l).

(** Items that declare no code (boolean.rs:5, 14, src/map.rs:4). *)
Fixpoint skip_item (l : list token) : option (list token) :=
  match l with
  | [] => None
  | t :: r => if is_p ";" l then Some r else skip_item r
  end.

(** The variants of an enum, and whether they hold something (src/map/entry.rs:6-14). *)
Fixpoint variant_names (n : nat) : parser (list (string * bool)) := fun l =>
  match n with
  | 0 => None
  | S n =>
      (attributes n [];;
       peek (is_p "}") (punct "}";; ret [])
         (x <- name;; b <- peek (is_p "(") (group;; ret true) (ret false);; opt_p ",";;
          r <- variant_names n;; ret ((x, b) :: r))) l
  end.
(** The fields of a struct (boolean.rs:74-77). *)
Fixpoint field_names (n : nat) : parser (list string) := fun l =>
  match n with
  | 0 => None
  | S n =>
      (attributes n [];; visibility;;
       peek (is_p "}") (punct "}";; ret [])
         (x <- name;; punct ":";; type_toks;; b <- opt_p ",";;
          if b then r <- field_names n;; ret (x :: r) else punct "}";; ret [x])) l
  end.

(** Expressions that end a statement without a semicolon (boolean.rs:245, 293,
    src/option_bucket.rs:361). *)
Definition block_like (l : list token) : bool :=
  existsb (fun x => is_id x l) ["if"; "match"; "loop"; "while"; "for"; "unsafe"] || is_p "{" l.
(** Items inside a function (src/map.rs:1365, 1427, 1429). *)
Definition item_like (l : list token) : bool :=
  existsb (fun x => is_id x l) ["use"; "struct"; "impl"; "fn"] || is_p "#" l.

(** Names of fields: also numbers (src/macro_support.rs:45). *)
Definition field_name : parser string := name.

(** The grammar.  [ns]: a brace after a name does not start a struct, as in the condition
    of an [if] (boolean.rs:96). *)
Fixpoint expression (n : nat) (ns : bool) : parser expr :=
  match n with
  | 0 => failp
  | S n =>
      e <- binary n 0 ns;;
      fun l =>
        match l with
        | TP x :: r =>
            if existsb (String.eqb x) ["="; "&="; "|="]
            then (e' <- expression n ns;; ret (EAssign x e e')) r
            else Some (e, l)
        | _ => Some (e, l)
        end
  end
with binary (n : nat) (level : nat) (ns : bool) : parser expr :=
  match n with
  | 0 => failp
  | S n => e <- unary n ns;; more n level ns e
  end
with more (n : nat) (level : nat) (ns : bool) (e : expr) : parser expr :=
  match n with
  | 0 => failp
  | S n => fun l =>
      match operator_at l with
      | Some (x, k) =>
          if Nat.ltb level k then (e' <- binary n k ns;; more n level ns (EBinary x e e')) (tl l)
          else Some (e, l)
      | None => Some (e, l)
      end
  end
with unary (n : nat) (ns : bool) : parser expr :=
  match n with
  | 0 => failp
  | S n => fun l =>
      match l with
      | TP "!" :: r => (e <- unary n ns;; ret (EUnary "!" e)) r
      | TP "*" :: r => (e <- unary n ns;; ret (EUnary "*" e)) r
      | TP "&" :: r => (opt_word "mut";; e <- unary n ns;; ret (EUnary "&" e)) r
      | _ => (e <- primary n ns;; postfix n e) l
      end
  end
with postfix (n : nat) (e : expr) : parser expr :=
  match n with
  | 0 => failp
  | S n => fun l =>
      match l with
      | TP "?" :: r => postfix n (EQuestion e) r
      | TP "(" :: r => (a <- listed n ")" (expression n false);; postfix n (ECall e a)) r
      | TP "." :: r =>
          (f <- field_name;; peek (is_p "::") (punct "::";; group) (ret tt);;
           peek (is_p "(")
             (punct "(";; a <- listed n ")" (expression n false);; postfix n (EMethod e f a))
             (postfix n (EField e f))) r
      | TId "as" :: r => (path n;; postfix n e) r
      | _ => Some (e, l)
      end
  end
with primary (n : nat) (ns : bool) : parser expr :=
  match n with
  | 0 => failp
  | S n => fun l =>
      match l with
      | TNum k :: r => Some (ENum k, r)
      | TStr x :: r => Some (EStr x, r)
      | TId "true" :: r => Some (EBool true, r)
      | TId "false" :: r => Some (EBool false, r)
      | TP "(" :: r =>
          (peek (is_p ")") (punct ")";; ret (ETup []))
             (e <- expression n false;; b <- opt_p ",";;
              if b then r <- listed n ")" (expression n false);; ret (ETup (e :: r))
              else punct ")";; ret e)) r
      | TP "{" :: r => block n l
      | TId "unsafe" :: r => block n r
      | TId "if" :: r => conditional n r
      | TId "match" :: r =>
          (e <- expression n true;; punct "{";; a <- arms n;; ret (EMatch e a)) r
      | TId "loop" :: r => (b <- block n;; ret (ELoop b)) r
      | TId "while" :: TId "let" :: r =>
          (p <- pattern n;; punct "=";; e <- expression n true;; b <- block n;;
           ret (EWhileLet p e b)) r
      | TId "for" :: r =>
          (p <- pattern n;; word "in";; e <- expression n true;; b <- block n;; ret (EFor p e b)) r
      | TId "return" :: r =>
          if at_end r then Some (EReturn None, r)
          else (e <- expression n ns;; ret (EReturn (Some e))) r
      | TP "|" :: r =>
          (ps <- listed n "|" (typed_pattern n);; e <- expression n ns;; ret (EClosure ps e)) r
      | TP "||" :: r => (e <- expression n ns;; ret (EClosure [] e)) r
      | _ =>
          (p <- path n;; fun l =>
           if is_p "!" l && is_p "(" (tl l)
           then (a <- listed n ")" (expression n false);; ret (EMacro (last p "") a)) (tl (tl l))
           else if is_p "{" l && negb ns && capital (last p "")
           then (fs <- fields n;; ret (EStruct p (fst fs) (snd fs))) (tl l)
           else Some (EPath p, l)) l
      end
  end
with conditional (n : nat) : parser expr :=
  match n with
  | 0 => failp
  | S n =>
      let otherwise : parser expr :=
        b <- opt_word "else";;
        if b then peek (is_id "if") (word "if";; conditional n) (block n) else ret (ETup []) in
      peek (is_id "let")
        (word "let";; p <- pattern n;; punct "=";; e <- expression n true;; a <- block n;;
         b <- otherwise;; ret (EIfLet p e a b))
        (c <- expression n true;; a <- block n;; b <- otherwise;; ret (EIf c a b))
  end
with arms (n : nat) : parser (list (pat * expr)) :=
  match n with
  | 0 => failp
  | S n => fun l =>
      if is_p "}" l then Some ([], tl l)
      else (p <- pattern n;; punct "=>";;
            e <- peek (is_p "{") (block n) (expression n false);; opt_p ",";;
            r <- arms n;; ret ((p, e) :: r)) l
  end
with fields (n : nat) : parser (list (string * expr) * option expr) :=
  match n with
  | 0 => failp
  | S n => fun l =>
      if is_p "}" l then Some (([], None), tl l)
      else if is_p ".." l then (punct "..";; e <- expression n false;; punct "}";; ret ([], Some e)) l
      else (f <- name;;
            e <- peek (is_p ":") (punct ":";; expression n false) (ret (EPath [f]));;
            opt_p ",";; r <- fields n;; ret ((f, e) :: fst r, snd r)) l
  end
with block (n : nat) : parser expr :=
  match n with
  | 0 => failp
  | S n => punct "{";; b <- statements n;; ret (EBlock b)
  end
with statements (n : nat) : parser (list stmt) :=
  match n with
  | 0 => failp
  | S n => fun l =>
      if is_p "}" l then Some ([], tl l)
      else if is_p ";" l then statements n (tl l)
      else if is_id "let" l then
        (word "let";; p <- typed_pattern n;; punct "=";; e <- expression n false;; punct ";";;
         r <- statements n;; ret (SLet p e :: r)) l
      else if item_like l then (i <- one_item n;; r <- statements n;; ret (map SItem i ++ r)%list) l
      else if block_like l then
        (e <- primary n false;; fun l =>
         if is_p "}" l then Some ([STail e], tl l)
         else (r <- statements n;; ret (SSemi e :: r)) l) l
      else
        (e <- expression n false;; fun l =>
         if is_p "}" l then Some ([STail e], tl l)
         else (punct ";";; r <- statements n;; ret (SSemi e :: r)) l) l
  end
with function (n : nat) : parser fn :=
  match n with
  | 0 => failp
  | S n =>
      opt_word "const";; opt_word "unsafe";; word "fn";; x <- name;; generics;;
      ps <- params n;; b <- opt_p "->";; (if b then type_toks;; ret tt else ret tt);;
      opt_where;; e <- block n;; ret (Fn x (fst ps) (snd ps) e)
  end
with members (n : nat) : parser (list fn) :=
  match n with
  | 0 => failp
  | S n =>
      attributes n [];; visibility;; fun l =>
      if is_p "}" l then Some ([], tl l)
      else if is_id "type" l then match skip_item l with Some r => members n r | None => None end
      else (f <- function n;; r <- members n;; ret (f :: r)) l
  end
with one_item (n : nat) : parser (list item) :=
  match n with
  | 0 => failp
  | S n =>
      ds <- attributes n [];; visibility;; fun l =>
      match l with
      | TId "use" :: _ | TId "mod" :: _ | TId "type" :: _ =>
          option_map (fun r => ([], r)) (skip_item l)
      | TId "const" :: TId x :: TP ":" :: r =>
          (type_toks;; punct "=";; e <- expression n false;; punct ";";; ret [IConst x e]) r
      | TId "struct" :: r =>
          (x <- name;; generics;; opt_where;;
           fs <- peek (is_p "{") (punct "{";; field_names n)
                   (peek (is_p "(") (group;; punct ";") (punct ";");; ret []);;
           ret [IStruct x ds fs]) r
      | TId "enum" :: r =>
          (x <- name;; generics;; opt_where;; punct "{";; vs <- variant_names n;; ret [IEnum x vs]) r
      | TId "impl" :: r =>
          (generics;; a <- type_toks;; b <- opt_word "for";;
           t <- (if b then x <- type_toks;; ret (Some (type_name a), type_name x)
                 else ret (None, type_name a));;
           opt_where;; punct "{";; fs <- members n;; ret [IImpl (fst t) (snd t) fs]) r
      | _ => (f <- function n;; ret [IFn f]) l
      end
  end.

(** A file (boolean.rs:1-370).  [m] bounds the number of items, [n] the depth and the
    length of the lists in them. *)
Fixpoint items (m n : nat) (l : list token) : option (list item) :=
  match m with
  | 0 => None
  | S m =>
      match attributes n [] l with
      | Some (_, []) => Some []
      | _ =>
          match one_item n l with
          | Some (i, r) => option_map (fun l => i ++ l)%list (items m n r)
          | None => None
          end
      end
  end.
(** See [items]. *)
Definition parse (l : list string) : option (list item) := items 100 (10 * 100) (lex l).
