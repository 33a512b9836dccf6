(** Running the text of the derive macro (fixed-map-derive/src/{any_variants,
    unit_variants,context,lib}.rs) on an enum of which neither the number of variants
    nor their names and types are known: token trees, [quote!], and the statements of
    the functions of the macro.

    Code that the macro repeats for each variant is kept as one piece for a unit
    variant and one for a tuple variant; in it the words [#name], [#var], [#index],
    [#element] and [#number] stand for what differs between variants.  [#ident],
    [#count] and [#ty] stand for the name of the enum, for the number of its variants
    and for the integer type of its bitset.  Where clauses, attributes and
    visibilities are dropped.  Whatever is not understood makes the result [None]. *)
Require Import List Arith NArith Bool String Ascii.
Import ListNotations.
From Verif Require Import SrcLex.
Open Scope string_scope.

(** Token trees; [R sep s c] is the repetition [#( .. ) sep *] with the piece [s] for a
    unit variant and [c] for a tuple variant, if there are (any_variants.rs:171-173,
    240). *)
Inductive tt : Type :=
| L (t : token)
| G (o : string) (l : list tt)
| R (sep : list token) (s c : option (list tt)).

(** A name or keyword, and punctuation (any_variants.rs:1). *)
Notation W x := (L (TId x)).
(** See [W] (any_variants.rs:1). *)
Notation P x := (L (TP x)).

(** Equal tokens (any_variants.rs:1). *)
Definition token_eqb (a b : token) : bool :=
  match a, b with
  | TId x, TId y | TLife x, TLife y | TStr x, TStr y | TP x, TP y => String.eqb x y
  | TNum m, TNum n => N.eqb m n
  | _, _ => false
  end.

(** The closing bracket (any_variants.rs:1). *)
Definition closes (o c : string) : bool :=
  match o with
  | "(" => String.eqb c ")"
  | "[" => String.eqb c "]"
  | _ => String.eqb c "}"
  end.

(** Token trees out of tokens; [stack] are the groups that are open
    (any_variants.rs:1-2184). *)
Fixpoint grow (l : list token) (stack : list (string * list tt)) (cur : list tt)
  : option (list tt) :=
  match l with
  | [] => match stack with [] => Some (List.rev cur) | _ => None end
  | t :: r =>
      match t with
      | TP x =>
          if existsb (String.eqb x) ["("; "["; "{"] then grow r ((x, cur) :: stack) []
          else if existsb (String.eqb x) [")"; "]"; "}"] then
            match stack with
            | (o, up) :: stack =>
                if closes o x then grow r stack (G o (List.rev cur) :: up) else None
            | [] => None
            end
          else grow r stack (L t :: cur)
      | _ => grow r stack (L t :: cur)
      end
  end.
(** The token trees of a file (any_variants.rs:1-2184). *)
Definition trees (text : list string) : option (list tt) := grow (lex text) [] [].

(** ** Patterns for token trees *)

(** The trees before the first token [t], and those after it (any_variants.rs:13). *)
Fixpoint split_at (t : token) (l : list tt) : option (list tt * list tt) :=
  match l with
  | [] => None
  | x :: r =>
      let next := option_map (fun p => (x :: fst p, snd p)) (split_at t r) in
      match x with
      | L u => if token_eqb t u then Some ([], r) else next
      | _ => next
      end
  end.

(** What a pattern captures, and what follows what it matches.  In a pattern [$id],
    [$str], [$num] match one token of that kind, [$grp] a group, [$rest] everything
    up to the end of the group, [$upto] everything before the token that follows it
    in the pattern (e.g. any_variants.rs:13: [let $id = $upto ;]). *)
Fixpoint mt (fuel : nat) (p l : list tt) : option (list (list tt) * list tt) :=
  match fuel with
  | 0 => None
  | S f =>
      let more c p l := option_map (fun x => (c :: fst x, snd x)) (mt f p l) in
      match p with
      | [] => Some ([], l)
      | P "$" :: W k :: p' =>
          match k, l with
          | "id", W x :: r => more [W x] p' r
          | "str", L (TStr x) :: r => more [W x] p' r
          | "num", L (TNum n) :: r => more [L (TNum n)] p' r
          | "grp", G _ b :: r => more b p' r
          | "rest", _ => match p' with [] => Some ([l], []) | _ => None end
          | "upto", _ =>
              match p' with
              | L t :: p2 => match split_at t l with Some (a, r) => more a p2 r | None => None end
              | _ => None
              end
          | _, _ => None
          end
      | L t :: p' =>
          match l with
          | L u :: r => if token_eqb t u then mt f p' r else None
          | _ => None
          end
      | G o b :: p' =>
          match l with
          | G o' b' :: r =>
              if String.eqb o o' then
                match mt f b b' with
                | Some (c, []) => option_map (fun x => ((c ++ fst x)%list, snd x)) (mt f p' r)
                | _ => None
                end
              else None
          | _ => None
          end
      | R _ _ _ :: _ => None
      end
  end.
(** Matching at the start (any_variants.rs:13). *)
Definition starts (p : string) (l : list tt) : option (list (list tt) * list tt) :=
  match trees [p] with
  | Some p => mt 200 p l
  | None => None
  end.
(** Matching all of it (any_variants.rs:13). *)
Definition whole (p : string) (l : list tt) : option (list (list tt)) :=
  match starts p l with
  | Some (c, []) => Some c
  | _ => None
  end.
(** Whether it is exactly that (any_variants.rs:13). *)
Definition exactly (p : string) (l : list tt) : bool :=
  match whole p l with Some [] => true | _ => false end.
(** The first match anywhere on the top level (context.rs:51). *)
Fixpoint search (p : string) (l : list tt) : option (list (list tt)) :=
  match starts p l with
  | Some (c, _) => Some c
  | None => match l with [] => None | _ :: r => search p r end
  end.

(** The single name that was captured (any_variants.rs:13). *)
Definition the_name (l : list tt) : string := match l with [W x] => x | _ => "" end.

(** Pieces between commas (any_variants.rs:153). *)
Fixpoint commas (l : list tt) : list (list tt) :=
  match l with
  | [] => []
  | P "," :: r => [] :: commas r
  | x :: r => match commas r with [] => [[x]] | a :: b => (x :: a) :: b end
  end.

(** The arms of a [match]: patterns and bodies (any_variants.rs:209-212, 696). *)
Fixpoint arms_in (fuel : nat) (l : list tt) : option (list (list tt * list tt)) :=
  match fuel with
  | 0 => None
  | S f =>
      match l with
      | [] => Some []
      | _ =>
          match split_at (TP "=>") l with
          | Some (p, r) =>
              match r with
              | G "{" b :: P "," :: r' | G "{" b :: r' =>
                  option_map (cons (p, b)) (arms_in f r')
              | _ =>
                  match split_at (TP ",") r with
                  | Some (b, r') => option_map (cons (p, b)) (arms_in f r')
                  | None => Some [(p, r)]
                  end
              end
          | None => None
          end
      end
  end.
(** The arm whose pattern looks like that (any_variants.rs:210-211). *)
Fixpoint arm (p : string) (l : list (list tt * list tt)) : option (list tt) :=
  match l with
  | [] => None
  | (q, b) :: r => match whole p q with Some _ => Some b | None => arm p r end
  end.

(** ** Holes and [quote!] *)

(** The kinds of variants, any_variants.rs:2118-2121. *)
Inductive kind : Type := OfUnit | OfTuple.

(** What a variable of the macro holds: tokens, a string ([assoc_type],
    any_variants.rs:757), pieces for each variant ([names], 161), the arms of an
    [IteratorNext] or [IteratorNextBack] (1794-1820). *)
Inductive hole : Type :=
| HTokens (l : list tt)
| HString (x : string)
| HEach (s c : option (list tt))
| HNext (ty : string) (s c : option (list tt)).

(** Environments (any_variants.rs:13-17). *)
Definition env : Type := list (string * hole).
(** Looking a variable up, the last one first (any_variants.rs:758: [assoc_type]). *)
Fixpoint get (x : string) (e : env) : option hole :=
  match e with
  | [] => None
  | (y, h) :: r => if String.eqb x y then Some h else get x r
  end.

(** What [quote!] makes of tokens with holes [#x] and repetitions [#( .. )*]
    (any_variants.rs:165-179).  [k] is the kind of variant that a repetition is made
    for; the result is [Some None] when a hole has no piece for that kind.
    [next] gives the tokens of an [IteratorNext] (any_variants.rs:1799-1815).
    Attributes [#[..]] are dropped. *)
Fixpoint quote (fuel : nat) (next : string -> hole -> option (list tt)) (e : env)
  (k : option kind) (l : list tt) : option (option (list tt)) :=
  match fuel with
  | 0 => None
  | S f =>
      let app (a : option (list tt)) (r : list tt) :=
        match quote f next e k r, a with
        | Some (Some b), Some a => Some (Some (a ++ b)%list)
        | Some _, _ => Some None
        | None, _ => None
        end in
      let rep (sep : list token) (b r : list tt) :=
        match k with
        | Some _ => None
        | None =>
            match quote f next e (Some OfUnit) b, quote f next e (Some OfTuple) b with
            | Some s, Some c => app (Some [R sep s c]) r
            | _, _ => None
            end
        end in
      match l with
      | [] => Some (Some [])
      | P "#" :: G "[" _ :: r => quote f next e k r
      | P "#" :: G "(" b :: P "*" :: r => rep [] b r
      | P "#" :: G "(" b :: L t :: P "*" :: r => rep [t] b r
      | P "#" :: W x :: r =>
          match get x e with
          | Some (HTokens a) => app (Some a) r
          | Some (HEach s c) =>
              match k with
              | None => None
              | Some OfUnit => app s r
              | Some OfTuple => app c r
              end
          | Some (HNext ty s c) =>
              match next ty (HEach s c) with Some a => app (Some a) r | None => None end
          | _ => None
          end
      | P "#" :: _ => None
      | G o b :: r =>
          match quote f next e k b with
          | Some (Some b) => app (Some [G o b]) r
          | Some None => app None r
          | None => None
          end
      | t :: r => app (Some [t]) r
      end
  end.

(** ** Names that are made *)

(** [format_ident!] with names in braces (any_variants.rs:149, 757); [buf] is the name
    being read. *)
Fixpoint format_in (look : string -> option string) (buf : option string) (s : string)
  : option string :=
  match s, buf with
  | "", None => Some ""
  | "", Some _ => None
  | String "{" r, None => format_in look (Some "") r
  | String "}" r, Some x =>
      match look x, format_in look None r with
      | Some a, Some b => Some (a ++ b)
      | _, _ => None
      end
  | String c r, None => option_map (String c) (format_in look None r)
  | String c r, Some x => format_in look (Some (x ++ String c "")) r
  end.

(** ** The files *)

(** A function of the macro: the names of its parameters, and its body
    (any_variants.rs:753-758). *)
Record mfn : Type := MkMfn { mf_params : list string; mf_body : list tt }.

(** From the next group with the bracket [o] on (any_variants.rs:12). *)
Fixpoint to_group (o : string) (l : list tt) : option (list tt * list tt) :=
  match l with
  | [] => None
  | G o' b :: r => if String.eqb o o' then Some (b, r) else to_group o r
  | _ :: r => to_group o r
  end.

(** The functions on the top level of a file (any_variants.rs:12-2090). *)
Fixpoint functions (l : list tt) : list (string * mfn) :=
  match l with
  | [] => []
  | W "fn" :: r =>
      match r with
      | W x :: r' =>
          match to_group "(" r' with
          | Some (ps, r1) =>
              match to_group "{" r1 with
              | Some (b, _) =>
                  [(x, MkMfn (List.map (fun p => match p with W y :: _ => y | _ => "" end)
                                       (commas ps)) b)]
              | None => []
              end
          | None => []
          end
      | _ => []
      end ++ functions r
  | _ :: r => functions r
  end%list.

(** [const X: &str = ".."], any_variants.rs:6-7. *)
Fixpoint constants (l : list tt) : list (string * string) :=
  match l with
  | [] => []
  | _ :: r =>
      match starts "const $id : & str = $str ;" l with
      | Some ([x; y], _) => [(the_name x, the_name y)]
      | _ => []
      end ++ constants r
  end%list.

(** [core :: x] and [crate :: x] behind [toks!], context.rs:40-47. *)
Definition toks_path (prefix : string) (l : list tt) : list tt :=
  match l with
  | W "core" :: r => P "::" :: W "core" :: r
  | W "crate" :: r => P "::" :: W prefix :: r
  | _ => []
  end.
(** The table behind [toks!], context.rs:50-87. *)
Definition toks_table (prefix : string) (context : list tt) : list (string * list tt) :=
  match search "toks ! { pub ( crate ) struct Toks < 'a > { $rest } }" context with
  | Some [b] =>
      List.concat (List.map (fun p =>
        match whole "$id = $grp" p with
        | Some [x; path] => [(the_name x, toks_path prefix path)]
        | _ => []
        end) (commas b))
  | _ => []
  end.

(** What the functions of a file refer to: functions, constants, [cx.toks], the
    lifetime [cx.lt], and the whole file for its [impl ToTokens] (any_variants.rs:6-12,
    1799, 1832, lib.rs:33-36); [fi_bitset] is [opts.bitset.is_some()]
    (unit_variants.rs:23). *)
Record file : Type := MkFile {
  fi_fns : list (string * mfn);
  fi_consts : list (string * string);
  fi_toks : list (string * list tt);
  fi_lt : string;
  fi_trees : list tt;
  fi_bitset : bool
}.

(** An association list (any_variants.rs:6-7). *)
Fixpoint find {A} (x : string) (l : list (string * A)) : option A :=
  match l with
  | [] => None
  | (y, a) :: r => if String.eqb x y then Some a else find x r
  end.

(** The state of the functions of the macro: local variables; vectors that are pushed
    to; [output] (any_variants.rs:2094-2099); [fields.patterns] (2140); the variables
    of a [Complex] (2124-2136). *)
Record mstate : Type := MkState {
  st_env : env;
  st_vecs : env;
  st_items : list tt;
  st_impls : list tt;
  st_pats : hole;
  st_complex : env
}.

(** Changing parts of the state (any_variants.rs:13, 156, 163). *)
Definition bind (x : string) (h : hole) (s : mstate) : mstate :=
  MkState ((x, h) :: st_env s) (st_vecs s) (st_items s) (st_impls s) (st_pats s) (st_complex s).
(** See [bind] (any_variants.rs:1885). *)
Definition with_env (e : env) (s : mstate) : mstate :=
  MkState e (st_vecs s) (st_items s) (st_impls s) (st_pats s) (st_complex s).
(** See [bind] (any_variants.rs:773). *)
Definition with_vecs (v : env) (s : mstate) : mstate :=
  MkState (st_env s) v (st_items s) (st_impls s) (st_pats s) (st_complex s).
(** See [bind] (any_variants.rs:151, 215). *)
Definition with_output (items impls : list tt) (s : mstate) : mstate :=
  MkState (st_env s) (st_vecs s) items impls (st_pats s) (st_complex s).
(** See [bind] (any_variants.rs:28). *)
Definition with_pats (h : hole) (s : mstate) : mstate :=
  MkState (st_env s) (st_vecs s) (st_items s) (st_impls s) h (st_complex s).
(** See [bind] (any_variants.rs:53-59). *)
Definition with_complex (e : env) (s : mstate) : mstate :=
  MkState (st_env s) (st_vecs s) (st_items s) (st_impls s) (st_pats s) e.

(** The variables: local ones, then vectors (any_variants.rs:798). *)
Definition vars (s : mstate) : env := (st_env s ++ st_vecs s)%list.

(** [to_tokens] of [IteratorNext] and [IteratorNextBack], any_variants.rs:1799-1815,
    1832-1851. *)
Definition next_tokens (F : file) (ty : string) (h : hole) : option (list tt) :=
  match search ("impl ToTokens for " ++ ty ++ " { fn to_tokens ( & self , tokens : & mut TokenStream ) { let iter_next = & self . next ; tokens . extend ( quote ! $grp ) ; } }")
               (fi_trees F) with
  | Some [b] =>
      match quote 2000 (fun _ _ => None) [("iter_next", h)] None b with
      | Some a => a
      | None => None
      end
  | _ => None
  end.

(** [quote!] outside of repetitions and for one kind of variant
    (any_variants.rs:41, 1894). *)
Definition quoted (F : file) (e : env) (b : list tt) : option (list tt) :=
  match quote 2000 (next_tokens F) e None b with
  | Some a => a
  | None => None
  end.

(** What a field of [fields] brings into scope, any_variants.rs:2101-2110, and the
    fields of [Complex], 2124-2136. *)
Definition field_env (k : kind) (s : mstate) : env :=
  ([("name", HTokens [W "#name"]); ("var", HTokens [W "#var"]);
    ("index", HTokens [W "#index"])] ++
   match k with OfUnit => [] | OfTuple => st_complex s end)%list.

(** One more piece for the kind [k] (any_variants.rs:789); there may be one only. *)
Definition push (k : kind) (a : list tt) (h : hole) : option hole :=
  match k, h with
  | OfUnit, HEach None c => Some (HEach (Some a) c)
  | OfTuple, HEach s None => Some (HEach s (Some a))
  | OfUnit, HNext t None c => Some (HNext t (Some a) c)
  | OfTuple, HNext t s None => Some (HNext t s (Some a))
  | _, _ => None
  end.
(** Replacing a vector (any_variants.rs:789). *)
Fixpoint set_vec (x : string) (h : hole) (e : env) : env :=
  match e with
  | [] => []
  | (y, a) :: r => if String.eqb x y then (y, h) :: r else (y, a) :: set_vec x h r
  end.

(** The result of the first rule that matches (any_variants.rs:13-17). *)
Fixpoint first {A} (l : list (unit -> option A)) : option A :=
  match l with
  | [] => None
  | f :: r => match f Datatypes.tt with Some a => Some a | None => first r end
  end.

(** ** Expressions of the macro *)

(** A rule: when the pattern is all of the tokens, the result is made of what it
    captures (any_variants.rs:13). *)
Definition rule {A} (p : string) (f : list (list tt) -> option A) (l : list tt)
  : option (option A) :=
  option_map f (whole p l).
(** The first rule whose pattern matches decides (any_variants.rs:13-17). *)
Fixpoint by_rules {A} (rs : list (list tt -> option (option A))) (l : list tt) : option A :=
  match rs with
  | [] => None
  | r :: rs => match r l with Some a => a | None => by_rules rs l end
  end.

(** [match kind { .. }] inside a closure over the fields: the piece for each kind
    (any_variants.rs:209-212, 229-234, 361-376). *)
Definition piece_of (F : file) (s : mstate) (body : list tt) (k : kind) : option (list tt) :=
  match arms_in 50 body with
  | Some l =>
      match arm (match k with
                 | OfUnit => "Kind :: Simple"
                 | OfTuple => "Kind :: Complex ( Complex $grp )"
                 end) l with
      | Some b =>
          match whole "quote ! $grp" b with
          | Some [q] => quoted F (field_env k s ++ st_env s)%list q
          | _ => None
          end
      | None => None
      end
  | None => None
  end.
(** See [piece_of]: both kinds (any_variants.rs:209-212). *)
Definition pieces (F : file) (s : mstate) (body : list tt) : option hole :=
  match piece_of F s body OfUnit, piece_of F s body OfTuple with
  | Some a, Some b => Some (HEach (Some a) (Some b))
  | _, _ => None
  end.

(** Tokens in a hole (any_variants.rs:13). *)
Definition toks (l : list tt) : option hole := Some (HTokens l).
(** The same tokens for each variant (any_variants.rs:161). *)
Definition same (l : list tt) : option hole := Some (HEach (Some l) (Some l)).
(** A vector without elements (any_variants.rs:773). *)
Definition no_pieces : option hole := Some (HEach None None).

(** The pattern that [build_tuple_struct_pat] builds, any_variants.rs:92-139. *)
Definition variant_pat (arg : option string) : list tt :=
  [W "#ident"; P "::"; W "#var"] ++
  match arg with Some x => [G "(" [W x]] | None => [] end.

(** What variables are bound to.  A rule without captures gives its result at once;
    [HString ".."] marks what only where clauses use, so that using it otherwise
    fails. *)
Definition value_rules (F : file) (s : mstate) : list (list tt -> option (option hole)) :=
  let const p h := rule p (fun _ => h) in
  let unused := Some (HString "where") in
  [const "& cx . ast . ident" (toks [W "#ident"]);                (* any_variants.rs:13 *)
   const "& cx . ast . vis" (toks []);                            (* 143 *)
   const "cx . lt" (toks [L (TLife (fi_lt F))]);                  (* 760 *)
   const "& cx . lt" (toks [L (TLife (fi_lt F))]);                (* unit_variants.rs:134 *)
   rule "cx . toks . $id ( )" (fun c =>                           (* 15 *)
     match c with
     | [x] => option_map HTokens (find (the_name x) (fi_toks F))
     | _ => None
     end);
   rule "format_ident ! ( $str )" (fun c =>                       (* 149, 757 *)
     match c with
     | [x] =>
         option_map (fun y => HTokens [W y])
           (format_in (fun y => match get y (st_env s) with
                                | Some (HString z) => Some z
                                | _ => find y (fi_consts F)
                                end) None (the_name x))
     | _ => None
     end);
   const "format_ident ! ( ""_{}"" , index )" (toks [W "#name"]); (* 23 *)
   rule "syn :: Ident :: new ( $id , Span :: call_site ( ) )" (fun c => (* 758 *)
     match c with
     | [x] =>
         match get (the_name x) (st_env s) with
         | Some (HString y) => toks [W y]
         | _ => None
         end
     | _ => None
     end);
   const "fields . names ( )" (same [W "#name"]);                 (* 161, 2144-2147 *)
   const "& fields . patterns" (Some (st_pats s));                (* 227 *)
   rule "fields . iter ( ) . map ( | $id | match & f . kind { $rest } )" (fun c => (* 209 *)
     match c with
     | [x; b] => if String.eqb (the_name x) "f" then pieces F s b else None
     | _ => None
     end);
   rule "fields . iter ( ) . map ( | Field $grp | match kind { $rest } )" (fun c => (* 229 *)
     match c with [_; b] => pieces F s b | _ => None end);
   rule "fields . iter ( ) . map ( | Field $grp | match kind $grp , )" (fun c => (* 359 *)
     match c with [_; b] => pieces F s b | _ => None end);
   const "fields . complex ( ) . map $grp" no_pieces;             (* 187-189 *)
   const "fields . complex ( ) . map $grp . collect :: < Vec < _ > > ( )" no_pieces; (* 469-472 *)
   const "fields . len ( )" (toks [W "#count"]);                  (* 842 *)
   const "en . variants . len ( )" (toks [W "#count"]);           (* unit_variants.rs:13 *)
   rule "quote ! $grp" (fun c =>                                  (* 41 *)
     match c with [b] => option_map HTokens (quoted F (vars s) b) | _ => None end);
   const "& step_backward . where_clause" (toks []);              (* 804 *)
   const "step_backward . make_where_clause ( )" unused;          (* 729 *)
   const "if let Some ( lt ) = lt $grp else $grp" unused;         (* 731-735 *)
   const "& variant . ident" (toks [W "#var"]);                   (* 22 *)
   const "unnamed . unnamed . first ( ) . expect ( $str )" (toks [W "#element"]); (* 40 *)
   rule "build_tuple_struct_pat ( ident , var , Some ( syn :: Ident :: new ( $str , unnamed . span ( ) ) ) )"
     (fun c => match c with [x] => toks (variant_pat (Some (the_name x))) | _ => None end); (* 46-47 *)
   const "en . variants . iter ( ) . map ( | v | & v . ident ) . collect :: < Vec < _ > > ( )"
     (same [W "#var"]);                                           (* unit_variants.rs:160 *)
   rule "en . variants . iter ( ) . map ( | _ | quote ! $grp ) . collect :: < Vec < _ > > ( )"
     (fun c => match c with                                       (* unit_variants.rs:161-165 *)
               | [b] => match quoted F (vars s) b with Some a => same a | None => None end
               | _ => None
               end);
   const "en . variants . iter ( ) . enumerate ( ) . map ( | ( n , v ) | LitInt :: new ( & format ! ( ""{}"" , 1u128 << n ) , v . span ( ) ) ) . collect :: < Vec < _ > > ( )"
     (same [W "#number"])].                                       (* unit_variants.rs:406-411 *)

(** Vectors that are made here, any_variants.rs:770-774, unit_variants.rs:14. *)
Definition vector_rules : list (list tt -> option (option hole)) :=
  let const p h := rule p (fun _ => h) in
  [const "Vec :: new ( )" no_pieces;
   const "Vec :: with_capacity ( count )" no_pieces;
   const "IteratorNext :: default ( )" (Some (HNext "IteratorNext" None None));
   const "IteratorNextBack :: default ( )" (Some (HNext "IteratorNextBack" None None))].

(** ** Statements of the macro *)

(** The arguments of a call: variables for the callee, the vectors lent to it
    (any_variants.rs:153, 776-783).  [cx], [en], [fields] and [output] are the same
    for all functions. *)
Fixpoint arguments (s : mstate) (params : list string) (args : list (list tt))
  : option (env * list string) :=
  match params, args with
  | "" :: ps, _ => arguments s ps args
  | [], [] => Some ([], [])
  | [], [[]] => Some ([], [])
  | x :: ps, a :: r =>
      match arguments s ps r with
      | Some (e, v) =>
          let named y :=
            if existsb (String.eqb y) ["cx"; "en"; "fields"] then
              if String.eqb x y then Some (e, v) else None
            else option_map (fun h => ((x, h) :: e, v)) (get y (vars s)) in
          by_rules
            [rule "& mut output" (fun _ =>
               if String.eqb x "output" then Some (e, v) else None);
             rule "& mut $id" (fun c =>
               match c with
               | [y] =>
                   if String.eqb x (the_name y) && match get x (st_vecs s) with Some _ => true | None => false end
                   then Some (e, x :: v) else None
               | _ => None
               end);
             rule "Some ( cx . lt )" (fun _ => Some ((x, HString "where") :: e, v));
             rule "None" (fun _ => Some ((x, HString "where") :: e, v));
             rule "& $id" (fun c => match c with [y] => named (the_name y) | _ => None end);
             rule "$id" (fun c => match c with [y] => named (the_name y) | _ => None end);
             rule "$str" (fun c =>
               match c with [y] => Some ((x, HString (the_name y)) :: e, v) | _ => None end)] a
      | None => None
      end
  | _, _ => None
  end.

(** The values of vectors that were lent (any_variants.rs:776-783). *)
Fixpoint give_back (lent : list string) (from to : env) : option env :=
  match lent with
  | [] => Some to
  | x :: r =>
      match get x from with
      | Some h => give_back r from (set_vec x h to)
      | None => None
      end
  end.

(** Tokens behind a variable (any_variants.rs:425). *)
Definition tokens_of (s : mstate) (x : string) : option (list tt) :=
  match get x (vars s) with Some (HTokens l) => Some l | _ => None end.

(** The body of a function of the macro: the state afterwards, and what it returns
    inside of [Ok].  [k] is the kind of variant inside a loop over the variants. *)
Fixpoint run (fuel : nat) (F : file) (k : option kind) (s : mstate) (l : list tt)
  : option (mstate * list (list tt)) :=
  match fuel with
  | 0 => None
  | S f =>
      let next s r := run f F k s r in
      (* a block: its variables are local to it (any_variants.rs:158) *)
      let block k b s :=
        match run f F k s b with
        | Some (s', []) => Some (with_env (st_env s) s', st_env s')
        | _ => None
        end in
      (* once for each kind of variant (any_variants.rs:690, 1885) *)
      let loop e b r :=
        match block (Some OfUnit) b (with_env (e OfUnit s ++ st_env s)%list s) with
        | Some (s1, _) =>
            match block (Some OfTuple) b (with_env (e OfTuple s1 ++ st_env s)%list s1) with
            | Some (s2, _) => next (with_env (st_env s) s2) r
            | None => None
            end
        | None => None
        end in
      let call g args :=
        match find g (fi_fns F) with
        | Some fn =>
            match arguments s (mf_params fn) (commas args) with
            | Some (e, lent) =>
                match run f F None
                        (MkState e (List.filter (fun p => existsb (String.eqb (fst p)) lent) (st_vecs s))
                                 (st_items s) (st_impls s) (st_pats s) (st_complex s)) (mf_body fn) with
                | Some (s', out) =>
                    option_map (fun v =>
                      (MkState (st_env s) v (st_items s') (st_impls s') (st_pats s') (st_complex s'), out))
                      (give_back lent (st_vecs s') (st_vecs s))
                | None => None
                end
            | None => None
            end
        | None => None
        end in
      let pushed x b r :=
        match k with
        | Some k =>
            match get x (st_vecs s), quoted F (vars s) b with
            | Some h, Some a =>
                match push k a h with
                | Some h => next (with_vecs (set_vec x h (st_vecs s)) s) r
                | None => None
                end
            | _, _ => None
            end
        | None => None
        end in
      let push_pat a r :=
        match k with
        | Some k =>
            match push k a (st_pats s) with Some h => next (with_pats h s) r | None => None end
        | None => None
        end in
      let let_ x rhs r :=
        match by_rules vector_rules rhs with
        | Some h => next (with_vecs ((x, h) :: st_vecs s) s) r
        | None =>
            match by_rules (value_rules F s) rhs with
            | Some h => next (bind x h s) r
            | None => None
            end
        end in
      (* the statements that can start here; the first that does is taken *)
      let stmt p (g : list (list tt) -> list tt -> option (mstate * list (list tt))) :=
        fun _ : unit => option_map (fun x => g (fst x) (snd x)) (starts p l) in
      let skip p := stmt p (fun _ r => next s r) in
      match l with
      | [] => Some (s, [])
      | G "{" b :: r =>
          match block k b s with Some (s', _) => next s' r | None => None end
      | _ =>
          match first
            [stmt "let Output { impls , items } = output ;" (fun _ r =>   (* any_variants.rs:410 *)
               next (bind "impls" (HTokens (st_impls s)) (bind "items" (HTokens (st_items s)) s)) r);
             stmt "let mut output = Output :: default ( ) ;" (fun _ r =>  (* 151 *)
               next (with_output [] [] s) r);
             skip "let mut fields = Fields :: default ( ) ;";             (* 19 *)
             stmt "let ( ty , _ ) = determine_bits ( cx , en ) ? ;" (fun _ r => (* unit_variants.rs:380 *)
               next (bind "ty" (HTokens [W "#ty"]) s) r);
             stmt "let kind = match & variant . fields $grp ;" (fun c r => (* 25-65 *)
               match c, k with
               | [b], Some k =>
                   match arms_in 50 b with
                   | Some l =>
                       match arm (match k with
                                  | OfUnit => "syn :: Fields :: Unit"
                                  | OfTuple => "syn :: Fields :: Unnamed ( unnamed )"
                                  end) l with
                       | Some b =>
                           match block (Some k) b s with
                           | Some (s', e) =>
                               let complex := List.filter (fun p => existsb (String.eqb (fst p))
                                 ["element"; "map_storage"; "as_map_storage"; "set_storage"; "as_set_storage"]) e in
                               next (match k with OfUnit => s' | OfTuple => with_complex complex s' end) r
                           | None => None
                           end
                       | None => None
                       end
                   | None => None
                   end
               | _, _ => None
               end);
             skip "if unnamed . unnamed . len ( ) > 1 $grp";              (* 32-38 *)
             stmt "let ( $id , $id ) = $id ( $rest ) ? ;" (fun c r =>     (* 76-77 *)
               match c with
               | [x; y; g; args] =>
                   match call (the_name g) args with
                   | Some (s', [a; b]) =>
                       next (bind (the_name y) (HTokens b) (bind (the_name x) (HTokens a) s')) r
                   | _ => None
                   end
               | _ => None
               end);
             stmt "let $id = $id ( $rest ) ? ;" (fun c r =>               (* unit_variants.rs:20 *)
               match c with
               | [x; g; args] =>
                   match call (the_name g) args with
                   | Some (s', [a]) => next (bind (the_name x) (HTokens a) s') r
                   | _ => None
                   end
               | _ => None
               end);
             stmt "let $id = if opts . bitset . is_some ( ) { $id ( $rest ) ? } else { $id ( $rest ) ? } ;"
               (fun c r =>                                                (* unit_variants.rs:23-27 *)
               match c with
               | [x; g; args; h; args'] =>
                   match (if fi_bitset F then call (the_name g) args else call (the_name h) args') with
                   | Some (s', [a]) => next (bind (the_name x) (HTokens a) s') r
                   | _ => None
                   end
               | _ => None
               end);
             stmt "let mut $id = $upto ;" (fun c r =>                     (* 770 *)
               match c with [x; rhs] => let_ (the_name x) rhs r | _ => None end);
             stmt "let $id = $upto ;" (fun c r =>                         (* 13 *)
               match c with [x; rhs] => let_ (the_name x) rhs r | _ => None end);
             stmt "for ( index , variant ) in en . variants . iter ( ) . enumerate ( ) $grp"
               (fun c r => match c with [b] => loop (fun _ _ => []) b r | _ => None end); (* 21 *)
             stmt "for ( index , _ ) in en . variants . iter ( ) . enumerate ( ) { names . push ( format_ident ! ( ""_{}"" , index ) ) ; }"
               (fun _ r =>                                                (* unit_variants.rs:16-18 *)
                  match get "names" (st_vecs s) with
                  | Some (HEach None None) =>
                      next (with_vecs (set_vec "names" (HEach (Some [W "#name"]) (Some [W "#name"])) (st_vecs s)) s) r
                  | _ => None
                  end);
             stmt "for Field $grp in fields $grp" (fun c r =>             (* 682-690 *)
               match c with [_; b] => loop field_env b r | _ => None end);
             stmt "match kind $grp" (fun c r =>                           (* 691 *)
               match c, k with
               | [b], Some k' =>
                   match arms_in 50 b with
                   | Some l =>
                       match arm (match k' with
                                  | OfUnit => "Kind :: Simple"
                                  | OfTuple => "Kind :: Complex ( Complex $grp )"
                                  end) l with
                       | Some b =>
                           match block k b s with Some (s', _) => next s' r | None => None end
                       | None => None
                       end
                   | None => None
                   end
               | _, _ => None
               end);
             stmt "output . items . extend ( quote ! $grp ) ;" (fun c r => (* 215 *)
               match c with
               | [b] =>
                   match quoted F (vars s) b with
                   | Some a => next (with_output (st_items s ++ a)%list (st_impls s) s) r
                   | None => None
                   end
               | _ => None
               end);
             stmt "output . impls . extend ( quote ! $grp ) ;" (fun c r => (* 163 *)
               match c with
               | [b] =>
                   match quoted F (vars s) b with
                   | Some a => next (with_output (st_items s) (st_impls s ++ a)%list s) r
                   | None => None
                   end
               | _ => None
               end);
             stmt "fields . patterns . push ( build_tuple_struct_pat ( ident , var , None ) ) ;"
               (fun _ r => push_pat (variant_pat None) r);                (* 27-29 *)
             stmt "fields . patterns . push ( pat ) ;" (fun _ r =>        (* 49 *)
               match tokens_of s "pat" with Some a => push_pat a r | None => None end);
             skip "fields . fields . push ( Field { span : variant . span ( ) , index , name , var , kind , } ) ;"; (* 67-73 *)
             skip "where_clause . predicates . push $grp ;";              (* 737-739 *)
             skip "step_backward . make_where_clause ( ) . predicates . push $grp ;"; (* 799-802 *)
             stmt "$id . push ( quote ! $grp ) ;" (fun c r =>             (* 789 *)
               match c with [x; b] => pushed (the_name x) b r | _ => None end);
             stmt "$id . push ( quote ! $grp , ) ;" (fun c r =>           (* 1916-1918 *)
               match c with [x; b] => pushed (the_name x) b r | _ => None end);
             stmt "$id . next . push ( quote ! $grp ) ;" (fun c r =>      (* 694 *)
               match c with [x; b] => pushed (the_name x) b r | _ => None end);
             stmt "$id ( $rest ) ? ;" (fun c r =>                         (* 153-159 *)
               match c with
               | [g; args] =>
                   match call (the_name g) args with
                   | Some (s', []) => next s' r
                   | _ => None
                   end
               | _ => None
               end);
             skip "Kind :: Simple";                                       (* 30 *)
             skip "Kind :: Complex ( Complex { element , map_storage , as_map_storage , set_storage , as_set_storage , } )"; (* 53-59 *)
             skip "Ok ( ( ) )";                                           (* 745 *)
             stmt "Ok ( ( $id , $id ) )" (fun c r =>                      (* 425 *)
               match c, r with
               | [x; y], [] =>
                   match tokens_of s (the_name x), tokens_of s (the_name y) with
                   | Some a, Some b => Some (s, [a; b])
                   | _, _ => None
                   end
               | _, _ => None
               end);
             stmt "Ok ( quote ! $grp )" (fun c r =>                       (* 79 *)
               match c, r with
               | [b], [] => option_map (fun a => (s, [a])) (quoted F (vars s) b)
               | _, _ => None
               end)] with
          | Some r => r
          | None => None
          end
      end
  end.

(** The items in [const _: () = { .. };] that [implement] returns
    (any_variants.rs:79-89, unit_variants.rs:32-44). *)
Definition implement (F : file) : option (list tt) :=
  match find "implement" (fi_fns F) with
  | Some fn =>
      match run 500 F None (MkState [] [] [] [] (HEach None None) []) (mf_body fn) with
      | Some (_, [a]) =>
          match whole "const _ : ( ) = { $rest } ;" a with
          | Some [b] => Some b
          | _ => None
          end
      | _ => None
      end
  | None => None
  end.

(** A file of the macro, given the prefix of [crate] paths and the lifetime of
    lib.rs:33-36. *)
Definition the_file (prefix lt : string) (bitset : bool) (context text : list string)
  : option file :=
  match trees context, trees text with
  | Some c, Some t => Some (MkFile (functions t) (constants t) (toks_table prefix c) lt t bitset)
  | _, _ => None
  end.
