(** Running the front end of the derive macro as text: attributes
    (fixed-map-derive/src/attrs.rs, symbol.rs) and dispatch (lib.rs:39-73).

    The trees are those of [SrcParse].  [syn] is surroundings: attributes are given by their
    paths and items, and [parse_nested_meta] calls the closure for one item after the other.
    Blocks do not end the scope of a name, which is of no importance here as no name is used
    twice in a function; closures are run with the variables of the function around them. *)
Require Import List Arith NArith Bool String.
Import ListNotations.
From Verif Require Import Std Traits DeriveUnit Key Front DeriveQuote.
From Verif Require Import DeriveText AttrText SrcLex SrcParse SrcFiles.
Open Scope string_scope.

(** An item of [#[key(..)]]: its path, [None] if there is none where one should be, and whether
    further tokens follow before the comma (attrs.rs:13-21). *)
Record titem : Type := MkItem { ti_path : option string; ti_tail : bool }.
(** An attribute: its path, and its items if it has a list (attrs.rs:8-13). *)
Record tattr : Type := MkAttr { ta_path : string; ta_items : option (list titem) }.
(** The input of the macro (lib.rs:31). *)
Record tinput : Type := MkTInput { tn_attrs : list tattr; tn_data : data }.

(** Errors: of [syn], with a message of the macro, or of the generators (attrs.rs:17, 24,
    lib.rs:60). *)
Inductive terr : Type := ESyn | EMsg (x : string) | EGen (e : error).

(** Values (attrs.rs:5-29, lib.rs:50-73). *)
Inductive fv : Type :=
| FCx
| FAst
| FAttrs (l : list tattr)
| FAttr (a : tattr)
| FName (x : string)
| FMeta (x : string)
| FSpan
| FStr (x : string)
| FUnit
| FBool (b : bool)
| FError (e : terr)
| FOk (v : fv)
| FErr (v : fv)
| FSome (v : fv)
| FOpts (bitset : bool)
| FClosure (x : string) (body : expr)
| FData (d : data)
| FEnum (vs : list vfields)
| FVariants (vs : list vfields)
| FVariant (f : vfields)
| FFields (f : vfields)
| FGen (t : tokens)
| FErrors (l : list terr).

(** How an expression ends: with a value, with [return], with [continue], with a panic; or it
    is not understood (attrs.rs:10, 17). *)
Inductive ending : Type := Val (v : fv) | Ret (v : fv) | Next | Dead | Stuck.
(** Variables (attrs.rs:6). *)
Definition vars : Type := list (string * fv).
(** An ending with what variables hold and the errors in [cx] (context.rs:124). *)
Definition ended : Type := (ending * vars * list terr)%type.

(** A symbol (symbol.rs:8-9). *)
Definition symbol (x : string) : option string :=
  match trees text_derive_symbol with
  | Some t =>
      match search ("const " ++ x ++ " : Symbol = Symbol ( $str ) ;") t with
      | Some [y] => Some (the_name y)
      | _ => None
      end
  | None => None
  end.

(** The functions: [parse] of attrs.rs, and of lib.rs those that follow line 49.  [rest] is
    what [storage_derive] does from line 39 on; its last lines (lib.rs:46-47), which make a
    [compile_error!] of each error, are replaced by [errors]. *)
Definition rest_text : list string :=
  (["fn rest(cx: &Ctxt) {"] ++ firstn 7 (skipn 38 text_derive_lib) ++ ["errors }"])%list.
(** See [rest_text] (attrs.rs:5, lib.rs:50, 65). *)
Definition front_items : list item := program [text_derive_attrs; skipn 49 text_derive_lib; rest_text].
(** A function by its name (attrs.rs:5, lib.rs:50, 65). *)
Fixpoint front_fn (x : string) (l : list item) : option (list pat * expr) :=
  match l with
  | [] => None
  | IFn (Fn y NoSelf ps b) :: r => if String.eqb x y then Some (ps, b) else front_fn x r
  | _ :: r => front_fn x r
  end.

(** [for] (attrs.rs:8, lib.rs:66). *)
Fixpoint each_of (body : fv -> vars -> list terr -> ended) (l : list fv) (e : vars) (s : list terr) : ended :=
  match l with
  | [] => (Val FUnit, e, s)
  | x :: r =>
      match body x e s with
      | (Val _, e, s) | (Next, e, s) => each_of body r e s
      | o => o
      end
  end.
(** [parse_nested_meta] (attrs.rs:13; [syn] 2: ParseNestedMeta, parse_nested_meta): the path of
    an item, then the closure, then nothing more or a comma. *)
Fixpoint nested (call : fv -> vars -> list terr -> ended) (l : list titem) (e : vars) (s : list terr) : ended :=
  match l with
  | [] => (Val (FOk FUnit), e, s)
  | MkItem None _ :: _ => (Val (FErr (FError ESyn)), e, s)
  | MkItem (Some x) tail :: r =>
      match call (FMeta x) e s with
      | (Val (FOk _), e, s) | (Ret (FOk _), e, s) =>
          if tail then (Val (FErr (FError ESyn)), e, s) else nested call r e s
      | (Val (FErr v), e, s) | (Ret (FErr v), e, s) => (Val (FErr v), e, s)
      | (Dead, e, s) => (Dead, e, s)
      | (_, e, s) => (Stuck, e, s)
      end
  end.
(** What a generator answers (lib.rs:55, 57). *)
Definition generated (r : gen * list error) (e : vars) (s : list terr) : ended :=
  let s := (s ++ List.map EGen (snd r))%list in
  match fst r with
  | GenOk t => (Val (FOk (FGen t)), e, s)
  | GenErr => (Val (FErr FUnit), e, s)
  | GenPanic => (Dead, e, s)
  end.

(** Expressions, statement by statement (attrs.rs:5-29, lib.rs:39-73).  Functions are run with
    variables of their own. *)
Fixpoint eval (fuel : nat) (i : tinput) (p : list item) (e : vars) (s : list terr) (x : expr) {struct fuel} : ended :=
  match fuel with
  | 0 => (Stuck, e, s)
  | S n =>
      let ev := eval n i p in
      let value (x : expr) (e : vars) (s : list terr) (k : fv -> vars -> list terr -> ended) : ended :=
        match ev e s x with (Val v, e, s) => k v e s | o => o end in
      let call (f : string) (args : list fv) (e : vars) (s : list terr) : ended :=
        match front_fn f p with
        | Some ([PName y], b) =>
            match args with
            | [v] =>
                match ev [(y, v)] s b with
                | (Val v, _, s) | (Ret v, _, s) => (Val v, e, s)
                | (Dead, _, s) => (Dead, e, s)
                | (_, _, s) => (Stuck, e, s)
                end
            | _ => (Stuck, e, s)
            end
        | _ => (Stuck, e, s)
        end in
      match x with
      | EPath ["continue"] => (Next, e, s)
      | EPath [y] => match find y e with Some v => (Val v, e, s) | None => (Stuck, e, s) end
      | EPath ["symbol"; y] =>
          match symbol y with Some z => (Val (FName z), e, s) | None => (Stuck, e, s) end
      | EBool b => (Val (FBool b), e, s)
      | EStr y => (Val (FStr y), e, s)
      | ETup [] => (Val FUnit, e, s)
      | EUnary "&" x => value x e s (fun v e s => (Val v, e, s))
      | EUnary "!" x =>
          value x e s (fun v e s => match v with FBool b => (Val (FBool (negb b)), e, s) | _ => (Stuck, e, s) end)
      | EField x f =>
          value x e s (fun v e s =>
            match v, f with
            | FCx, "ast" => (Val FAst, e, s)
            | FAst, "attrs" => (Val (FAttrs (tn_attrs i)), e, s)
            | FAst, "data" => (Val (FData (tn_data i)), e, s)
            | FMeta y, "path" => (Val (FName y), e, s)
            | FMeta y, "input" => (Val (FMeta y), e, s)
            | FEnum vs, "variants" => (Val (FVariants vs), e, s)
            | FVariant f, "fields" => (Val (FFields f), e, s)
            | _, _ => (Stuck, e, s)
            end)
      | EBinary op a b =>
          value a e s (fun v e s => value b e s (fun w e s =>
            match v, w, op with
            | FName y, FName z, "==" => (Val (FBool (String.eqb y z)), e, s)
            | FName y, FName z, "!=" => (Val (FBool (negb (String.eqb y z))), e, s)
            | _, _, _ => (Stuck, e, s)
            end))
      | EAssign "=" (EField (EPath [y]) "bitset") b =>
          value b e s (fun v e s =>
            match v, find y e with
            | FSome _, Some (FOpts _) => (Val FUnit, (y, FOpts true) :: e, s)
            | _, _ => (Stuck, e, s)
            end)
      | EIf c a b =>
          value c e s (fun v e s =>
            match v with
            | FBool true => ev e s a
            | FBool false => ev e s b
            | _ => (Stuck, e, s)
            end)
      | EIfLet (PCtor q [PName y]) c a b =>
          value c e s (fun v e s =>
            match q, v with
            | ["Err"], FErr w | ["Ok"], FOk w => ev ((y, w) :: e) s a
            | ["Err"], FOk _ | ["Ok"], FErr _ => ev e s b
            | ["Data"; "Enum"], FData (DataEnum vs) => ev ((y, FEnum vs) :: e) s a
            | ["Data"; "Enum"], FData _ => ev e s b
            | _, _ => (Stuck, e, s)
            end)
      | EFor (PName y) c b =>
          value c e s (fun v e s =>
            let body x e s := ev ((y, x) :: e) s b in
            match v with
            | FAttrs l => each_of body (List.map FAttr l) e s
            | FVariants l => each_of body (List.map FVariant l) e s
            | _ => (Stuck, e, s)
            end)
      | EClosure [PName y] b => (Val (FClosure y b), e, s)
      | EReturn (Some x) => value x e s (fun v e s => (Ret v, e, s))
      | EQuestion x =>
          value x e s (fun v e s =>
            match v with
            | FOk w => (Val w, e, s)
            | FErr w => (Ret (FErr w), e, s)
            | _ => (Stuck, e, s)
            end)
      | EMacro "matches" [x; EPath ["Fields"; "Unit"]] =>
          value x e s (fun v e s =>
            match v with
            | FFields FieldsUnit => (Val (FBool true), e, s)
            | FFields _ => (Val (FBool false), e, s)
            | _ => (Stuck, e, s)
            end)
      | EMethod x m args =>
          value x e s (fun v e s =>
            match v, m, args with
            | FAttr a, "path", [] => (Val (FName (ta_path a)), e, s)
            | FAttr a, "parse_nested_meta", [c] =>
                value c e s (fun c e s =>
                  match c, ta_items a with
                  | FClosure y b, Some l => nested (fun x e s => ev ((y, x) :: e) s b) l e s
                  | FClosure _ _, None => (Val (FErr (FError ESyn)), e, s)
                  | _, _ => (Stuck, e, s)
                  end)
            | FMeta _, "span", [] | FAst, "span", [] => (Val FSpan, e, s)
            | FCx, "error", [a] =>
                value a e s (fun v e s =>
                  match v with FError r => (Val FUnit, e, (s ++ [r])%list) | _ => (Stuck, e, s) end)
            | FCx, "span_error", [a; b] =>
                value a e s (fun _ e s => value b e s (fun v e s =>
                  match v with FStr y => (Val FUnit, e, (s ++ [EMsg y])%list) | _ => (Stuck, e, s) end))
            | FCx, "into_errors", [] => (Val (FErrors s), e, s)
            | FGen t, "into", [] => (Val (FGen t), e, s)
            | _, _, _ => (Stuck, e, s)
            end)
      | ECall (EPath f) args =>
          match f, args with
          | ["Opts"; "default"], [] => (Val (FOpts false), e, s)
          | ["Some"], [x] => value x e s (fun v e s => (Val (FSome v), e, s))
          | ["Ok"], [x] => value x e s (fun v e s => (Val (FOk v), e, s))
          | ["Err"], [x] => value x e s (fun v e s => (Val (FErr v), e, s))
          | ["syn"; "Error"; "new"], [a; b] =>
              value a e s (fun _ e s => value b e s (fun v e s =>
                match v with FStr y => (Val (FError (EMsg y)), e, s) | _ => (Stuck, e, s) end))
          | ["attrs"; g], [x] | [g], [x] => value x e s (fun v e s => call g [v] e s)
          | ["unit_variants"; "implement"], [c; o; x] =>
              value c e s (fun c e s => value o e s (fun o e s => value x e s (fun v e s =>
                match c, o, v with
                | FCx, FOpts b, FEnum vs => generated (unit_implement b vs []) e s
                | _, _, _ => (Stuck, e, s)
                end)))
          | ["any_variants"; "implement"], [c; x] =>
              value c e s (fun c e s => value x e s (fun v e s =>
                match c, v with
                | FCx, FEnum vs => generated (any_implement vs []) e s
                | _, _ => (Stuck, e, s)
                end))
          | _, _ => (Stuck, e, s)
          end
      | EBlock l =>
          (fix block (l : list stmt) (e : vars) (s : list terr) : ended :=
             match l with
             | [] => (Val FUnit, e, s)
             | [STail x] => ev e s x
             | SLet (PName y) x :: r => value x e s (fun v e s => block r ((y, v) :: e) s)
             | SSemi x :: r => value x e s (fun _ e s => block r e s)
             | _ => (Stuck, e, s)
             end) l e s
      | _ => (Stuck, e, s)
      end
  end.

(** A function with the context (attrs.rs:5, lib.rs:39, 50). *)
Definition front_call (f : string) (i : tinput) : option (ending * list terr) :=
  match front_fn f front_items with
  | Some ([PName y], b) => let '(o, _, s) := eval 40 i front_items [(y, FCx)] [] b in Some (o, s)
  | _ => None
  end.

(** [attrs::parse]: whether [bitset] is set, and the errors (attrs.rs:5-29). *)
Definition parse_text (i : tinput) : option (bool * list terr) :=
  match front_call "parse" i with
  | Some (Val (FOk (FOpts b)), s) => Some (b, s)
  | _ => None
  end.
(** What the macro makes of an input: code, errors, or a panic (lib.rs:39-48). *)
Inductive made : Type := MadeCode (t : tokens) | MadeErrors (l : list terr) | MadePanic.
(** See [made] (lib.rs:39-48). *)
Definition derive_text (i : tinput) : option made :=
  match front_call "rest" i with
  | Some (Ret (FGen t), _) => Some (MadeCode t)
  | Some (Val (FErrors l), _) => Some (MadeErrors l)
  | Some (Dead, _) => Some MadePanic
  | _ => None
  end.
