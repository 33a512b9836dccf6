(** The front end of [#[derive(Key)]]: attribute parsing, dispatch, error
    collection (fixed-map-derive/src/{lib,attrs,context,any_variants}.rs), and
    what the compiler makes of the result. *)
Require Import List Arith NArith Bool.
Import ListNotations.
From Verif Require Import Std Traits DeriveUnit Key.

(** One item inside [#[key(...)]], as seen by [syn]'s [parse_nested_meta]
    (attrs.rs:13-21): [bitset], possibly followed by further tokens before the
    next comma; another path; or tokens that are no path. *)
Inductive item : Type :=
| IBitset (tail : bool)
| IOther
| IBadPath.

(** An attribute of the input (attrs.rs:8-11): one whose path is not [key],
    [#[key]] or [#[key = ..]] without a list, or [#[key(..)]]. *)
Inductive attr : Type :=
| AttrOther
| AttrKeyBare
| AttrKey (items : list item).

(** [syn::Fields] of a variant (any_variants.rs:25-64).  A field type is [Some t]
    for the types of Key.v and [None] for types that do not implement [Key]. *)
Inductive vfields : Type :=
| FieldsUnit
| FieldsUnnamed (tys : list (option kty))
| FieldsNamed.

(** [syn::Data] (lib.rs:53). *)
Inductive data : Type :=
| DataEnum (vs : list vfields)
| DataStruct
| DataUnion.

(** [syn::DeriveInput] (lib.rs:30).  Simplifications: names, visibility and
    discriminants do not matter; generics are absent and the type is [Copy], as
    the generated [impl] and the [Key] trait require. *)
Record input : Type := MkInput { in_attrs : list attr; in_data : data }.

(** Errors recorded in the context: attrs.rs:23-25, lib.rs:60,
    any_variants.rs:34-37, any_variants.rs:61, unit_variants.rs:541-544. *)
Inductive error : Type :=
| ErrAttr
| ErrNotEnum
| ErrManyFields
| ErrNamedFields
| ErrTooMany (n : N).

(** [parse_nested_meta] of [syn] with the closure of attrs.rs:13-21: whether
    [opts.bitset] is set afterwards, and whether an error was returned.  Items
    after an error are not looked at; [bitset] is recorded before the tokens
    following it are rejected. *)
Fixpoint parse_nested_meta (items : list item) (bitset : bool) : bool * bool :=
  match items with
  | [] => (bitset, true)
  | IBitset false :: r => parse_nested_meta r true
  | IBitset true :: _ => (true, false)
  | IOther :: _ | IBadPath :: _ => (bitset, false)
  end.

(** [attrs::parse], attrs.rs:5-29: [opts.bitset] and the errors recorded.  It
    always returns [Ok]. *)
Fixpoint attrs_parse (l : list attr) (bitset : bool) (errors : list error) : bool * list error :=
  match l with
  | [] => (bitset, errors)
  | AttrOther :: r => attrs_parse r bitset errors
  | AttrKeyBare :: r => attrs_parse r bitset (errors ++ [ErrAttr])
  | AttrKey items :: r =>
      let '(b, ok) := parse_nested_meta items bitset in
      attrs_parse r b (if ok then errors else errors ++ [ErrAttr])
  end.

(** [is_all_unit_variants], lib.rs:65-73. *)
Fixpoint is_all_unit_variants (vs : list vfields) : bool :=
  match vs with
  | [] => true
  | FieldsUnit :: r => is_all_unit_variants r
  | _ => false
  end.

(** [Field] and [Kind], any_variants.rs:2099-2129: a field for a unit variant or for an
    element type. *)
Inductive kind : Type :=
| KindSimple
| KindComplex (ty : option kty).

(** Generated code: unit_variants.rs:31-44 for [n] variants, with a bitset or an
    array; any_variants.rs:78-90 with one field and one pattern per listed
    variant index. *)
Inductive tokens : Type :=
| TokUnit (bitset : bool) (n : nat)
| TokAny (fields : list (nat * kind)).

(** Result of a generator: tokens, [Err(())], or a panic. *)
Inductive gen : Type :=
| GenOk (t : tokens)
| GenErr
| GenPanic.

(** The loop of [any_variants::implement], any_variants.rs:21-73: fields pushed
    and errors recorded; [None] when [expect] panics (any_variants.rs:41). *)
Fixpoint any_loop (vs : list vfields) (index : nat) (fields : list (nat * kind)) (errors : list error)
  : option (list (nat * kind)) * list error :=
  match vs with
  | [] => (Some fields, errors)
  | FieldsUnit :: r => any_loop r (S index) (fields ++ [(index, KindSimple)]) errors
  | FieldsUnnamed (_ :: _ :: _) :: r => any_loop r (S index) fields (errors ++ [ErrManyFields])
  | FieldsUnnamed [] :: _ => (None, errors)
  | FieldsUnnamed [ty] :: r => any_loop r (S index) (fields ++ [(index, KindComplex ty)]) errors
  | FieldsNamed :: r => any_loop r (S index) fields (errors ++ [ErrNamedFields])
  end.

(** [any_variants::implement], any_variants.rs:12-91.  The [syn::parse2] calls
    in the generators (any_variants.rs:737 and similar) parse fixed token
    sequences and do not fail. *)
Definition any_implement (vs : list vfields) (errors : list error) : gen * list error :=
  match any_loop vs 0 [] errors with
  | (Some fields, errors') => (GenOk (TokAny fields), errors')
  | (None, errors') => (GenPanic, errors')
  end.

(** [unit_variants::implement], unit_variants.rs:9-45, and [determine_bits],
    unit_variants.rs:533-548. *)
Definition unit_implement (bitset : bool) (vs : list vfields) (errors : list error)
  : gen * list error :=
  let n := N.of_nat (length vs) in
  if bitset then
    match determine_bits n with
    | Some _ => (GenOk (TokUnit true (length vs)), errors)
    | None => (GenErr, errors ++ [ErrTooMany n])
    end
  else (GenOk (TokUnit false (length vs)), errors).

(** [impl_storage], lib.rs:50-63. *)
Definition impl_storage (i : input) : gen * list error :=
  let '(bitset, errors) := attrs_parse (in_attrs i) false [] in
  match in_data i with
  | DataEnum vs =>
      if is_all_unit_variants vs then unit_implement bitset vs errors
      else any_implement vs errors
  | _ => (GenErr, errors ++ [ErrNotEnum])
  end.

(** The output of the macro (lib.rs:36-47): generated code, [compile_error!]
    invocations, or a panic. *)
Inductive expansion : Type :=
| ExpTokens (t : tokens)
| ExpErrors (l : list error)
| ExpPanic.

(** [storage_derive], lib.rs:29-48. *)
Definition storage_derive (i : input) : expansion :=
  match impl_storage i with
  | (GenOk t, _) => ExpTokens t
  | (GenErr, errors) => ExpErrors errors
  | (GenPanic, _) => ExpPanic
  end.

(** What happens to the crate using the macro (lib.rs:28-48): it compiles and the enum has the implementation
    of the given key type; the macro reports errors; the macro panics; or the
    generated code does not compile. *)
Inductive verdict : Type :=
| Accepted (t : kty)
| MacroErrors (l : list error)
| MacroPanic
| CompilerError.

(** Rust's check that a field type implements [Key] (any_variants.rs:42-45). *)
Definition implements_key (ty : option kty) : option kty :=
  match ty with
  | Some t => match derive t with Some _ => Some t | None => None end
  | None => None
  end.

(** Enums of [n] unit variants (unit_variants.rs:16-25). *)
Fixpoint unit_variants (n : nat) : variants :=
  match n with
  | 0 => VNil
  | S n' => VUnit (unit_variants n')
  end.

(** Rust's check of the code generated for composite enums: each [match] on a
    key (for example any_variants.rs:288-295) needs one pattern per variant, the
    pattern of a field being the one of its index; element types must implement
    [Key].  The variants generated for, if these checks pass.  Simplification:
    rustc may accept a missing pattern for a variant with an uninhabited field;
    such field types are taken to be absent. *)
Fixpoint check_any (index n : nat) (fields : list (nat * kind)) : option variants :=
  match n, fields with
  | 0, [] => Some VNil
  | S n', (i, k) :: r =>
      if Nat.eqb i index then
        match k, check_any (S index) n' r with
        | KindSimple, Some vs => Some (VUnit vs)
        | KindComplex ty, Some vs =>
            match implements_key ty with
            | Some t => Some (VTuple t vs)
            | None => None
            end
        | _, None => None
        end
      else None
  | _, _ => None
  end.

(** The whole compilation of a [#[derive(Key)]] (lib.rs:28-48): the macro, then
    rustc. *)
Definition expand (i : input) : verdict :=
  match storage_derive i with
  | ExpTokens (TokUnit bitset n) => Accepted (KEnum bitset (unit_variants n))
  | ExpTokens (TokAny fields) =>
      match in_data i with
      | DataEnum vs =>
          match check_any 0 (length vs) fields with
          | Some vs' => Accepted (KEnum false vs')
          | None => CompilerError
          end
      | _ => CompilerError
      end
  | ExpErrors l => MacroErrors l
  | ExpPanic => MacroPanic
  end.
