(** The names in the code generated by [#[derive(Key)]], and what they mean at the
    place of the derive (fixed-map-derive/src/{unit_variants,any_variants,context}.rs).

    Tokens of [quote!] and [Span::call_site()] are resolved where the derive is
    written, as if the user had written the generated code there.  Paths built by
    context.rs:51-118 start with [::core] or [::fixed_map]; nothing can capture
    them and they do not occur below.  Left out: lifetimes, names of fields and
    methods, traits whose methods are used because the prelude brings them into
    scope ([usize::from], [usize::min]), a dependency under another name than
    [fixed_map], and the generics of the input, which the generated code ignores. *)
Require Import List Arith NArith Bool String Ascii.
Import ListNotations.
From Verif Require Import DeriveUnit.
Open Scope string_scope.

(** What a name may stand for: a type parameter of the generated code, an item of
    the generated block [const _: () = { .. }] (unit_variants.rs:33,
    any_variants.rs:79), an item of the core library known through the prelude or
    built in, the enum itself, or anything else the user has in scope. *)
Inductive meaning : Type :=
| MParam (x : string)
| MGenerated (x : string)
| MCore (x : string)
| MEnum
| MUser (n : nat).

(** The place of the derive, where the generated block goes (lib.rs:38-40): what
    the items and imports in scope mean, in the namespace of types and in that of
    values, and which of the latter are constants, statics, tuple or unit structs
    or variants of these kinds, which a variable in a pattern cannot shadow. *)
Record site : Type := MkSite {
  si_types : string -> option meaning;
  si_values : string -> option meaning;
  si_consts : string -> bool
}.

(** The input (lib.rs:30), as far as names go: the enum's name, and for each
    variant with a field the names its type refers to by relative paths, and the
    number of attributes (doc comments included) on the field.  The names of
    variants occur only behind [#ident::] (any_variants.rs:92-139). *)
Record named : Type := MkNamed {
  nm_ident : string;
  nm_fields : list (list string * nat)
}.

(** A region of generated code with the same names in scope: the type parameters
    bound around it, whether the enum's name ([#ident]) and the field types
    ([#element]) occur, which types and values it names without a path, and which
    variables it binds by patterns (see the citations of the regions below, e.g.
    unit_variants.rs:67-77). *)
Record region : Type := MkRegion {
  rg_params : list string;
  rg_ident : bool;
  rg_fields : bool;
  rg_types : list string;
  rg_values : list string;
  rg_binders : list string
}.

(** The names [_0], [_1], ... (unit_variants.rs:16-18). *)
Fixpoint digits (fuel n : nat) : string :=
  let d := String (ascii_of_nat (48 + n mod 10)) "" in
  match fuel with
  | 0 => d
  | S fuel => if (n <? 10)%nat then d else (digits fuel (n / 10) ++ d)%string
  end.
(** [format_ident!("_{}", index)], unit_variants.rs:17. *)
Definition field_name (n : nat) : string := "_" ++ digits n n.
(** All of them, unit_variants.rs:14-18. *)
Definition field_names (n : nat) : list string := List.map field_name (List.seq 0 n).

(** [Some(..)] and [None], written once for each of [n] variants
    (unit_variants.rs:341, 508). *)
Definition some_none (n : nat) : list string :=
  match n with 0 => [] | S _ => ["Some"; "None"] end.

(** * Enums of unit variants *)

(** [impl_entry], unit_variants.rs:47-125. *)
Definition unit_entry : list region := [
  MkRegion ["V"] true false [] [] [];                      (* VacantEntry, :61-64 *)
  MkRegion ["V"] true false [] [] ["value"];               (* its impl, :66-77 *)
  MkRegion ["V"] true false [] [] [];                      (* OccupiedEntry, :79-82 *)
  MkRegion ["V"] true false [] [] ["value"];               (* its impl, :84-115 *)
  MkRegion ["V"] true false [] [] ["opt"; "key"; "inner"]  (* option_to_entry, :117-123 *)
].

(** [impl_map], unit_variants.rs:127-376, for [n] variants.  A variable bound for
    each variant is bound if there is a variant; the names after it are bound in
    any case. *)
Definition unit_map (n : nat) : list region := [
  MkRegion ["V"] false false [] [] [];                     (* struct, Clone, Copy, Eq, :169-186, :197 *)
  MkRegion ["V"] false false ["bool"] [] ["other"];        (* PartialEq, :188-194 *)
  MkRegion ["H"; "V"] false false [] [] ["state"];         (* Hash, :199-208 *)
  MkRegion ["V"] false false ["Option"] [] ["other"];      (* PartialOrd, :210-216 *)
  MkRegion ["V"] false false [] [] ["other"];              (* Ord, :218-224 *)
  MkRegion ["V"] true false ["usize"; "bool"] (some_none n)
    (field_names n ++ ["key"; "value"; "k"; "v"])%list;         (* MapStorage, :226-311, :327-373 *)
  MkRegion ["F"; "V"] true false ["FnMut"; "bool"] (List.tl (some_none n))
    (field_names n ++ match n with 0 => [] | S _ => ["val"] end ++ ["func"])%list (* retain, :313-325 *)
].

(** The type chosen by [determine_bits], unit_variants.rs:533-548. *)
Definition bits_type (n : nat) : string :=
  match determine_bits (N.of_nat n) with
  | Some 8%N => "u8" | Some 16%N => "u16" | Some 32%N => "u32" | Some 64%N => "u64"
  | _ => "u128"
  end.

(** [impl_bitset], unit_variants.rs:379-531. *)
Definition unit_bitset (n : nat) : list region :=
  let ty := bits_type n in [
  MkRegion [] true false [ty] [] ["value"];                (* to_bits, :414-419 *)
  MkRegion [] false false [ty] [] [];                      (* struct, :421-425 *)
  MkRegion [] false false ["Option"] [] ["other"];         (* PartialOrd, :427-433 *)
  MkRegion [] false false [] [] ["other"];                 (* Ord, :435-441 *)
  MkRegion [] true false [ty; "usize"; "bool"] (some_none n)
    ["value"; "mask"; "update"];                           (* SetStorage, :443-482, :500-514 *)
  MkRegion ["F"] true false ["FnMut"; "bool"] [] ["f"; "update"]; (* retain, :484-498 *)
  MkRegion [] false false [ty] [] ["data"]                 (* RawStorage, :516-529 *)
].

(** [impl_set], unit_variants.rs:551-691. *)
Definition unit_set (n : nat) : list region := [
  MkRegion [] false false ["bool"] [] [];                  (* struct, :588-592 *)
  MkRegion [] false false ["Option"] [] ["other"];         (* PartialOrd, :594-600 *)
  MkRegion [] false false [] [] ["other"];                 (* Ord, :602-608 *)
  MkRegion [] true false ["usize"; "bool"] (some_none n)
    (field_names n ++ ["value"])%list;                          (* SetStorage, :610-659, :673-689 *)
  MkRegion ["F"] true false ["FnMut"; "bool"] []
    (field_names n ++ ["f"])%list                               (* retain, :661-671 *)
].

(** [unit_variants::implement], unit_variants.rs:9-45. *)
Definition unit_regions (bitset : bool) (n : nat) : list region :=
  (unit_entry ++ unit_map n ++ (if bitset then unit_bitset n else unit_set n) ++
   [MkRegion [] true false [] [] []])%list.                (* Key, :38-42 *)

(** The types declared in the block, unit_variants.rs:10-11, 61, 79. *)
Definition unit_items : list string :=
  ["VacantEntry"; "OccupiedEntry"; "__MapStorage"; "__SetStorage"].

(** * Other enums; [units] says whether there are unit variants beside those with
    a field *)

(** [map_storage_iter], [map_storage_keys], [map_storage_values],
    [map_storage_iter_mut], [map_storage_values_mut] (any_variants.rs:748-1381) with
    [build_iter_next] (any_variants.rs:670-745) and the loops of
    any_variants.rs:1800-1850.  The elements occur in the types of the fields and
    in the bounds. *)
Definition any_iters : list region := [
  MkRegion ["V"] true true ["usize"] [] ["key"; "value"; "next"]; (* Iter, :748-854 *)
  MkRegion ["V"] true true ["usize"] [] ["key"; "next"];          (* Keys, :857-1004 *)
  MkRegion ["V"] false true ["usize"] [] ["value"; "next"];       (* Values, :1007-1150 *)
  MkRegion ["V"] true true ["usize"] [] ["key"; "value"; "next"]; (* IterMut, :1153-1249 *)
  MkRegion ["V"] false true ["usize"] [] ["value"; "next"]        (* ValuesMut, :1252-1381 *)
].

(** [map_storage_into_iter], any_variants.rs:1384-1491. *)
Definition any_into_iter : list region := [
  MkRegion ["V"] true true ["usize"; "Option"; "Clone"] [] ["key"; "value"; "next"]
].

(** [map_storage_entry], any_variants.rs:1853-2090. *)
Definition any_entry : list region := [
  MkRegion ["V"] true false [] [] ["value"];                (* the simple entries, :1944-1986 *)
  MkRegion ["V"] true true [] [] ["value"; "entry"];        (* the entries, :1988-2067 *)
  MkRegion ["V"] true false [] [] ["opt"; "key"; "inner"];  (* option_to_entry, :2069-2075 *)
  MkRegion ["V"] true false [] [] ["key"; "entry"]          (* entry, :2078-2087 *)
].

(** The rest of [impl_map_storage], any_variants.rs:142-426. *)
Definition any_map (units : bool) : list region := [
  MkRegion ["V"] false false ["bool"] [] ["other"];         (* PartialEq, Eq, :161-182 *)
  MkRegion ["V"] false true [] [] [];                       (* Clone, Copy, struct, :184-206, :413-415 *)
  MkRegion ["V"] true true ["usize"; "bool"] [] ["key"; "value"; "v"]; (* :208-356, :387-420 *)
  MkRegion ["F"; "V"] true true ["FnMut"; "bool"] (if units then ["None"] else [])
    ((if units then ["val"] else []) ++ ["func"; "k"; "v"])%list (* retain, :358-385 *)
].

(** [impl_set_storage], [set_storage_iter], [set_storage_into_iter],
    any_variants.rs:429-667, 1494-1793. *)
Definition any_set (units : bool) : list region := [
  MkRegion [] true true ["usize"] [] ["key"; "next"];       (* the iterators, :1494-1793 *)
  MkRegion [] false false ["bool"] [] ["other"];            (* PartialEq, Eq, :443-464 *)
  MkRegion [] false true (if units then ["bool"] else []) [] []; (* Clone, Copy, struct, :466-489, :646-656 *)
  MkRegion [] true true ["usize"; "bool"] [] ["key"; "value"; "v"]; (* :491-599, :628-661 *)
  MkRegion ["F"] true true ["FnMut"; "bool"] [] ["func"; "k"] (* retain, :601-626 *)
].

(** [any_variants::implement], any_variants.rs:12-90. *)
Definition any_regions (units : bool) : list region :=
  (any_iters ++ any_into_iter ++ any_entry ++ any_map units ++ any_set units ++
   [MkRegion [] true false [] [] []])%list.                 (* Key, :83-87 *)

(** The types declared in the block: any_variants.rs:149, 436 (with the associated
    types' names appended at :754 and the like) and :1944-1996. *)
Definition any_items : list string :=
  ["__MapStorage"; "__MapStorageIter"; "__MapStorageKeys"; "__MapStorageValues";
   "__MapStorageIterMut"; "__MapStorageValuesMut"; "__MapStorageIntoIter";
   "SimpleVacantEntry"; "SimpleOccupiedEntry"; "VacantEntry"; "OccupiedEntry";
   "__SetStorage"; "__SetStorageIter"; "__SetStorageIntoIter"].

(** * Lookup *)

(** Membership. *)
Definition mem (x : string) (l : list string) : bool := existsb (String.eqb x) l.

(** What [x] means as a type outside the generated block; names the user has not
    bound come from the prelude or are built in. *)
Definition at_site (s : site) (x : string) : meaning :=
  match si_types s x with Some m => m | None => MCore x end.

(** Lookup of a type inside the block (any_variants.rs:79-89,
    unit_variants.rs:33-43): type parameters first, then the block's items, then
    whatever is around the block. *)
Definition resolve_type (s : site) (items params : list string) (x : string) : meaning :=
  if mem x params then MParam x
  else if mem x items then MGenerated x
  else at_site s x.

(** Lookup of a value; the block's own functions (unit_variants.rs:118, 415,
    any_variants.rs:2070) are not among the names looked up here. *)
Definition resolve_value (s : site) (x : string) : meaning :=
  match si_values s x with Some m => m | None => MCore x end.

(** An identifier in a pattern is a new variable unless it names one of those (e.g.
    [inner] in unit_variants.rs:120). *)
Definition binds (s : site) (x : string) : bool := negb (si_consts s x).

(** All names of a region mean what the generator (any_variants.rs:12,
    unit_variants.rs:9) wants them to mean. *)
Definition region_ok (s : site) (items : list string) (i : named) (r : region) : Prop :=
  (rg_ident r = true -> resolve_type s items (rg_params r) (nm_ident i) = MEnum) /\
  (rg_fields r = true -> forall f x, In f (nm_fields i) -> In x (fst f) ->
     resolve_type s items (rg_params r) x = at_site s x) /\
  (forall x, In x (rg_types r) -> resolve_type s items (rg_params r) x = MCore x) /\
  (forall x, In x (rg_values r) -> resolve_value s x = MCore x) /\
  (forall x, In x (rg_binders r) -> binds s x = true).

(** Which generator runs (lib.rs:54-58). *)
Inductive generator : Type :=
| GenUnit (bitset : bool) (n : nat)
| GenAny (units : bool).

(** The code it generates (unit_variants.rs:32-44, any_variants.rs:78-89). *)
Definition regions_of (g : generator) : list region :=
  match g with GenUnit b n => unit_regions b n | GenAny u => any_regions u end.

(** The types it declares (see [unit_items], [any_items]). *)
Definition items_of (g : generator) : list string :=
  match g with GenUnit _ _ => unit_items | GenAny _ => any_items end.

(** [#element] is a whole [syn::Field] (any_variants.rs:41, 2119), whose tokens
    begin with the field's attributes.  [syn::parse2] of a bound that begins
    [<<#element as ..] (any_variants.rs:42-43, 737) fails if there are any, and
    [fallible] (context.rs:161-173) makes that an error of the derive. *)
Definition element_parses (f : list string * nat) : bool := (snd f =? 0)%nat.

(** Whether the generators (unit_variants.rs:9, any_variants.rs:12) fail on account
    of what stands at the fields.  (The shape of the input and the limit on the
    number of variants are the concern of Front.v.) *)
Definition derive_errors (i : named) (g : generator) : bool :=
  match g with
  | GenUnit _ _ => false
  | GenAny _ => negb (forallb element_parses (nm_fields i))
  end.

(** The generated block (lib.rs:38-40) is as intended. *)
Definition means_well (s : site) (i : named) (g : generator) : Prop :=
  forall r, In r (regions_of g) -> region_ok s (items_of g) i r.
