(** From the text of the derive macro to the code it generates, for every enum. *)
Require Import List Arith NArith Bool String Ascii.
Import ListNotations.
From Verif Require Import DeriveUnit Names Rust UnitCode AnyCode DeriveText DeriveQuote
  DeriveRead DeriveInst.
Open Scope string_scope.

(** The crate whose items [crate::..] in [toks!] stands for, and the lifetime, in the
    text of lib.rs:33-34. *)
Definition lib_names : option (string * string) :=
  match trees text_derive_lib with
  | Some t =>
      match find "storage_derive" (functions t) with
      | Some fn =>
          match search "let crate_prefix = context :: leading_path ( [ $str ] ) ;" (mf_body fn),
                search "let lt = syn :: Lifetime :: new ( $str , ast . span ( ) ) ;" (mf_body fn) with
          | Some [x], Some [y] =>
              match the_name y with
              | String "'" lt => Some (the_name x, lt)
              | _ => None
              end
          | _, _ => None
          end
      | None => None
      end
  | None => None
  end.

(** The module that lib.rs:48-58 calls for enums whose variants are all unit variants
    ([true]), and for others. *)
Definition lib_module (all_unit : bool) : option string :=
  match trees text_derive_lib with
  | Some t =>
      match find "impl_storage" (functions t) with
      | Some fn =>
          match search "if let Data :: Enum ( en ) = & cx . ast . data { if is_all_unit_variants ( en ) { $id :: implement $grp } else { $id :: implement $grp } }"
                       (mf_body fn) with
          | Some [x; _; y; _] => Some (the_name (if all_unit then x else y))
          | _ => None
          end
      | None => None
      end
  | None => None
  end.

(** The file behind a module (lib.rs:20-24). *)
Definition module_text (x : string) : list string :=
  if String.eqb x "unit_variants" then text_derive_unit
  else if String.eqb x "any_variants" then text_derive_any
  else [].

(** The file that is run, and the items it generates (lib.rs:48-58). *)
Definition macro_file (bitset all_unit : bool) : option file :=
  match lib_names, lib_module all_unit with
  | Some (x, lt), Some m => the_file x lt bitset text_derive_context (module_text m)
  | _, _ => None
  end.
(** See [macro_file] (any_variants.rs:12, unit_variants.rs:9). *)
Definition macro_items (bitset all_unit : bool) : option (list item) :=
  match macro_file bitset all_unit with
  | Some F => match implement F with Some l => items 300 l | None => None end
  | None => None
  end.

(** What is generated: the code of the two storages, of their entries and of their
    iterators (any_variants.rs:79-89). *)
Record generated (Meth : Type) : Type := MkGenerated {
  ge_map : code Meth;
  ge_set : code Meth;
  ge_entry : code Meth
}.
Arguments MkGenerated {Meth}.
Arguments ge_map {Meth}.
Arguments ge_set {Meth}.
Arguments ge_entry {Meth}.

(** An enum with a tuple variant (any_variants.rs:12-90): the code, given the items. *)
Definition any_code {T} (flds : vfields T) (its : list item) : option (generated (meth T)) :=
  match storage_code (@Some (meth T)) flds its None ["option_to_entry"] "MapStorage"
          [("PartialEq", ["eq"]); ("Clone", ["clone"]); ("MapStorage", map_fns)],
        storage_code (@Some (meth T)) flds its None [] "SetStorage"
          [("PartialEq", ["eq"]); ("Clone", ["clone"]); ("SetStorage", set_fns)],
        entry_code_of (@Some (meth T)) flds its true with
  | Some m, Some s, Some e => Some (MkGenerated m s e)
  | _, _, _ => None
  end.
(** The variants of an enum of unit variants (lib.rs:61-69). *)
Definition unit_flds (vs : list string) : vfields Empty_set := List.map (fun x => (x, None)) vs.

(** An enum of unit variants (unit_variants.rs:9-45): the code, given the items and the
    ranges of [determine_bits], or [None] when the bitset is refused. *)
Definition unit_items_code (bitset : bool) (bits : list (N * N * N)) (vs : list string)
  (its : list item) : option (generated Empty_set) :=
  let flds := unit_flds vs in
  let none : meth Empty_set -> option Empty_set := fun _ => None in
  let set :=
    if bitset then
      match bits_of bits (N.of_nat (List.length vs)) with
      | Some w =>
          storage_code none flds its (Some w) ["to_bits"] "SetStorage"
            [("SetStorage", unit_set_fns); ("RawStorage", ["as_raw"; "from_raw"])]
      | None => None
      end
    else storage_code none flds its None [] "SetStorage" [("SetStorage", unit_set_fns)] in
  match storage_code none flds its None ["option_to_entry"] "MapStorage"
          [("MapStorage", unit_map_fns)], set, entry_code_of none flds its false with
  | Some m, Some s, Some e => Some (MkGenerated m s e)
  | _, _, _ => None
  end.

(** Both steps of the macro ([?], any_variants.rs:15). *)
Definition then_ {A B} (o : option A) (f : A -> option B) : option B :=
  match o with Some a => f a | None => None end.

(** What the text of the macro generates for an enum with a tuple variant
    (any_variants.rs:12-90). *)
Definition any_text {T} (flds : vfields T) : option (generated (meth T)) :=
  then_ (macro_items false false) (any_code flds).
(** The code of its iterators (any_variants.rs:153-158, 440-441). *)
Definition iterator_text {T} (q : ikind) (flds : vfields T) : option (code (meth T)) :=
  then_ (macro_items false false) (fun its => iterator_code (@Some (meth T)) flds its q).
(** What it generates for an enum of unit variants (unit_variants.rs:9-45). *)
Definition unit_text (bitset : bool) (vs : list string) : option (generated Empty_set) :=
  then_ (macro_file bitset true) (fun F =>
  then_ (macro_items bitset true) (fun its => unit_items_code bitset (bits_arms F) vs its)).
