(** The traits of the storages that the derive macro writes: which they implement, and
    running the functions written for an enum without fields, which hand [self.data] on
    (unit_variants.rs:174-224, 422-441, 589-608). *)
Require Import List Arith NArith ZArith Bool String.
Import ListNotations.
From Verif Require Import Std Traits OptionBucket DeriveUnit SrcFiles SrcSupport.
From Verif Require Import SrcLex DeriveText DeriveQuote DeriveRead DeriveCode.
Open Scope string_scope.

(** ** Functions that hand [self.data] on *)

(** Arguments: a reference to [data] of a storage, or the hasher (unit_variants.rs:206). *)
Inductive handed (D : Type) : Type := HandData (d : D) | HandState.
Arguments HandData {D}. Arguments HandState {D}.
(** Answers: [data] of a new storage, a storage, a truth value, nothing, an [Ordering] or
    [Option] of one (unit_variants.rs:177-223). *)
Inductive replied (D : Type) : Type :=
| GotData (d : D)
| GotStorage (d : D)
| GotBool (b : bool)
| GotUnit
| GotOrder (o : option comparison).
Arguments GotData {D}. Arguments GotStorage {D}. Arguments GotBool {D}. Arguments GotUnit {D}.
Arguments GotOrder {D}.

Section Forward.
  (** Functions by their paths, [None] as an answer is unwinding (unit_variants.rs:179). *)
  Context {D S : Type} (lib : list string -> S -> list (handed D) -> option (S * option (replied D))).

  (** What parameters hold (unit_variants.rs:177, 191, 202): the first storage is [self]. *)
  Fixpoint holds (ps : list (string * list tt)) (ds : list D) : option (list (string * handed D)) :=
    match ps, ds with
    | [], [] => Some []
    | (x, []) :: ps, d :: ds | (x, [P "&"; W "Self"]) :: ps, d :: ds =>
        option_map (cons (x, HandData d)) (holds ps ds)
    | (x, [P "&"; W "mut"; W "H"]) :: ps, ds => option_map (cons (x, HandState)) (holds ps ds)
    | _, _ => None
    end.
  (** Arguments: [&self.data] and [state] (unit_variants.rs:192, 206). *)
  Definition hand (e : list (string * handed D)) (a : tx) : option (handed D) :=
    match a with
    | XRef (XField (XPath None [x]) "data") =>
        match find x e with Some (HandData d) => Some (HandData d) | _ => None end
    | XPath None [x] => match find x e with Some HandState => Some HandState | _ => None end
    | _ => None
    end.
  (** See [hand] (unit_variants.rs:192, 206). *)
  Fixpoint hand_all (e : list (string * handed D)) (l : list tx) : option (list (handed D)) :=
    match l with
    | [] => Some []
    | a :: l => match hand e a, hand_all e l with Some x, Some r => Some (x :: r) | _, _ => None end
    end.
  (** A call of a path (unit_variants.rs:192). *)
  Definition forward (e : list (string * handed D)) (s : S) (c : tx) : option (S * option (replied D)) :=
    match c with
    | XCall (XPath None f) args => match hand_all e args with Some l => lib f s l | None => None end
    | _ => None
    end.
  (** The body: a call, a call with [;], or [Self] around a call
      (unit_variants.rs:178-180, 192, 206). *)
  Definition run_body (e : list (string * handed D)) (s : S) (b : tx) : option (S * option (replied D)) :=
    match b with
    | XBlock [SExpr (XStruct "Self" [One ("data", c)])] =>
        match forward e s c with
        | Some (s', Some (GotData d)) => Some (s', Some (GotStorage d))
        | Some (s', None) => Some (s', None)
        | _ => None
        end
    | XBlock [SSemi c] =>
        match forward e s c with
        | Some (s', Some _) => Some (s', Some GotUnit)
        | Some (s', None) => Some (s', None)
        | None => None
        end
    | XBlock [SExpr c] => forward e s c
    | _ => None
    end.
  (** The function [f] of the [impl] of a trait for a type (unit_variants.rs:174). *)
  Fixpoint trait_fn (its : list item) (trait ty f : string) : option fndef :=
    match its with
    | [] => None
    | IImpl (Some t) x b :: r =>
        if String.eqb t trait && String.eqb x ty then
          match b with
          | [IFn g d] => if String.eqb g f then Some d else None
          | _ => None
          end
        else trait_fn r trait ty f
    | _ :: r => trait_fn r trait ty f
    end.
  (** It is called with the storages [ds] (unit_variants.rs:174). *)
  Definition trait_call (its : list item) (trait ty f : string) (s : S) (ds : list D)
    : option (S * option (replied D)) :=
    match trait_fn its trait ty f with
    | Some d => match holds (fd_params d) ds with Some e => run_body e s (fd_body d) | None => None end
    | None => None
    end.
End Forward.

(** ** What the functions are handed to *)

(** [Clone] of a slice of cells (std, called at unit_variants.rs:179). *)
Fixpoint slice_clone {S V} (f : clone_fn S V) (s : S) (l : list (option V)) : S * option (list (option V)) :=
  match l with
  | [] => (s, Some [])
  | o :: r =>
      match clone_cell f s o with
      | (s1, None) => (s1, None)
      | (s1, Some o') => let '(s2, r') := slice_clone f s1 r in (s2, option_map (cons o') r')
      end
  end.
(** [PartialEq] of arrays of cells (std, called at unit_variants.rs:192). *)
Fixpoint slice_eq {S V} (f : eq_fn S V) (s : S) (a b : list (option V)) : S * option bool :=
  match a, b with
  | [], [] => (s, Some true)
  | x :: a, y :: b => eq_and (eq_cell f s x y) (fun s1 => slice_eq f s1 a b)
  | _, _ => (s, Some false)
  end.

Section Handed.
  Context {V S : Type} (clone : clone_fn S V) (eq : eq_fn S V) (word : hash_fn S Z) (hash : hash_fn S V)
    (pcmp : pcmp_fn S V) (cmp : cmp_fn S V).
  (** For arrays of optional values: [Clone], [PartialEq] and [Hash] of the standard library,
      and the text of src/macro_support.rs (unit_variants.rs:179, 192, 206, 214, 222). *)
  Definition map_lib (n : nat) (f : list string) (s : S) (l : list (handed (list (option V))))
    : option (S * option (replied (list (option V)))) :=
    match f, l with
    | ["core"; "clone"; "Clone"; "clone"], [HandData a] =>
        let '(s', r) := slice_clone clone s a in Some (s', option_map GotData r)
    | ["core"; "cmp"; "PartialEq"; "eq"], [HandData a; HandData b] =>
        let '(s', r) := slice_eq eq s a b in Some (s', option_map GotBool r)
    | ["core"; "hash"; "Hash"; "hash"], [HandData a; HandState] =>
        let '(s', unwound) := hash_array_with word (hash_option_with word hash) s a in
        Some (s', if unwound then None else Some GotUnit)
    | ["fixed_map"; "macro_support"; g], [HandData a; HandData b] =>
        match opt_call (program support_text) pcmp cmp g n s a b with
        | Some (s', r) => Some (s', option_map GotOrder r)
        | None => None
        end
    | _, _ => None
    end.
End Handed.
(** For arrays of [bool]: the text of src/macro_support.rs (unit_variants.rs:598, 606). *)
Definition set_lib (n : nat) (f : list string) (s : unit) (l : list (handed (list bool)))
  : option (unit * option (replied (list bool))) :=
  match f, l with
  | ["fixed_map"; "macro_support"; g], [HandData a; HandData b] =>
      match bool_call (program support_text) g n s a b with
      | Some (s', r) => Some (s', option_map GotOrder r)
      | None => None
      end
  | _, _ => None
  end.
(** For the integers of bitsets: their order (unit_variants.rs:431, 439). *)
Definition bits_lib (f : list string) (s : unit) (l : list (handed N)) : option (unit * option (replied N)) :=
  match f, l with
  | ["core"; "cmp"; "PartialOrd"; "partial_cmp"], [HandData a; HandData b]
  | ["core"; "cmp"; "Ord"; "cmp"], [HandData a; HandData b] => Some (s, Some (GotOrder (Some (N.compare a b))))
  | _, _ => None
  end.

(** The functions that the text of the macro writes for an enum without fields, run
    (unit_variants.rs:9-45). *)
Definition map_trait {V S} clone eq word hash pcmp cmp (bitset : bool) (trait f : string) (n : nat) (s : S)
  (ds : list (list (option V))) : option (S * option (replied (list (option V)))) :=
  then_ (macro_items bitset true) (fun its =>
    trait_call (map_lib clone eq word hash pcmp cmp n) its trait "__MapStorage" f s ds).
(** See [map_trait] (unit_variants.rs:551-608). *)
Definition set_trait (trait f : string) (n : nat) (ds : list (list bool)) : option (unit * option (replied (list bool))) :=
  then_ (macro_items false true) (fun its => trait_call (set_lib n) its trait "__SetStorage" f Datatypes.tt ds).
(** See [map_trait] (unit_variants.rs:379-441). *)
Definition bits_trait (trait f : string) (ds : list N) : option (unit * option (replied N)) :=
  then_ (macro_items true true) (fun its => trait_call bits_lib its trait "__SetStorage" f Datatypes.tt ds).

(** ** Which traits there are *)

(** The traits with an [impl] for a type (unit_variants.rs:174-227). *)
Definition impls_for (ty : string) (its : list item) : list string :=
  List.concat (List.map (fun i =>
    match i with IImpl (Some t) x _ => if String.eqb x ty then [t] else [] | _ => [] end) its).

(** How often a word stands in token trees (unit_variants.rs:422). *)
Fixpoint mentions_in (x : string) (t : tt) : nat :=
  match t with
  | L (TId y) => if String.eqb x y then 1 else 0
  | L _ => 0
  | G _ l => List.fold_right (fun t n => mentions_in x t + n) 0 l
  | R _ _ _ => 0
  end.
(** See [mentions_in] (unit_variants.rs:422). *)
Definition mentions (x : string) (l : list tt) : nat := List.fold_right (fun t n => mentions_in x t + n) 0 l.

(** [#x] in an attribute: the last name of the path that [cx.toks.x()] is, if that is what
    [x] was set to (unit_variants.rs:383-402, 422). *)
Definition derived_one (F : file) (body l : list tt) : option string :=
  match l with
  | [P "#"; W x] =>
      match search (x ++ " = cx . toks . " ++ x ++ " ( ) ;") body, find x (fi_toks F) with
      | Some [], Some (P "::" :: path) => Some (last_name "" path)
      | _, _ => None
      end
  | _ => None
  end.
(** The traits in the attribute [derive] before [struct #set_storage], in what a function of
    the macro returns (unit_variants.rs:422-423, 589-590). *)
Definition derived_in (F : file) (fn : string) : option (list string) :=
  match find fn (fi_fns F) with
  | Some m =>
      match search "Ok ( quote ! $grp )" (mf_body m) with
      | Some [q] =>
          match search "# [ derive $grp ] # vis struct # set_storage" q with
          | Some [ts] => all_of (derived_one F (mf_body m)) (commas ts)
          | _ => None
          end
      | _ => None
      end
  | None => None
  end.
(** The functions that [implement] calls for the set of an enum without fields
    (unit_variants.rs:22-27). *)
Definition set_function (F : file) : option string :=
  match find "implement" (fi_fns F) with
  | Some m =>
      match search "if opts . bitset . is_some ( ) { $id $grp ? } else { $id $grp ? }" (mf_body m) with
      | Some [x; _; y; _] => Some (the_name (if fi_bitset F then x else y))
      | _ => None
      end
  | None => None
  end.
(** The traits of the storages that the macro writes: those derived, if the functions of the
    file mention [derive] at all and every mention is one that [derived_in] reads, and those
    with an [impl] (unit_variants.rs:9-45, any_variants.rs:12-90). *)
Definition traits_of (bitset all_unit : bool) : option (list string * list string) :=
  match macro_file bitset all_unit, macro_items bitset all_unit with
  | Some F, Some its =>
      let m := impls_for "__MapStorage" its in
      let s := impls_for "__SetStorage" its in
      let in_all := List.fold_right (fun f n => mentions "derive" (mf_body (snd f)) + n) 0 (fi_fns F) in
      let read := List.filter (fun f => is_some (derived_in F (fst f))) (fi_fns F) in
      if negb (Nat.eqb in_all (List.length read)) then None
      else if Nat.eqb in_all 0 then Some (m, s)
      else
        match set_function F with
        | Some fn =>
            match derived_in F fn with
            | Some l => Some (m, (l ++ s)%list)
            | None => None
            end
        | None => None
        end
  | _, _ => None
  end.
