(** Running src/macro_support.rs: the comparisons that generated storages of enums without
    fields are ordered by (unit_variants.rs:213-223, 597-607).

    The slices that are compared, their iterators and the adapters [enumerate], [filter_map]
    and [filter] are those of the standard library: they are surroundings, as lists.  The
    functions that are given to the adapters are run as text, once for every element, when
    the adapted iterators are compared; as they have no effects, that the standard library
    runs them one by one between comparisons cannot be seen. *)
Require Import List Arith NArith ZArith Bool String.
Import ListNotations.
From Verif Require Import Std Traits SrcText SrcStd SrcParse SrcRun SrcSpec.
Open Scope string_scope.

(** [&[A; N]], its iterator, with [enumerate], with an adapter; an [Ordering] or [Option] of
    one (macro_support.rs:27-29, 58-60). *)
Inductive slice_val (A : Type) : Type :=
| ZSlice (l : list A)
| ZItems (l : list A)
| ZNumbered (l : list (nat * A))
| ZFilterMap (f : list string) (l : list (nat * A))
| ZFilter (f : list string) (l : list (nat * A))
| ZOrder (o : option comparison).
Arguments ZSlice {A}. Arguments ZItems {A}. Arguments ZNumbered {A}.
Arguments ZFilterMap {A}. Arguments ZFilter {A}. Arguments ZOrder {A}.

(** The file (macro_support.rs:1-72). *)
Definition support_text : list (list string) := [text_core; text_macro_support].

(** All answers of a function that can fail (macro_support.rs:27). *)
Fixpoint all_of {A B} (f : A -> option B) (l : list A) : option (list B) :=
  match l with
  | [] => Some []
  | x :: r =>
      match f x, all_of f r with
      | Some y, Some l => Some (y :: l)
      | _, _ => None
      end
  end.

Section Support.
  (** Elements [A] are held in cells as [enc] says; [B] is what the pairs that are compared
      hold. *)
  Context {V A B S : Type} (p : list item) (enc : A -> val V (slice_val A)).
  Notation X := (slice_val A).
  Notation val := (val V X).
  Notation reply := (reply V X).
  (** The pairs an adapted iterator gives, and the comparisons of [B]. *)
  Variables (pairs : nat -> X -> option (list (nat * B))) (pcmp : pcmp_fn S B) (cmp : cmp_fn S B).

  (** What the standard library answers (macro_support.rs:27-29, 40-42, 58-60, 70-72). *)
  Definition support_answer (n : nat) (q : question V X) (s : S) : S * reply :=
    let value x := (s, MkReply (CVal (VForeign x)) [] []) in
    let ending (r : S * option (option comparison)) :=
      (fst r, MkReply (match snd r with Some o => CVal (VForeign (ZOrder o)) | None => CUnwound end) [] []) in
    let stuck := (s, MkReply CStuck [] []) in
    match q with
    | QMethod x _ f args _ =>
        match x, f, args with
        | ZSlice l, "into_iter", [] => value (ZItems l)
        | ZItems l, "enumerate", [] => value (ZNumbered (enumerate l))
        | ZNumbered l, "filter_map", [(VFn g, None)] => value (ZFilterMap g l)
        | ZNumbered l, "filter", [(VFn g, None)] => value (ZFilter g l)
        | x, "partial_cmp", [(VForeign y, None)] =>
            match pairs n x, pairs n y with
            | Some a, Some b => ending (iter_partial_cmp_with (pair_partial_cmp_with pcmp) s a b)
            | _, _ => stuck
            end
        | x, "cmp", [(VForeign y, None)] =>
            match pairs n x, pairs n y with
            | Some a, Some b =>
                let r := iter_cmp_with (pair_cmp_with cmp) s a b in ending (fst r, option_map Some (snd r))
            | _, _ => stuck
            end
        | _, _, _ => stuck
        end
    | _ => stuck
    end.

  (** A function of the file applied to two slices: the state of the user and what it
      returns, or that it unwinds (macro_support.rs:21, 34, 52, 64). *)
  Definition support_call (name : string) (n : nat) (s : S) (a b : list A)
    : option (S * option (option comparison)) :=
    match find_free p name with
    | Some f =>
        match drive (support_answer n) (call_fn p n "" f [VForeign (ZSlice a); VForeign (ZSlice b)]) [] n [] s with
        | (CVal (VForeign (ZOrder o)), _, s') => Some (s', Some o)
        | (CUnwound, _, s') => Some (s', None)
        | _ => None
        end
    | None => None
    end.

  (** The function given to [filter_map] on a pair of an index and a reference to an element:
      nothing, or a pair of an index and a reference to something held in the element
      (macro_support.rs:12-17). *)
  Definition run_flatten (n : nat) (f : list string) (x : nat * A) : option (option (nat * V)) :=
    match call_path p n f [VData "()" "" [("0", VNum (fst x)); ("1", VRef (At 0 []))]] (MkRt [enc (snd x)] []) with
    | (CVal (VData "Option" "None" []), _) => Some None
    | (CVal (VData "Option" "Some" [(_, VData "()" "" [(_, VNum i); (_, VRef q)])]), t) =>
        match load q t with
        | (CVal (VUser v), _) => Some (Some (i, v))
        | _ => None
        end
    | _ => None
    end.
  (** The function given to [filter] on a reference to such a pair (macro_support.rs:46-48). *)
  Definition run_test (n : nat) (f : list string) (x : nat * A) : option bool :=
    match call_path p n f [VRef (At 1 [])]
            (MkRt [enc (snd x); VData "()" "" [("0", VNum (fst x)); ("1", VRef (At 0 []))]] []) with
    | (CVal (VBool b), _) => Some b
    | _ => None
    end.
End Support.

(** [Option<V>] in a cell (macro_support.rs:12). *)
Definition opt_val {V X} (o : option V) : val V X :=
  match o with Some v => some_ (VUser v) | None => none_ end.

(** The slices of maps (macro_support.rs:21-43). *)
Definition opt_pairs {V} (p : list item) (n : nat) (x : slice_val (option V)) : option (list (nat * V)) :=
  match x with
  | ZFilterMap f l => option_map (filter_map (fun o => o)) (all_of (run_flatten p opt_val n f) l)
  | _ => None
  end.
(** The slices of sets (macro_support.rs:52-72). *)
Definition bool_pairs (p : list item) (n : nat) (x : slice_val bool) : option (list (nat * bool)) :=
  match x with
  | ZFilter f l =>
      option_map (fun bs => map fst (filter snd (combine l bs))) (all_of (run_test (V := unit) p VBool n f) l)
  | _ => None
  end.
(** The order of [bool] has no effects (macro_support.rs:60, 72). *)
Definition bool_pcmp (s : unit) (x y : bool) : unit * option (option comparison) := (s, Some (Some (bool_cmp x y))).
Definition bool_cmp1 (s : unit) (x y : bool) : unit * option comparison := (s, Some (bool_cmp x y)).

Definition opt_call {V S} (p : list item) (pcmp : pcmp_fn S V) (cmp : cmp_fn S V) :=
  support_call (V := V) p (opt_pairs p) pcmp cmp.
Definition bool_call (p : list item) := support_call (V := unit) p (bool_pairs p) bool_pcmp bool_cmp1.
