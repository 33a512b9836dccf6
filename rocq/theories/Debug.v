(** [Debug] output.  Values and keys are printed by arbitrary functions (their
    own [Debug] implementations); only the plain mode [{:?}] of the formatter is
    modelled, and the sink it writes to never fails. *)
Require Import String List.
Import ListNotations.
From Verif Require Import Std Traits Api.
Local Open Scope string_scope.

(** [core::fmt::builders], trusted std code (used at src/map.rs:964, src/set.rs:635,
    src/set/intersection.rs:95): the text written so far and whether an entry was
    written.  Simplifications: the writer never fails, and the alternate mode
    [{:#?}] is left out. *)
Record builder : Type := MkBuilder { db_text : string; db_has_fields : bool }.

(** [Formatter::debug_map] and [debug_set] (used at map.rs:964, set.rs:635). *)
Definition debug_braces : builder := MkBuilder "{" false.

(** [Formatter::debug_list] (used at intersection.rs:95). *)
Definition debug_brackets : builder := MkBuilder "[" false.

(** [DebugMap::entry], [DebugSet::entry], [DebugList::entry] (std), called by
    [entries] (src/map.rs:964, src/set.rs:635, src/set/intersection.rs:95): a
    separator unless first, then the entry. *)
Definition debug_entry (b : builder) (e : string) : builder :=
  MkBuilder (db_text b ++ (if db_has_fields b then ", " else "") ++ e) true.

(** [finish] (std), src/map.rs:964, src/set.rs:635, src/set/intersection.rs:95. *)
Definition debug_finish (b : builder) (close : string) : string := db_text b ++ close.

Section Debug.
  (** The [Debug] implementations of key and value. *)
  Context {K V : Type} (fk : K -> string) (fv : V -> string).

  (** [entries] (std), src/map.rs:964, src/set.rs:635: run the iterator to the end;
      [None]: out of fuel. *)
  Fixpoint debug_entries {A} (i : iterator A) (f : A -> string) (fuel : nat)
    (b : builder) (s : it_st i) : option builder :=
    match fuel with
    | 0 => None
    | S n =>
        match it_next i s with
        | (None, _) => Some b
        | (Some x, s1) => debug_entries i f n (debug_entry b (f x)) s1
        end
    end.

  (** [Debug::fmt] of [Map], src/map.rs:963-965. *)
  Definition map_debug (m : MapStorage K V) (fuel : nat) (st : ms_St m) : option string :=
    option_map (fun b => debug_finish b "}")
      (debug_entries (ms_Iter m) (fun e => fk (fst e) ++ ": " ++ fv (snd e))
         fuel debug_braces (map_iter m st)).

  (** [Debug::fmt] of [Set], src/set.rs:634-636. *)
  Definition set_debug (m : SetStorage K) (fuel : nat) (st : ss_St m) : option string :=
    option_map (fun b => debug_finish b "}")
      (debug_entries (ss_Iter m) fk fuel debug_braces (set_iter m st)).

  (** [Clone::clone] of [Intersection], src/set/intersection.rs:43-48. *)
  Definition inter_clone {m : SetStorage K} (x : intersection m) : intersection m :=
    MkInter (it_clone (ss_Iter m) (in_iter x)) (in_other x).

  (** [entries] (std) for an intersection, src/set/intersection.rs:95. *)
  Fixpoint inter_entries {m : SetStorage K} (fuel : nat) (b : builder) (x : intersection m)
    : option builder :=
    match fuel with
    | 0 => None
    | S n =>
        match inter_next m n x with
        | None => None
        | Some (None, _) => Some b
        | Some (Some e, x') => inter_entries n (debug_entry b (fk e)) x'
        end
    end.

  (** [Debug::fmt] of [Intersection], src/set/intersection.rs:94-96. *)
  Definition inter_debug {m : SetStorage K} (fuel : nat) (x : intersection m) : option string :=
    option_map (fun b => debug_finish b "]")
      (inter_entries fuel debug_brackets (inter_clone x)).
End Debug.
