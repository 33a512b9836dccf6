(** Maps and sets built from something that has effects of its own: an iterator given
    to [collect], or a deserializer.  Each call of it may change the state of the
    program, fail or unwind, and so may the destructor of a value. *)
Require Import List String.
Import ListNotations.
From Verif Require Import Std Traits Api.

(** What [Iterator::next] gives (src/map.rs:1377, src/set.rs:996), or [next_entry]
    (src/map.rs:1438) and [next_element] (src/set.rs:1055): an item, no more items, an
    error (deserializers only), or a panic. *)
Inductive given (A E : Type) : Type := Gives (a : A) | Ends | Fails (e : E) | Panics.
Arguments Gives {A E}.
Arguments Ends {A E}.
Arguments Fails {A E}.
Arguments Panics {A E}.

Definition source (S A E : Type) : Type := S -> S * given A E.

(** How the loop was left (src/map.rs:1376-1380, 1436-1442; src/set.rs:995-999, 1053-1059):
    the source came to its end, it failed, or something unwound. *)
Inductive left_by (E : Type) : Type := ByEnd | ByError (e : E) | ByPanic.
Arguments ByEnd {E}.
Arguments ByError {E}.
Arguments ByPanic {E}.

(** What the caller gets: the collection, an error, a panic, or the process is aborted
    (a destructor unwinding during unwinding; a rule of the language, no line of the
    crate: it concerns the values dropped at src/map.rs:1377-1381 and 1436-1442). *)
Inductive product (St E : Type) : Type := Built (st : St) | Refused (e : E) | Unwinds | Aborts.
Arguments Built {St E}.
Arguments Refused {St E}.
Arguments Unwinds {St E}.
Arguments Aborts {St E}.

(** A destructor together with the number of panics that are left until the process is
    aborted: two, or one during unwinding; after an abort (none left) nothing runs.
    This is the language's rule for the values of one map (src/map.rs:110-115) that are
    dropped together: a destructor that unwinds does not stop the other fields and
    elements from being dropped. *)
Definition counted {S V} (dr : drop_fn S V) : drop_fn (S * nat) V := fun x v =>
  let '(s, n) := x in
  match n with
  | 0 => (x, false)
  | Datatypes.S n' =>
      match dr s v with
      | (s1, false) => ((s1, n), false)
      | (s1, true) => ((s1, n'), true)
      end
  end.

(** [V::clone] (called by [Map::clone], src/map.rs:869-873), which leaves that number as
    it is. *)
Definition beside {S V} (f : clone_fn S V) : clone_fn (S * nat) V := fun x v =>
  let '(s, n) := x in let '(s1, o) := f s v in ((s1, n), o).

Section Map.
  Context {K V S E : Type} (m : MapStorage K V).
  Variable src : source S (K * V) E.
  Variable dr : drop_fn S V.

  (** The loop [for (k, v) in iter { map.insert(k, v); }] (src/map.rs:1377-1379), also
      [while let Some((key, value)) = visitor.next_entry()? { map.insert(key, value); }]
      (src/map.rs:1438-1440).  The value that [insert] returns is dropped at the
      semicolon.  [fuel] bounds the number of rounds: the source may never end. *)
  Fixpoint gather (fuel : nat) (s : S) (st : ms_St m) : option (S * ms_St m * left_by E) :=
    match fuel with
    | 0 => None
    | Datatypes.S n =>
        match src s with
        | (s1, Gives (k, v)) =>
            match map_insert m st k v with
            | (None, st1) => gather n s1 st1
            | (Some old, st1) =>
                match dr s1 old with
                | (s2, false) => gather n s2 st1
                | (s2, true) => Some (s2, st1, ByPanic)
                end
            end
        | (s1, Ends) => Some (s1, st, ByEnd)
        | (s1, Fails e) => Some (s1, st, ByError e)
        | (s1, Panics) => Some (s1, st, ByPanic)
        end
    end.

  (** [FromIterator::from_iter] (src/map.rs:1372-1381) and [visit_map]
      (src/map.rs:1430-1443): when the loop is not left by its end, the map built so
      far is dropped.  (The source is dropped as well; what that does is part of the
      source's own code and not modelled.) *)
  Definition map_gather (w : world) (fuel : nat) (s : S) : option (S * product (ms_St m) E) :=
    match gather fuel s (map_new m w) with
    | None => None
    | Some (s1, st, ByEnd) => Some (s1, Built st)
    | Some (s1, st, ByError e) =>
        match map_drop m (counted dr) (s1, 2) st with
        | ((s2, 2), _) => Some (s2, Refused e)
        | ((s2, 1), _) => Some (s2, Unwinds)
        | ((s2, _), _) => Some (s2, Aborts)
        end
    | Some (s1, st, ByPanic) =>
        match map_drop m (counted dr) (s1, 1) st with
        | ((s2, 0), _) => Some (s2, Aborts)
        | ((s2, _), _) => Some (s2, Unwinds)
        end
    end.
End Map.

Section Set_.
  Context {T S E : Type} (m : SetStorage T).
  Variable src : source S T E.

  (** The loops of src/set.rs:996-998 and 1055-1057.  Elements are [Copy]: nothing is
      dropped. *)
  Fixpoint set_gather_loop (fuel : nat) (s : S) (st : ss_St m)
    : option (S * ss_St m * left_by E) :=
    match fuel with
    | 0 => None
    | Datatypes.S n =>
        match src s with
        | (s1, Gives k) => set_gather_loop n s1 (snd (set_insert m st k))
        | (s1, Ends) => Some (s1, st, ByEnd)
        | (s1, Fails e) => Some (s1, st, ByError e)
        | (s1, Panics) => Some (s1, st, ByPanic)
        end
    end.

  (** [FromIterator::from_iter] (src/set.rs:990-1001), [visit_seq] (src/set.rs:1049-1060). *)
  Definition set_gather (w : world) (fuel : nat) (s : S) : option (S * product (ss_St m) E) :=
    match set_gather_loop fuel s (set_new m w) with
    | None => None
    | Some (s1, st, ByEnd) => Some (s1, Built st)
    | Some (s1, _, ByError e) => Some (s1, Refused e)
    | Some (s1, _, ByPanic) => Some (s1, Unwinds)
    end.
End Set_.

(** * Deserializers *)

(** What is asked of a deserializer: [deserialize_map] (src/map.rs:1446) or
    [deserialize_seq] (src/set.rs:1063). *)
Inductive request : Type := AskMap | AskSeq.

(** Which method of the visitor the deserializer calls: [visit_map], [visit_seq] with
    access to the items, one of the other ones (with what was found: a number, a string, …), or
    none, giving up with an error of its own. *)
Inductive visits (E : Type) : Type := VisitMap | VisitSeq | VisitOther (found : string) | VisitNone (e : E).
Arguments VisitMap {E}.
Arguments VisitSeq {E}.
Arguments VisitOther {E}.
Arguments VisitNone {E}.

(** A deserializer: what it calls on a request, the entries and elements it then
    supplies, and its [Error::invalid_type], a function of what was found and of what
    [expecting] writes.  This is serde's interface as used by src/map.rs:1414-1447 and
    src/set.rs:1032-1064; what the deserializer does with the visitor's result is not
    modelled. *)
Record deserializer (S A B E : Type) : Type := MkDe {
  de_ask : request -> S -> S * visits E;
  de_entry : source S A E;
  de_element : source S B E;
  de_invalid_type : string -> string -> E
}.
Arguments MkDe {S A B E}.
Arguments de_ask {S A B E}.
Arguments de_entry {S A B E}.
Arguments de_element {S A B E}.
Arguments de_invalid_type {S A B E}.

Open Scope string_scope.

(** [expecting], src/map.rs:1427-1429. *)
Definition map_expecting : string := "a map".
(** [expecting], src/set.rs:1044-1046. *)
Definition set_expecting : string := "a sequence".

(** [Deserialize::deserialize], src/map.rs:1414-1447.  The methods of the visitor that
    are not written are serde's defaults: [Err(Error::invalid_type(found, &self))]. *)
Definition map_deserialize {K V B S E} (m : MapStorage K V) (de : deserializer S (K * V) B E)
  (dr : drop_fn S V) (w : world) (fuel : nat) (s : S) : option (S * product (ms_St m) E) :=
  match de_ask de AskMap s with
  | (s1, VisitMap) => map_gather m (de_entry de) dr w fuel s1
  | (s1, VisitSeq) => Some (s1, Refused (de_invalid_type de "sequence" map_expecting))
  | (s1, VisitOther x) => Some (s1, Refused (de_invalid_type de x map_expecting))
  | (s1, VisitNone e) => Some (s1, Refused e)
  end.

(** [Deserialize::deserialize], src/set.rs:1032-1064. *)
Definition set_deserialize {T A S E} (m : SetStorage T) (de : deserializer S A T E)
  (w : world) (fuel : nat) (s : S) : option (S * product (ss_St m) E) :=
  match de_ask de AskSeq s with
  | (s1, VisitSeq) => set_gather m (de_element de) w fuel s1
  | (s1, VisitMap) => Some (s1, Refused (de_invalid_type de "map" set_expecting))
  | (s1, VisitOther x) => Some (s1, Refused (de_invalid_type de x set_expecting))
  | (s1, VisitNone e) => Some (s1, Refused e)
  end.
