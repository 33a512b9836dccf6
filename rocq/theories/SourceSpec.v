(** What collecting and deserializing should do, on finite maps (C63). *)
Require Import List String.
Import ListNotations.
From Verif Require Import Std Traits Spec Sources DropSpec.

(** [f] with [v] under [k]. *)
Definition put_at {K V} (f : fmap K V) (k : K) (v : V) (g : fmap K V) : Prop :=
  g k = Some v /\ forall j, j <> k -> g j = f j.

Section Map.
  Context {K V S E : Type}.
  Variable src : source S (K * V) E.
  Variable dr : drop_fn S V.

  (** Items are asked for one at a time.  Each is stored; the value it displaces is
      dropped before the next item is asked for, and no other value is. *)
  Inductive gathers : S -> fmap K V -> S -> left_by E -> fmap K V -> Prop :=
  | GaEnd s s1 f g : src s = (s1, Ends) -> (forall k, g k = f k) -> gathers s f s1 ByEnd g
  | GaFail s s1 e f g : src s = (s1, Fails e) -> (forall k, g k = f k) ->
      gathers s f s1 (ByError e) g
  | GaPanic s s1 f g : src s = (s1, Panics) -> (forall k, g k = f k) -> gathers s f s1 ByPanic g
  | GaNew s s1 k v f f1 s2 how g : src s = (s1, Gives (k, v)) -> f k = None ->
      put_at f k v f1 -> gathers s1 f1 s2 how g -> gathers s f s2 how g
  | GaOld s s1 s2 k v old f f1 s3 how g : src s = (s1, Gives (k, v)) -> f k = Some old ->
      dr s1 old = (s2, false) ->
      put_at f k v f1 -> gathers s2 f1 s3 how g -> gathers s f s3 how g
  | GaDropPanic s s1 s2 k v old f g : src s = (s1, Gives (k, v)) -> f k = Some old ->
      dr s1 old = (s2, true) -> put_at f k v g -> gathers s f s2 ByPanic g.

  (** What comes of the whole.  If there is no map in the end, the values stored so far
      are dropped; some may be leaked ([lk]) if a destructor unwinds and keys are hashed. *)
  Inductive makes (before : K -> K -> Prop) (s : S) : S -> product (fmap K V) E -> Prop :=
  | MkBuilt s1 f : gathers s (fun _ => None) s1 ByEnd f -> makes before s s1 (Built f)
  | MkRefused s1 e f l s2 : gathers s (fun _ => None) s1 (ByError e) f ->
      lists f l -> sorted_by before (map fst l) -> drops_some dr before 2 None s1 l s2 2 [] ->
      makes before s s2 (Refused e)
  | MkRefusedPanic s1 e f l s2 lk : gathers s (fun _ => None) s1 (ByError e) f ->
      lists f l -> sorted_by before (map fst l) -> drops_some dr before 2 None s1 l s2 1 lk ->
      makes before s s2 Unwinds
  | MkRefusedAbort s1 e f l s2 lk : gathers s (fun _ => None) s1 (ByError e) f ->
      lists f l -> sorted_by before (map fst l) -> drops_some dr before 2 None s1 l s2 0 lk ->
      makes before s s2 Aborts
  | MkUnwinds s1 f l s2 : gathers s (fun _ => None) s1 ByPanic f ->
      lists f l -> sorted_by before (map fst l) -> drops_some dr before 1 None s1 l s2 1 [] ->
      makes before s s2 Unwinds
  | MkAborts s1 f l s2 : gathers s (fun _ => None) s1 ByPanic f ->
      lists f l -> sorted_by before (map fst l) -> drops_some dr before 1 None s1 l s2 0 [] ->
      makes before s s2 Aborts.
End Map.

Section Set_.
  Context {T S E : Type}.
  Variable src : source S T E.

  (** Each element is added when it comes. *)
  Inductive set_gathers : S -> (T -> Prop) -> S -> left_by E -> (T -> Prop) -> Prop :=
  | SgEnd s s1 p q : src s = (s1, Ends) -> (forall k, q k <-> p k) -> set_gathers s p s1 ByEnd q
  | SgFail s s1 e p q : src s = (s1, Fails e) -> (forall k, q k <-> p k) ->
      set_gathers s p s1 (ByError e) q
  | SgPanic s s1 p q : src s = (s1, Panics) -> (forall k, q k <-> p k) ->
      set_gathers s p s1 ByPanic q
  | SgItem s s1 k p s2 how q : src s = (s1, Gives k) ->
      set_gathers s1 (fun j => j = k \/ p j) s2 how q -> set_gathers s p s2 how q.

  (** What comes of the whole. *)
  Inductive set_makes (s : S) : S -> product (T -> Prop) E -> Prop :=
  | SmBuilt s1 p : set_gathers s (fun _ => False) s1 ByEnd p -> set_makes s s1 (Built p)
  | SmRefused s1 e p : set_gathers s (fun _ => False) s1 (ByError e) p ->
      set_makes s s1 (Refused e)
  | SmUnwinds s1 p : set_gathers s (fun _ => False) s1 ByPanic p -> set_makes s s1 Unwinds.
End Set_.

Definition seen {A B E} (f : A -> B) (r : product A E) : product B E :=
  match r with
  | Built st => Built (f st)
  | Refused e => Refused e
  | Unwinds => Unwinds
  | Aborts => Aborts
  end.

(** * Deserializers *)

Open Scope string_scope.

(** A map asks for a map.  If it gets the entries of one, they are gathered; if it is
    given something else, it says that it wanted a map. *)
Inductive reads_map {K V B S E} (de : deserializer S (K * V) B E) (dr : drop_fn S V)
  (before : K -> K -> Prop) (s : S) : S -> product (fmap K V) E -> Prop :=
| RdMap s1 s2 r : de_ask de AskMap s = (s1, VisitMap) ->
    makes (de_entry de) dr before s1 s2 r -> reads_map de dr before s s2 r
| RdSeq s1 : de_ask de AskMap s = (s1, VisitSeq) ->
    reads_map de dr before s s1 (Refused (de_invalid_type de "sequence" "a map"))
| RdOther s1 x : de_ask de AskMap s = (s1, VisitOther x) ->
    reads_map de dr before s s1 (Refused (de_invalid_type de x "a map"))
| RdError s1 e : de_ask de AskMap s = (s1, VisitNone e) ->
    reads_map de dr before s s1 (Refused e).

(** A set asks for a sequence. *)
Inductive reads_set {T A S E} (de : deserializer S A T E) (s : S)
  : S -> product (T -> Prop) E -> Prop :=
| RtSeq s1 s2 r : de_ask de AskSeq s = (s1, VisitSeq) ->
    set_makes (de_element de) s1 s2 r -> reads_set de s s2 r
| RtMap s1 : de_ask de AskSeq s = (s1, VisitMap) ->
    reads_set de s s1 (Refused (de_invalid_type de "map" "a sequence"))
| RtOther s1 x : de_ask de AskSeq s = (s1, VisitOther x) ->
    reads_set de s s1 (Refused (de_invalid_type de x "a sequence"))
| RtError s1 e : de_ask de AskSeq s = (s1, VisitNone e) ->
    reads_set de s s1 (Refused e).
