(** What a program that uses several maps should do, when every map is a list of
    entries; and where every value has to be in the end (C64). *)
Require Import List Bool Permutation Sorted.
Import ListNotations.
From Verif Require Import Std Traits Spec Api Reach EffectSpec EqSpec DropSpec ClearSpec Sources SourceSpec AnyRefSpec Program.

Section Reference.
  Context {K V S : Type}.
  Variable before : K -> K -> Prop.
  (** How two different keys are stored. *)
  Variable pl : K -> K -> spot.
  (** Whether iterators can be asked from the back, which is when no hash table is
      involved. *)
  Variable both : bool.
  Variable U : helpers S K V.
  Notation es_t := (list (K * V)).
  Notation regs := (list (option es_t)).

  (** What a statement ends with, when [n] panics are left until an abort. *)
  Definition ends_with (n : nat) (fine bad : said K V) : option (said K V) :=
    match n with 2 => Some fine | 1 => Some bad | _ => None end.

  Definition bool_ends (p : bool) (fine : said K V) : said K V := if p then Panicked else fine.
  Definition outcome_ends (o : outcome) : said K V :=
    match o with Done => Fine | Unwound => Panicked end.

  (** Dropping what is in a variable: some values may be left out, and never dropped,
      if a destructor unwinds and a hash table is involved. *)
  Definition drops_map (s : S) (o : option es_t) (s' : S) (n : nat) : Prop :=
    match o with
    | None => s' = s /\ n = 2
    | Some es => exists lk, drops_some (h_drop U) before 2 None s es s' n lk /\ (both = true -> lk = [])
    end.

  (** A statement about one map only. *)
  Inductive does_one : stmt K V -> S -> es_t -> S -> es_t -> option (said K V) -> Prop :=
  | DoLen a s es : does_one (SLen a) s es s es (Some (Num (length es)))
  | DoIsEmpty a s es b : (b = true <-> es = []) -> does_one (SIsEmpty a) s es s es (Some (Truth b))
  | DoContains a k s es o : holds es k o ->
      does_one (SContains a k) s es s es (Some (Truth (is_some o)))
  | DoGet a k s es o : holds es k o -> does_one (SGet a k) s es s es (Some (Value o))
  | DoInsertNew a k v s es es' : holds es k None -> added before es k v es' ->
      does_one (SInsert a k v) s es s es' (Some (Value None))
  | DoInsertOld a k v s es old es' : replaced es k old v es' ->
      does_one (SInsert a k v) s es s es' (Some (Value (Some old)))
  | DoRemoveNone a k s es : holds es k None -> does_one (SRemove a k) s es s es (Some (Value None))
  | DoRemove a k v s es es' : taken es k v es' ->
      does_one (SRemove a k) s es s es' (Some (Value (Some v)))
  | DoSetNone a k v s es s' p : holds es k None -> h_drop U s v = (s', p) ->
      does_one (SSet a k v) s es s' es (Some (bool_ends p Fine))
  | DoSet a k v s es old es' s' p : replaced es k old v es' -> h_drop U s old = (s', p) ->
      does_one (SSet a k v) s es s' es' (Some (bool_ends p Fine))
  | DoOrInsertNew a k v s es es' : holds es k None -> added before es k v es' ->
      does_one (SOrInsert a k v) s es s es' (Some (Value (Some v)))
  | DoOrInsertOld a k v s es x s' p : holds es k (Some x) -> h_drop U s v = (s', p) ->
      does_one (SOrInsert a k v) s es s' es (Some (bool_ends p (Value (Some x))))
  | DoRetain a s es s' es' o : retain_list (keep_or_drop U) s es = (s', es', o) ->
      does_one (SRetain a) s es s' es' (Some (outcome_ends o))
  | DoClear a s es kept leaked s' n : clears_some (h_drop U) pl s es s' n kept leaked ->
      (both = true -> leaked = []) ->
      does_one (SClear a) s es s' kept (ends_with n Fine Panicked)
  | DoIter a ds s es : (In Back ds -> both = true) ->
      does_one (SIter a ds) s es s es (Some (Items (fst (deque ds es))))
  | DoIterInvalid a ds s es : In Back ds -> both = false ->
      does_one (SIter a ds) s es s es (Some Invalid).

  (** The only variable of a statement about one map. *)
  Definition about (q : stmt K V) : option nat :=
    match q with
    | SLen a | SIsEmpty a | SContains a _ | SGet a _ | SInsert a _ _ | SRemove a _
    | SSet a _ _ | SOrInsert a _ _ | SRetain a | SClear a | SIter a _ => Some a
    | _ => None
    end.

  (** One statement.  Variables it does not name stay what they are. *)
  Inductive does : stmt K V -> S -> regs -> S -> regs -> option (said K V) -> Prop :=
  | DoOne q a s R es s' es' x : about q = Some a -> var a R = Some es ->
      does_one q s es s' es' x -> does q s R s' (set_var a (Some es') R) x
  | DoOneInvalid q a s R : about q = Some a -> var a R = None -> does q s R s R (Some Invalid)
  | DoNew a w s R s' n : a < length R -> drops_map s (var a R) s' n ->
      does (SNew a w) s R s' (set_var a (Some []) R) (ends_with n Fine Panicked)
  | DoNewInvalid a w s R : length R <= a -> does (SNew a w) s R s R (Some Invalid)
  | DoEq a b s R x y s' r f g : var a R = Some x -> var b R = Some y ->
      (forall k, holds x k (f k)) -> (forall k, holds y k (g k)) ->
      compared (h_eq U) f g s s' r ->
      does (SEq a b) s R s' R (Some (match r with Some c => Truth c | None => Panicked end))
  | DoEqInvalid a b s R : var a R = None \/ var b R = None ->
      does (SEq a b) s R s R (Some Invalid)
  | DoClone a b s R es s1 es' s' n : var a R = Some es -> b < length R ->
      clone_values (h_clone U) s es = (s1, Some es') -> drops_map s1 (var b R) s' n ->
      does (SClone a b) s R s' (set_var b (Some es') R) (ends_with n Fine Panicked)
  | DoClonePanic a b s R es s1 mk order s' n : var a R = Some es -> b < length R ->
      clones_until (h_clone U) s es s1 mk -> Permutation order mk ->
      drops_some (h_drop U) before 1 None s1 order s' n [] ->
      does (SClone a b) s R s' R (if Nat.eqb n 1 then Some NoClone else None)
  | DoCloneInvalid a b s R : var a R = None \/ length R <= b ->
      does (SClone a b) s R s R (Some Invalid)
  | DoMove a b s R es s' n : var a R = Some es -> b < length R -> a <> b ->
      drops_map s (var b R) s' n ->
      does (SMove a b) s R s' (set_var b (Some es) (set_var a None R)) (ends_with n Fine Panicked)
  | DoMoveSelf a s R es : var a R = Some es -> does (SMove a a) s R s R (Some Fine)
  | DoMoveInvalid a b s R : var a R = None \/ length R <= b ->
      does (SMove a b) s R s R (Some Invalid)
  | DoDrop a s R es s' n : var a R = Some es -> drops_map s (Some es) s' n ->
      does (SDrop a) s R s' (set_var a None R) (ends_with n Fine Panicked)
  | DoDropInvalid a s R : var a R = None -> does (SDrop a) s R s R (Some Invalid)
  | DoIntoIter a ds s R es l rest s' n : var a R = Some es -> (In Back ds -> both = true) ->
      deque ds es = (l, rest) -> drops_map s (Some rest) s' n ->
      does (SIntoIter a ds) s R s' (set_var a None R) (ends_with n (Items l) (ItemsThenPanic l))
  | DoIntoIterInvalid a ds s R : var a R = None \/ (In Back ds /\ both = false) ->
      does (SIntoIter a ds) s R s R (Some Invalid).

  (** A program. *)
  Inductive does_all : list (stmt K V) -> S -> regs -> S -> regs -> list (said K V) -> bool -> Prop :=
  | DoEnd s R : does_all [] s R s R [] true
  | DoAbort q l s R s' R' : does q s R s' R' None -> does_all (q :: l) s R s' R' [] false
  | DoStep q l s R s1 R1 x s2 R2 xs e : does q s R s1 R1 (Some x) ->
      does_all l s1 R1 s2 R2 xs e -> does_all (q :: l) s R s2 R2 (x :: xs) e.
End Reference.

(** What a variable of the program holds, as a list of entries: what iterating gives. *)
Definition sees {K V} (m : MapStorage K V) (st : ms_St m) (l : list (K * V)) : Prop :=
  map_reachable m st /\ yields (ms_Iter m) (map_iter m st) l.
Definition osees {K V} (m : MapStorage K V) (o : option (ms_St m)) (p : option (list (K * V))) : Prop :=
  match o, p with
  | None, None => True
  | Some st, Some l => sees m st l
  | _, _ => False
  end.

(** * Where the values are *)

Section Ledger.
  Context {K V S : Type}.

  (** A book in which every value is written that the user's code makes (or hands back),
      and every value it is given for good. *)
  Record book : Type := MkBook { made : list V; gone : list V }.
  Definition book_make (v : V) (b : book) : book := MkBook (v :: made b) (gone b).
  Definition book_take (v : V) (b : book) : book := MkBook (made b) (v :: gone b).

  (** The user's code, keeping such a book.  A closure of [retain] that changes a value
      takes the old one and makes the new one. *)
  Definition with_book (U : helpers S K V) : helpers (S * book) K V :=
    MkHelpers
      (fun x k v => let '(s, b) := x in
         match h_keep U s k v with
         | (s1, v1, o) => ((s1, book_make v1 (book_take v b)), v1, o)
         end)
      (fun x v => let '(s, b) := x in
         match h_clone U s v with
         | (s1, Some v1) => ((s1, book_make v1 b), Some v1)
         | (s1, None) => ((s1, b), None)
         end)
      (fun x v w => let '(s, b) := x in let '(s1, o) := h_eq U s v w in ((s1, b), o))
      (fun x v => let '(s, b) := x in let '(s1, p) := h_drop U s v in ((s1, book_take v b), p)).

  (** Values in the variables. *)
  Definition held (R : list (option (list (K * V)))) : list V :=
    flat_map (fun o => match o with Some es => map snd es | None => [] end) R.

  (** Values a statement puts in, unless it was rejected; and values it gives back. *)
  Definition put_in (q : stmt K V) (x : said K V) : list V :=
    match x, q with
    | Invalid, _ => []
    | _, (SInsert _ _ v | SSet _ _ v | SOrInsert _ _ v) => [v]
    | _, _ => []
    end.
  Fixpoint values_in (l : list (option (K * V))) : list V :=
    match l with
    | [] => []
    | Some (_, v) :: r => v :: values_in r
    | None :: r => values_in r
    end.
  Definition given_back (q : stmt K V) (x : said K V) : list V :=
    match q, x with
    | (SInsert _ _ _ | SRemove _ _), Value (Some v) => [v]
    | SIntoIter _ _, (Items l | ItemsThenPanic l) => values_in l
    | _, _ => []
    end.
  Definition all_put_in (l : list (stmt K V)) (xs : list (said K V)) : list V :=
    concat (map (fun e => put_in (fst e) (snd e)) (combine l xs)).
  Definition all_given_back (l : list (stmt K V)) (xs : list (said K V)) : list V :=
    concat (map (fun e => given_back (fst e) (snd e)) (combine l xs)).

  (** The statements after which a value may be nowhere: those that drop what a whole
      map or [IntoIter] holds, when a destructor unwinds and keys are stored in a hash
      table. *)
  Definition may_lose (both : bool) (q : stmt K V) (x : said K V) : Prop :=
    both = false /\ (x = Panicked \/ exists l, x = ItemsThenPanic l) /\
    match q with
    | SNew _ _ | SClear _ | SClone _ _ | SMove _ _ | SDrop _ | SIntoIter _ _ => True
    | _ => False
    end.
End Ledger.
Arguments book : clear implicits.
