(** Vocabulary for running generated code: requests to a storage, its responses, and
    the maps and sets of names that are the reference. *)
Require Import List Arith NArith Bool String.
Import ListNotations.
From Verif Require Import Std Traits Rust UnitCode.
Open Scope string_scope.

(** What the user of a storage for the enum supplies, in terms of the names of the
    variants: the closures of [retain] and the destructor of the values. *)
Record user {S V : Type} : Type := MkUser {
  keep : S -> string -> S * option bool;
  keep2 : S -> string -> V -> S * V * option bool;
  drop : S -> V -> S * bool
}.
Arguments user : clear implicits.
Arguments MkUser {S V}.

(** What may be done with an entry.  [ISet] and [IIntoMut] assign through
    [get_mut] and [into_mut]; on a vacant entry, [IGet], [ISet], [IIntoMut] and
    [IRemove] do nothing. *)
Inductive entry_act {V : Type} : Type :=
| IKey | IGet | ISet (v : V) | IIntoMut (v : V) | IInsert (v : V) | IRemove.
Arguments entry_act : clear implicits.

(** Requests to a map, for the variants they name.  [QSet] assigns through
    [get_mut], [QIterMut] and [QValuesMut] through every reference that the iterator
    gives; [QIntoIter] consumes a copy. *)
Inductive request {V : Type} : Type :=
| QLen | QIsEmpty | QContains (x : string) | QGet (x : string)
| QInsert (x : string) (v : V) | QSet (x : string) (v : V) | QRemove (x : string)
| QRetain | QClear
| QIter | QKeys | QValues | QIntoIter
| QIterMut (g : string -> V -> V) | QValuesMut (g : V -> V)
| QEntry (x : string) (a : entry_act V).
Arguments request : clear implicits.

(** Requests to a set. *)
Inductive set_request : Type :=
| PLen | PIsEmpty | PContains (x : string)
| PInsert (x : string) | PRemove (x : string)
| PRetain | PClear
| PIter | PIntoIter.

(** Responses.  The items of an iterator are keys, values, or both; [ABad] is
    anything that a request should never be answered with. *)
Inductive response {V : Type} : Type :=
| AUnit | ABool (b : bool) | ANat (n : nat) | AOpt (o : option V)
| AItems (l : list (option string * option V))
| AUnwound
| ABad.
Arguments response : clear implicits.

(** The variants a request names are variants of the enum, as the type checker
    demands. *)
Definition well_named {V} (vs : list string) (q : request V) : Prop :=
  match q with
  | QContains x | QGet x | QInsert x _ | QSet x _ | QRemove x
  | QEntry x _ => In x vs
  | _ => True
  end.

(** The same for sets. *)
Definition set_well_named (vs : list string) (q : set_request) : Prop :=
  match q with
  | PContains x | PInsert x | PRemove x => In x vs
  | _ => True
  end.

(** * The reference *)

Section Reference.
  Context {S V : Type} (vs : list string) (U : user S V).

  Definition upd {A} (m : string -> A) (x : string) (a : A) : string -> A :=
    fun y => if String.eqb y x then a else m y.

  Definition has (m : string -> option V) (x : string) : bool :=
    match m x with Some _ => true | None => false end.

  (** [retain]: in the order of the variants. *)
  Fixpoint ref_retain (l : list string) (s : S) (m : string -> option V)
    : S * (string -> option V) * response V :=
    match l with
    | [] => (s, m, AUnit)
    | x :: r =>
        match m x with
        | None => ref_retain r s m
        | Some v =>
            match keep2 U s x v with
            | (s1, v1, None) => (s1, upd m x (Some v1), AUnwound)
            | (s1, v1, Some true) => ref_retain r s1 (upd m x (Some v1))
            | (s1, v1, Some false) =>
                match drop U s1 v1 with
                | (s2, true) => (s2, upd m x None, AUnwound)
                | (s2, false) => ref_retain r s2 (upd m x None)
                end
            end
        end
    end.

  (** Dropping everything: in the order of the variants, to the end. *)
  Fixpoint ref_drop (l : list string) (s : S) (m : string -> option V) : S * bool :=
    match l with
    | [] => (s, false)
    | x :: r =>
        match m x with
        | None => ref_drop r s m
        | Some v =>
            let '(s1, u1) := drop U s v in
            let '(s2, u2) := ref_drop r s1 m in (s2, u1 || u2)
        end
    end.

  (** The entries, in the order of the variants. *)
  Definition entries (m : string -> option V) : list (string * V) :=
    flat_map (fun x => match m x with Some v => [(x, v)] | None => [] end) vs.

  (** An entry is occupied when the key has a value.  [IInsert] answers with the
      value it replaces, or, through the reference it gives, the value it put. *)
  Definition ref_entry (x : string) (a : entry_act V) (m : string -> option V)
    : (string -> option V) * response V :=
    match a, m x with
    | IKey, _ => (m, AItems [(Some x, None)])
    | IGet, o => (m, AOpt o)
    | ISet v, Some _ | IIntoMut v, Some _ => (upd m x (Some v), AUnit)
    | ISet _, None | IIntoMut _, None => (m, AUnit)
    | IInsert v, Some old => (upd m x (Some v), AOpt (Some old))
    | IInsert v, None => (upd m x (Some v), AItems [(None, Some v)])
    | IRemove, o => (upd m x None, AOpt o)
    end.

  Definition ref_map (q : request V) (s : S) (m : string -> option V)
    : S * (string -> option V) * response V :=
    match q with
    | QLen => (s, m, ANat (List.length (entries m)))
    | QIsEmpty => (s, m, ABool (Nat.eqb (List.length (entries m)) 0))
    | QContains x => (s, m, ABool (has m x))
    | QGet x => (s, m, AOpt (m x))
    | QInsert x v => (s, upd m x (Some v), AOpt (m x))
    | QSet x v =>
        match m x with
        | Some _ => (s, upd m x (Some v), AUnit)
        | None => (s, m, AUnit)
        end
    | QRemove x => (s, upd m x None, AOpt (m x))
    | QRetain => ref_retain vs s m
    | QClear =>
        let '(s1, u) := ref_drop vs s m in
        (s1, fun _ => None, if u then AUnwound else AUnit)
    | QIter | QIntoIter =>
        (s, m, AItems (map (fun e => (Some (fst e), Some (snd e))) (entries m)))
    | QKeys => (s, m, AItems (map (fun e => (Some (fst e), None)) (entries m)))
    | QValues => (s, m, AItems (map (fun e => (None, Some (snd e))) (entries m)))
    | QIterMut g => (s, fun x => option_map (g x) (m x), AUnit)
    | QValuesMut g => (s, fun x => option_map g (m x), AUnit)
    | QEntry x a => let '(m', r) := ref_entry x a m in (s, m', r)
    end.

  (** [retain] of a set; [late] says that the set changes only when the closure has
      been asked about every element. *)
  Fixpoint ref_filter (l : list string) (s : S) (m : string -> bool)
    : S * (string -> bool) * response V :=
    match l with
    | [] => (s, m, AUnit)
    | x :: r =>
        if m x then
          match keep U s x with
          | (s1, None) => (s1, m, AUnwound)
          | (s1, Some b) => ref_filter r s1 (upd m x b)
          end
        else ref_filter r s m
    end.

  (** The elements, in the order of the variants. *)
  Definition elements (m : string -> bool) : list string := filter m vs.

  Definition ref_set (late : bool) (q : set_request) (s : S) (m : string -> bool)
    : S * (string -> bool) * response V :=
    match q with
    | PLen => (s, m, ANat (List.length (elements m)))
    | PIsEmpty => (s, m, ABool (Nat.eqb (List.length (elements m)) 0))
    | PContains x => (s, m, ABool (m x))
    | PInsert x => (s, upd m x true, ABool (negb (m x)))
    | PRemove x => (s, upd m x false, ABool (m x))
    | PRetain =>
        let '(s1, m1, a) := ref_filter vs s m in
        (s1, match a with AUnwound => if late then m else m1 | _ => m1 end, a)
    | PClear => (s, fun _ => false, AUnit)
    | PIter | PIntoIter =>
        (s, m, AItems (map (fun x => (Some x, None)) (elements m)))
    end.

  (** Answers to a list of requests, and what becomes of the user's state. *)
  Fixpoint answers {Q St : Type} (step : Q -> S -> St -> S * St * response V)
    (l : list Q) (s : S) (st : St) : list (response V) * S :=
    match l with
    | [] => ([], s)
    | q :: r =>
        let '(s1, st1, a) := step q s st in
        let '(rest, s2) := answers step r s1 st1 in (a :: rest, s2)
    end.

  (** What becomes of both states. *)
  Fixpoint after {Q St : Type} (step : Q -> S -> St -> S * St * response V)
    (l : list Q) (s : S) (st : St) : S * St :=
    match l with
    | [] => (s, st)
    | q :: r => let '(s1, st1, _) := step q s st in after step r s1 st1
    end.

  (** The bits of the integer are the elements of the set, from the least
      significant bit on, and no others are set. *)
  Definition bits_are (d : N) (m : string -> bool) : Prop :=
    forall i, N.testbit d (N.of_nat i) =
              match nth_error vs i with Some x => m x | None => false end.
End Reference.

(** * Running the generated code *)

Section Running.
  Context {S V : Type} (U : user S V).
  Notation val := (val V Empty_set).

  (** The user's functions as the code sees them: a variant is known by its name. *)
  Definition linked : env V Empty_set S Empty_set := MkEnv
    (fun s k => match k with VEnum x => keep U s x | _ => (s, None) end)
    (fun s k v => match k with VEnum x => keep2 U s x v | _ => (s, v, None) end)
    (fun s v => drop_val (drop U) (fun s (x : Empty_set) => match x with end) v s)
    (fun m : Empty_set => match m with end)
    (fun m : Empty_set => match m with end)
    0.

  (** The value behind a reference into [self], or the value itself. *)
  Definition target (self v : val) : option val :=
    match v with
    | VRef (MkPlace BSelf p) => read_in self p
    | VRef _ => None
    | _ => Some v
    end.

  Definition as_value (self v : val) : option V :=
    match target self v with Some (VUser x) => Some x | _ => None end.

  (** The items of an iterator that are there. *)
  Fixpoint decode_items (self : val) (l : list val)
    : option (list (option string * option V)) :=
    match l with
    | [] => Some []
    | VNone :: r => decode_items self r
    | VSome (VPair (VEnum x) v) :: r =>
        match as_value self v, decode_items self r with
        | Some v, Some r => Some ((Some x, Some v) :: r)
        | _, _ => None
        end
    | VSome (VEnum x) :: r => option_map (cons (Some x, None)) (decode_items self r)
    | VSome v :: r =>
        match as_value self v, decode_items self r with
        | Some v, Some r => Some ((None, Some v) :: r)
        | _, _ => None
        end
    | _ => None
    end.

  Definition decode (self : val) (c : ctl V Empty_set) : response V :=
    match c with
    | CVal VUnit => AUnit
    | CVal (VBool b) => ABool b
    | CVal (VUsize n) => ANat n
    | CVal VNone => AOpt None
    | CVal (VSome v) =>
        match as_value self v with Some x => AOpt (Some x) | None => ABad end
    | CVal (VIter l) =>
        match decode_items self l with Some r => AItems r | None => ABad end
    | CUnwound => AUnwound
    | _ => ABad
    end.

  (** One call on a storage. *)
  Definition ask (C : code Empty_set) (m : string) (args : list val) (s : S) (self : val)
    : S * val * response V :=
    let '(c, self', s') := invoke linked C m args self VUnit s in
    (s', self', decode self' c).

  (** Assigning through a reference into [self]. *)
  Definition assign_at (self : val) (p : list Rust.step) (g : V -> V) : option val :=
    match read_in self p with
    | Some (VUser v) => write_in self p (VUser (g v))
    | _ => None
    end.

  (** Assigning through every item of an iterator, to [g] of what was there. *)
  Fixpoint assign_items (g : option string -> V -> V) (l : list val) (self : val)
    : option val :=
    match l with
    | [] => Some self
    | VNone :: r => assign_items g r self
    | VSome (VPair (VEnum x) (VRef (MkPlace BSelf p))) :: r =>
        match assign_at self p (g (Some x)) with
        | Some self' => assign_items g r self'
        | None => None
        end
    | VSome (VRef (MkPlace BSelf p)) :: r =>
        match assign_at self p (g None) with
        | Some self' => assign_items g r self'
        | None => None
        end
    | _ => None
    end.

  Definition assign_all (C : code Empty_set) (m : string) (g : option string -> V -> V)
    (s : S) (self : val) : S * val * response V :=
    match invoke linked C m [] self VUnit s with
    | (CVal (VIter l), self', s') =>
        match assign_items g l self' with
        | Some self2 => (s', self2, AUnit)
        | None => (s', self', ABad)
        end
    | (_, self', s') => (s', self', ABad)
    end.

  (** A call on an entry: the answer, given what is made of the value returned. *)
  Definition on_entry (m : string) (args : list val) (entry : val)
    (k : val -> val -> val * response V) (s : S) (self : val) : S * val * response V :=
    match invoke_entry linked entry_code m args entry self s with
    | (CVal v, self', s') => let '(self2, a) := k self' v in (s', self2, a)
    | (_, self', s') => (s', self', ABad)
    end.

  (** What is made of it: the name of a key, a value or what a reference points to,
      an assignment through a reference. *)
  Definition as_key (self v : val) : val * response V :=
    (self, match v with VEnum x => AItems [(Some x, None)] | _ => ABad end).
  Definition as_old (self v : val) : val * response V :=
    (self, match v with VUser x => AOpt (Some x) | _ => ABad end).
  Definition as_pointee (f : V -> response V) (self v : val) : val * response V :=
    (self, match v with
           | VRef _ => match as_value self v with Some x => f x | None => ABad end
           | _ => ABad end).
  Definition assigning (v : V) (self r : val) : val * response V :=
    match r with
    | VRef (MkPlace BSelf p) =>
        match assign_at self p (fun _ => v) with
        | Some self' => (self', AUnit)
        | None => (self, ABad)
        end
    | _ => (self, ABad)
    end.

  Definition entry_step (C : code Empty_set) (x : string) (a : entry_act V) (s : S)
    (self : val) : S * val * response V :=
    match invoke linked C "entry" [VEnum x] self VUnit s with
    | (CVal (VEnumOf "Occupied" e), self', s') =>
        match a with
        | IKey => on_entry "OccupiedEntry::key" [] e as_key s' self'
        | IGet => on_entry "OccupiedEntry::get" [] e
                    (as_pointee (fun v => AOpt (Some v))) s' self'
        | ISet v => on_entry "OccupiedEntry::get_mut" [] e (assigning v) s' self'
        | IIntoMut v => on_entry "OccupiedEntry::into_mut" [] e (assigning v) s' self'
        | IInsert v => on_entry "OccupiedEntry::insert" [VUser v] e as_old s' self'
        | IRemove => on_entry "OccupiedEntry::remove" [] e as_old s' self'
        end
    | (CVal (VEnumOf "Vacant" e), self', s') =>
        match a with
        | IKey => on_entry "VacantEntry::key" [] e as_key s' self'
        | IInsert v => on_entry "VacantEntry::insert" [VUser v] e
                         (as_pointee (fun v => AItems [(None, Some v)])) s' self'
        | IGet | IRemove => (s', self', AOpt None)
        | ISet _ | IIntoMut _ => (s', self', AUnit)
        end
    | (_, self', s') => (s', self', ABad)
    end.

  Definition map_step (C : code Empty_set) (q : request V) (s : S) (self : val)
    : S * val * response V :=
    match q with
    | QLen => ask C "len" [] s self
    | QIsEmpty => ask C "is_empty" [] s self
    | QContains x => ask C "contains_key" [VEnum x] s self
    | QGet x => ask C "get" [VEnum x] s self
    | QInsert x v => ask C "insert" [VEnum x; VUser v] s self
    | QSet x v =>
        match invoke linked C "get_mut" [VEnum x] self VUnit s with
        | (CVal VNone, self', s') => (s', self', AUnit)
        | (CVal (VSome (VRef (MkPlace BSelf p))), self', s') =>
            match write_in self' p (VUser v) with
            | Some self2 => (s', self2, AUnit)
            | None => (s', self', ABad)
            end
        | (_, self', s') => (s', self', ABad)
        end
    | QRemove x => ask C "remove" [VEnum x] s self
    | QRetain => ask C "retain" [] s self
    | QClear => ask C "clear" [] s self
    | QIter => ask C "iter" [] s self
    | QKeys => ask C "keys" [] s self
    | QValues => ask C "values" [] s self
    | QIntoIter => ask C "into_iter" [] s self
    | QIterMut g =>
        assign_all C "iter_mut"
          (fun o => match o with Some x => g x | None => fun v => v end) s self
    | QValuesMut g => assign_all C "values_mut" (fun _ => g) s self
    | QEntry x a => entry_step C x a s self
    end.

  Definition set_step (C : code Empty_set) (q : set_request) (s : S) (self : val)
    : S * val * response V :=
    match q with
    | PLen => ask C "len" [] s self
    | PIsEmpty => ask C "is_empty" [] s self
    | PContains x => ask C "contains" [VEnum x] s self
    | PInsert x => ask C "insert" [VEnum x] s self
    | PRemove x => ask C "remove" [VEnum x] s self
    | PRetain => ask C "retain" [] s self
    | PClear => ask C "clear" [] s self
    | PIter => ask C "iter" [] s self
    | PIntoIter => ask C "into_iter" [] s self
    end.

  (** A new storage, and then the requests. *)
  Definition serve {Q} (step : code Empty_set -> Q -> S -> val -> S * val * response V)
    (C : code Empty_set) (l : list Q) (s : S) : option (list (response V) * S) :=
    match invoke linked C "empty" [] VUnit VUnit s with
    | (CVal self, _, s') => Some (answers (step C) l s' self)
    | _ => None
    end.

  (** A storage from an integer, the requests, and the integer it then has. *)
  Definition serve_raw (C : code Empty_set) (d : N) (l : list set_request) (s : S)
    : option (list (response V) * S * N) :=
    match invoke linked C "from_raw" [VInt d] VUnit VUnit s with
    | (CVal self, _, s') =>
        let '(s2, self2) := after (set_step C) l s' self in
        match invoke linked C "as_raw" [] self2 VUnit s2 with
        | (CVal (VInt d'), _, _) =>
            let '(rs, s3) := answers (set_step C) l s' self in Some (rs, s3, d')
        | _ => None
        end
    | _ => None
    end.
End Running.

(** * The same requests to a storage of the model *)

Section Model.
  Context {S V K : Type} (U : user S V) (ks : list K) (name : K -> string).

  (** The keys that have the name: one, when the names are distinct. *)
  Definition key_named (x : string) : option K :=
    find (fun k => String.eqb (name k) x) ks.

  (** The closures, as they see keys. *)
  Definition keep2_fn : retain_fn S K V := fun s k v =>
    match keep2 U s (name k) v with
    | (s1, v1, None) => (s1, v1, Unwind)
    | (s1, v1, Some true) => (s1, v1, Keep)
    | (s1, v1, Some false) =>
        let '(s2, u) := drop U s1 v1 in (s2, v1, if u then DiscardUnwind else Discard)
    end.
  Definition keep_fn : set_retain_fn S K := fun s k =>
    match keep U s (name k) with
    | (s1, None) => (s1, Unwind)
    | (s1, Some true) => (s1, Keep)
    | (s1, Some false) => (s1, Discard)
    end.

  Definition ended_as (o : outcome) : response V :=
    match o with Done => AUnit | Unwound => AUnwound end.

  (** What an iterator yields, up to a number of items. *)
  Fixpoint drain {A} (I : iterator A) (n : nat) (it : it_st I) : list A :=
    match n with
    | 0 => []
    | Datatypes.S n =>
        match it_next I it with
        | (Some a, it') => a :: drain I n it'
        | (None, _) => []
        end
    end.

  Variable m : MapStorage K V.

  Fixpoint store_all (g : K -> V -> V) (l : list (K * ref)) (st : ms_St m)
    : option (ms_St m) :=
    match l with
    | [] => Some st
    | (k, r) :: rest =>
        match ms_load m st r with
        | Some v =>
            match ms_store m st r (g k v) with
            | Some st' => store_all g rest st'
            | None => None
            end
        | None => None
        end
    end.

  Fixpoint store_values (g : V -> V) (l : list ref) (st : ms_St m) : option (ms_St m) :=
    match l with
    | [] => Some st
    | r :: rest =>
        match ms_load m st r with
        | Some v =>
            match ms_store m st r (g v) with
            | Some st' => store_values g rest st'
            | None => None
            end
        | None => None
        end
    end.

  (** A result that is not an error. *)
  Definition on_ok {A} (r : res A) (st : ms_St m) (k : A -> ms_St m * response V)
    : ms_St m * response V :=
    match r with Ok a => k a | _ => (st, ABad) end.

  Definition stored (o : option (ms_St m)) (st : ms_St m) : ms_St m * response V :=
    match o with Some st' => (st', AUnit) | None => (st, ABad) end.

  Definition model_entry (k : K) (a : entry_act V) (st : ms_St m)
    : ms_St m * response V :=
    match ms_entry m st k with
    | Ok (Occupied e) =>
        match a with
        | IKey => on_ok (ms_occ_key m st e) st (fun k =>
                    (st, AItems [(Some (name k), None)]))
        | IGet => on_ok (ms_occ_get m st e) st (fun v => (st, AOpt (Some v)))
        | ISet v => on_ok (ms_occ_get_mut m st e) st (fun r => stored (ms_store m st r v) st)
        | IIntoMut v => on_ok (ms_occ_into_mut m st e) st (fun r =>
                          stored (ms_store m st r v) st)
        | IInsert v => on_ok (ms_occ_insert m st e v) st (fun '(old, st') =>
                         (st', AOpt (Some old)))
        | IRemove => on_ok (ms_occ_remove m st e) st (fun '(old, st') =>
                       (st', AOpt (Some old)))
        end
    | Ok (Vacant e) =>
        match a with
        | IKey => (st, AItems [(Some (name (ms_vac_key m st e)), None)])
        | IInsert v => on_ok (ms_vac_insert m st e v) st (fun '(r, st') =>
                         (st', match ms_load m st' r with
                               | Some v => AItems [(None, Some v)]
                               | None => ABad end))
        | IGet | IRemove => (st, AOpt None)
        | ISet _ | IIntoMut _ => (st, AUnit)
        end
    | _ => (st, ABad)
    end.

  (** One request; [n] bounds the number of items of an iterator. *)
  Definition model_step (n : nat) (q : request V) (s : S) (st : ms_St m)
    : S * ms_St m * response V :=
    let with_key x (f : K -> ms_St m * response V) :=
      match key_named x with
      | Some k => let '(st', a) := f k in (s, st', a)
      | None => (s, st, ABad)
      end in
    match q with
    | QLen => (s, st, ANat (ms_len m st))
    | QIsEmpty => (s, st, ABool (ms_is_empty m st))
    | QContains x => with_key x (fun k => (st, ABool (ms_contains_key m st k)))
    | QGet x => with_key x (fun k => (st, AOpt (ms_get m st k)))
    | QInsert x v => with_key x (fun k =>
        let '(o, st') := ms_insert m st k v in (st', AOpt o))
    | QSet x v => with_key x (fun k =>
        match ms_get_mut m st k with
        | None => (st, AUnit)
        | Some r => stored (ms_store m st r v) st
        end)
    | QRemove x => with_key x (fun k =>
        let '(o, st') := ms_remove m st k in (st', AOpt o))
    | QRetain => let '(s', st', o) := ms_retain m keep2_fn s st in (s', st', ended_as o)
    | QClear => let '(s', st', o) := ms_clear_drop m (drop U) s st in (s', st', ended_as o)
    | QIter =>
        (s, st, AItems (map (fun e => (Some (name (fst e)), Some (snd e)))
                            (drain (ms_Iter m) n (ms_iter m st))))
    | QIntoIter =>
        (s, st, AItems (map (fun e => (Some (name (fst e)), Some (snd e)))
                            (drain (ms_IntoIter m) n (ms_into_iter m st))))
    | QKeys =>
        (s, st, AItems (map (fun k => (Some (name k), None))
                            (drain (ms_Keys m) n (ms_keys m st))))
    | QValues =>
        (s, st, AItems (map (fun v => (None, Some v))
                            (drain (ms_Values m) n (ms_values m st))))
    | QIterMut g =>
        let '(st', a) := stored
          (store_all (fun k => g (name k)) (drain (ms_IterMut m) n (ms_iter_mut m st)) st) st in
        (s, st', a)
    | QValuesMut g =>
        let '(st', a) := stored
          (store_values g (drain (ms_ValuesMut m) n (ms_values_mut m st)) st) st in
        (s, st', a)
    | QEntry x a => with_key x (fun k => model_entry k a st)
    end.

  Variable ss : SetStorage K.

  Definition model_set_step (n : nat) (q : set_request) (s : S) (st : ss_St ss)
    : S * ss_St ss * response V :=
    let with_key x (f : K -> ss_St ss * response V) :=
      match key_named x with
      | Some k => let '(st', a) := f k in (s, st', a)
      | None => (s, st, ABad)
      end in
    match q with
    | PLen => (s, st, ANat (ss_len ss st))
    | PIsEmpty => (s, st, ABool (ss_is_empty ss st))
    | PContains x => with_key x (fun k => (st, ABool (ss_contains ss st k)))
    | PInsert x => with_key x (fun k =>
        let '(b, st') := ss_insert ss st k in (st', ABool b))
    | PRemove x => with_key x (fun k =>
        let '(b, st') := ss_remove ss st k in (st', ABool b))
    | PRetain => let '(s', st', o) := ss_retain ss keep_fn s st in (s', st', ended_as o)
    | PClear => (s, ss_clear ss st, AUnit)
    | PIter =>
        (s, st, AItems (map (fun k => (Some (name k), None))
                            (drain (ss_Iter ss) n (ss_iter ss st))))
    | PIntoIter =>
        (s, st, AItems (map (fun k => (Some (name k), None))
                            (drain (ss_IntoIter ss) n (ss_into_iter ss st))))
    end.
End Model.
