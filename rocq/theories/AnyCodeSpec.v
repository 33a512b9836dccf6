(** Vocabulary for running the code generated for enums with tuple variants: requests
    to a storage, the responses of the code, and those of the storages of the model. *)
Require Import List Arith NArith Bool String.
Import ListNotations.
From Verif Require Import Std Traits DeriveAny Rust AnyCode AnyRun CodeSpec.
Open Scope string_scope.

(** Which iterator of a map or set. *)
Inductive view : Type := OfIter | OfKeys | OfValues | OfIntoIter.

(** What is asked of an iterator: an item from the front, or, if it is double-ended,
    from the back; to be replaced by its clone, if it borrows what it iterates over
    and does not allow assigning (otherwise nothing happens). *)
Inductive turn : Type := Front | Back | Again.

(** Requests to a map with keys [R].  [TSet] assigns through [get_mut]; [TIterMut]
    and [TValuesMut] assign through every reference they are given, when the last
    one has been given; [TIter OfIntoIter] consumes a copy; [TClone] continues with the
    clone. *)
Inductive task {R Ky V : Type} : Type :=
| TLen | TIsEmpty | TContains (k : R) | TGet (k : R)
| TInsert (k : R) (v : V) | TSet (k : R) (v : V) | TRemove (k : R)
| TRetain | TClear | TClone
| TIter (i : view) (l : list turn)
| TIterMut (g : Ky -> V -> V) (l : list turn)
| TValuesMut (g : V -> V) (l : list turn)
| TEntry (k : R) (a : entry_act V).
Arguments task : clear implicits.

(** Requests to a set. *)
Inductive set_task {R : Type} : Type :=
| ULen | UIsEmpty | UContains (k : R) | UInsert (k : R) | URemove (k : R)
| URetain | UClear | UClone
| UIter (into : bool) (l : list turn).
Arguments set_task : clear implicits.

(** Responses.  The items of an iterator are keys, values or both; [None] where it
    had none.  [RBad] is anything that a request should never be answered with. *)
Inductive reply {Ky V : Type} : Type :=
| RUnit | RBool (b : bool) | RNat (n : nat) | ROpt (o : option V)
| RKey (k : Ky) | RVal (v : V)
| RItems (l : list (option (option Ky * option V)))
| RUnwound
| RBad.
Arguments reply : clear implicits.

(** Answers to a list of requests, and what becomes of the user's state and of the
    storage. *)
Fixpoint replies {S Q St A : Type} (step : Q -> S -> St -> S * St * A)
  (l : list Q) (s : S) (st : St) : list A * S * St :=
  match l with
  | [] => ([], s, st)
  | q :: r =>
      let '(s1, st1, a) := step q s st in
      let '(rest, s2, st2) := replies step r s1 st1 in (a :: rest, s2, st2)
  end.

(** A result for every element, or none at all. *)
Fixpoint all_some {A B} (f : A -> option B) (l : list A) : option (list B) :=
  match l with
  | [] => Some []
  | x :: r =>
      match f x, all_some f r with
      | Some y, Some r' => Some (y :: r')
      | _, _ => None
      end
  end.

Section Enum.
  Context {T : Type} (T_dec : forall a b : T, {a = b} + {a <> b})
          {K : T -> Type} (impl : forall t, KeyImpl (K t)).

  (** * The enum *)

  (** The type of the enum, and the storages that the model has for it. *)
  Fixpoint R_of (flds : vfields T) : Type :=
    match flds with
    | [] => Empty_set
    | (_, None) :: r => (unit + R_of r)%type
    | (_, Some t) :: r => (K t + R_of r)%type
    end.

  Fixpoint fs_of (flds : vfields T) : fields (R_of flds) :=
    match flds return fields (R_of flds) with
    | [] => FNil
    | (_, None) :: r => FUnit (fs_of r)
    | (_, Some t) :: r => FTuple (impl t) (fs_of r)
    end.

  (** A key as it is written: a variant by its name, with what it holds. *)
  Inductive skey : Type :=
  | Plain (x : string)
  | Holding (x : string) (t : T) (k : K t).

  Fixpoint written (flds : vfields T) : R_of flds -> skey :=
    match flds return R_of flds -> skey with
    | [] => fun k => match k with end
    | (x, None) :: r => fun k =>
        match k with inl _ => Plain x | inr k => written r k end
    | (x, Some t) :: r => fun k =>
        match k with inl k => Holding x t k | inr k => written r k end
    end.

  Context {V S : Type}.
  Notation val := (val V (foreign impl V)).
  Notation M := (M impl (V := V)).

  Definition kval (k : skey) : val :=
    match k with
    | Plain x => VEnum x
    | Holding x t k => VEnumOf x (VForeign (XKey t k))
    end.

  Definition as_skey (v : val) : option skey :=
    match v with
    | VEnum x => Some (Plain x)
    | VEnumOf x (VForeign (XKey t k)) => Some (Holding x t k)
    | _ => None
    end.

  (** What the user supplies: the closures of [retain] and the functions on values. *)
  Record auser : Type := MkAUser {
    a_keep : S -> skey -> S * option bool;
    a_keep2 : S -> skey -> V -> S * V * option bool;
    a_values : value_fns V S
  }.
  Variable U : auser.

  (** * Running the generated code *)

  Variable flds : vfields T.

  (** The generated code with the user's functions and the storages of the element
      types; a loop over the fields takes one round per field at most. *)
  Definition alinked (w : world) : env V (foreign impl V) S (meth T) := MkEnv
    (fun s k => match as_skey k with Some k => a_keep U s k | None => (s, None) end)
    (fun s k v => match as_skey k with Some k => a_keep2 U s k v | None => (s, v, None) end)
    (fun s v => drop_val (vf_drop (a_values U)) (fun s _ => (s, false)) v s)
    (ext_call T_dec impl (a_values U) w)
    (ext_retain T_dec impl (a_values U))
    (Datatypes.S (List.length flds)).

  Notation E := (alinked (fun _ _ => [])).

  (** Reading and assigning through a reference, into [v]. *)
  Fixpoint load_at (v : val) (p : list step) : option V :=
    match p with
    | [] => match v with VUser x => Some x | _ => None end
    | SField f :: q =>
        match v with
        | VStruct l => match lookup f l with Some x => load_at x q | None => None end
        | _ => None
        end
    | SPayload :: q => match v with VSome x => load_at x q | _ => None end
    | [SInto r] =>
        match v with VForeign (XMap t s) => ms_load (M t) s r | _ => None end
    | _ => None
    end.

  Fixpoint store_at (v : val) (p : list step) (n : V) : option val :=
    match p with
    | [] => match v with VUser _ => Some (VUser n) | _ => None end
    | SField f :: q =>
        match v with
        | VStruct l =>
            match lookup f l with
            | Some x =>
                match store_at x q n with
                | Some y => option_map VStruct (Rust.assign f y l)
                | None => None
                end
            | None => None
            end
        | _ => None
        end
    | SPayload :: q =>
        match v with VSome x => option_map VSome (store_at x q n) | _ => None end
    | [SInto r] =>
        match v with
        | VForeign (XMap t s) =>
            option_map (fun s => VForeign (XMap t s)) (ms_store (M t) s r n)
        | _ => None
        end
    | _ => None
    end.

  (** A value, or what a reference into [self] points to. *)
  Definition value_of (self v : val) : option V :=
    match v with
    | VUser x => Some x
    | VRef (MkPlace BSelf p) => load_at self p
    | _ => None
    end.

  Definition reply_of (self : val) (c : ctl V (foreign impl V)) : reply skey V :=
    match c with
    | CVal VUnit => RUnit
    | CVal (VBool b) => RBool b
    | CVal (VUsize n) => RNat n
    | CVal VNone => ROpt None
    | CVal (VSome v) =>
        match value_of self v with Some x => ROpt (Some x) | None => RBad end
    | CUnwound => RUnwound
    | _ => RBad
    end.

  (** One call on a storage. *)
  Definition call_on (C : code (meth T)) (m : string) (args : list val) (s : S) (self : val)
    : S * val * reply skey V :=
    let '(c, self', s') := invoke E C m args self VUnit s in
    (s', self', reply_of self' c).

  (** ** Iterators *)

  (** The [where] clause of [DoubleEndedIterator] (any_variants.rs:727-739). *)
  Definition reversible (q : ikind) : bool :=
    forallb (fun f => match snd f with
                      | Some t => is_some (it_back (it_of impl (V := V) q t))
                      | None => true end) flds.

  (** Iterators that are cloned by [Again]. *)
  Definition clonable (q : ikind) : bool :=
    match q with KIterMut | KValuesMut | KIntoIter => false | _ => true end.

  (** What an iterator answers to a list of turns. *)
  Fixpoint run_turns (q : ikind) (l : list turn) (it : val) (s : S) : option (list val * S) :=
    let item m r :=
      match invoke E (iter_code q flds) m [] it VUnit s with
      | (CVal v, it', s') =>
          match run_turns q r it' s' with
          | Some (vs, s2) => Some (v :: vs, s2)
          | None => None
          end
      | _ => None
      end in
    match l with
    | [] => Some ([], s)
    | Front :: r => item "next" r
    | Back :: r => if reversible q then item "next_back" r else run_turns q r it s
    | Again :: r =>
        if clonable q then
          match invoke E (iter_code q flds) "clone" [] it VUnit s with
          | (CVal it', _, s') => run_turns q r it' s'
          | _ => None
          end
        else run_turns q r it s
    end.

  (** The parts of an item that are shown. *)
  Definition show (self v : val) : option (option (option skey * option V)) :=
    match v with
    | VNone => Some None
    | VSome (VPair k x) =>
        match as_skey k, value_of self x with
        | Some k, Some v => Some (Some (Some k, Some v))
        | _, _ => None
        end
    | VSome x =>
        match as_skey x, value_of self x with
        | Some k, _ => Some (Some (Some k, None))
        | None, Some v => Some (Some (None, Some v))
        | None, None => None
        end
    | _ => None
    end.

  Definition iterate (C : code (meth T)) (m : string) (q : ikind) (l : list turn)
    (s : S) (self : val) : S * val * reply skey V :=
    match invoke E C m [] self VUnit s with
    | (CVal it, self', s') =>
        match run_turns q l it s' with
        | Some (vs, s2) =>
            (s2, self', match all_some (show self') vs with
                        | Some items => RItems items
                        | None => RBad end)
        | None => (s', self', RBad)
        end
    | (_, self', s') => (s', self', RBad)
    end.

  (** Assigning through every reference; shown are the old values. *)
  Fixpoint assign_each (g : option skey -> V -> V) (l : list val) (self : val)
    : option (list (option (option skey * option V)) * val) :=
    let through o p r :=
      match load_at self p with
      | Some v =>
          match store_at self p (g o v) with
          | Some self' =>
              option_map (fun e => (Some (o, Some v) :: fst e, snd e)) (assign_each g r self')
          | None => None
          end
      | None => None
      end in
    match l with
    | [] => Some ([], self)
    | VNone :: r => option_map (fun e => (None :: fst e, snd e)) (assign_each g r self)
    | VSome (VPair k (VRef (MkPlace BSelf p))) :: r =>
        match as_skey k with Some k => through (Some k) p r | None => None end
    | VSome (VRef (MkPlace BSelf p)) :: r => through None p r
    | _ => None
    end.

  Definition iterate_mut (C : code (meth T)) (m : string) (q : ikind)
    (g : option skey -> V -> V) (l : list turn) (s : S) (self : val)
    : S * val * reply skey V :=
    match invoke E C m [] self VUnit s with
    | (CVal it, self', s') =>
        match run_turns q l it s' with
        | Some (vs, s2) =>
            match assign_each g vs self' with
            | Some (items, self2) => (s2, self2, RItems items)
            | None => (s2, self', RBad)
            end
        | None => (s', self', RBad)
        end
    | (_, self', s') => (s', self', RBad)
    end.

  (** ** Entries *)

  Definition on_entry (m : string) (args : list val) (entry : val)
    (k : val -> val -> val * reply skey V) (s : S) (self : val) : S * val * reply skey V :=
    match invoke_entry E (any_entry_code flds) m args entry self s with
    | (CVal v, self', s') => let '(self2, a) := k self' v in (s', self2, a)
    | (_, self', s') => (s', self', RBad)
    end.

  Definition its_key (self v : val) : val * reply skey V :=
    (self, match as_skey v with Some k => RKey k | None => RBad end).
  Definition its_value (f : V -> reply skey V) (self v : val) : val * reply skey V :=
    (self, match value_of self v with Some x => f x | None => RBad end).
  Definition assigned (v : V) (self r : val) : val * reply skey V :=
    match r with
    | VRef (MkPlace BSelf p) =>
        match store_at self p v with
        | Some self' => (self', RUnit)
        | None => (self, RBad)
        end
    | _ => (self, RBad)
    end.

  Definition do_entry (C : code (meth T)) (k : R_of flds) (a : entry_act V) (s : S) (self : val)
    : S * val * reply skey V :=
    match invoke E C "entry" [kval (written flds k)] self VUnit s with
    | (CVal (VEnumOf "Occupied" e), self', s') =>
        match a with
        | IKey => on_entry "OccupiedEntry::key" [] e its_key s' self'
        | IGet => on_entry "OccupiedEntry::get" [] e (its_value (fun v => ROpt (Some v))) s' self'
        | ISet v => on_entry "OccupiedEntry::get_mut" [] e (assigned v) s' self'
        | IIntoMut v => on_entry "OccupiedEntry::into_mut" [] e (assigned v) s' self'
        | IInsert v =>
            on_entry "OccupiedEntry::insert" [VUser v] e (its_value (fun v => ROpt (Some v))) s' self'
        | IRemove =>
            on_entry "OccupiedEntry::remove" [] e (its_value (fun v => ROpt (Some v))) s' self'
        end
    | (CVal (VEnumOf "Vacant" e), self', s') =>
        match a with
        | IKey => on_entry "VacantEntry::key" [] e its_key s' self'
        | IInsert v => on_entry "VacantEntry::insert" [VUser v] e (its_value (@RVal skey V)) s' self'
        | IGet | IRemove => (s', self', ROpt None)
        | ISet _ | IIntoMut _ => (s', self', RUnit)
        end
    | (_, self', s') => (s', self', RBad)
    end.

  (** Continuing with a clone; without one, with the storage itself. *)
  Definition reclone (C : code (meth T)) (s : S) (self : val) : S * val * reply skey V :=
    match invoke E C "clone" [] self VUnit s with
    | (CVal self', _, s') => (s', self', RUnit)
    | (CUnwound, self', s') => (s', self', RUnwound)
    | (_, self', s') => (s', self', RBad)
    end.

  (** ** Requests *)

  Definition do_task (q : task (R_of flds) skey V) (s : S) (self : val)
    : S * val * reply skey V :=
    let C := any_map_code flds in
    let key k := kval (written flds k) in
    match q with
    | TLen => call_on C "len" [] s self
    | TIsEmpty => call_on C "is_empty" [] s self
    | TContains k => call_on C "contains_key" [key k] s self
    | TGet k => call_on C "get" [key k] s self
    | TInsert k v => call_on C "insert" [key k; VUser v] s self
    | TSet k v =>
        match invoke E C "get_mut" [key k] self VUnit s with
        | (CVal VNone, self', s') => (s', self', RUnit)
        | (CVal (VSome r), self', s') => let '(self2, a) := assigned v self' r in (s', self2, a)
        | (_, self', s') => (s', self', RBad)
        end
    | TRemove k => call_on C "remove" [key k] s self
    | TRetain => call_on C "retain" [] s self
    | TClear => call_on C "clear" [] s self
    | TClone => reclone C s self
    | TIter OfIter l => iterate C "iter" KIter l s self
    | TIter OfKeys l => iterate C "keys" KKeys l s self
    | TIter OfValues l => iterate C "values" KValues l s self
    | TIter OfIntoIter l => iterate C "into_iter" KIntoIter l s self
    | TIterMut g l =>
        iterate_mut C "iter_mut" KIterMut
          (fun o => match o with Some k => g k | None => fun v => v end) l s self
    | TValuesMut g l => iterate_mut C "values_mut" KValuesMut (fun _ => g) l s self
    | TEntry k a => do_entry C k a s self
    end.

  Definition do_set_task (q : set_task (R_of flds)) (s : S) (self : val)
    : S * val * reply skey V :=
    let C := any_set_code flds in
    let key k := kval (written flds k) in
    match q with
    | ULen => call_on C "len" [] s self
    | UIsEmpty => call_on C "is_empty" [] s self
    | UContains k => call_on C "contains" [key k] s self
    | UInsert k => call_on C "insert" [key k] s self
    | URemove k => call_on C "remove" [key k] s self
    | URetain => call_on C "retain" [] s self
    | UClear => call_on C "clear" [] s self
    | UClone => reclone C s self
    | UIter false l => iterate C "iter" KSetIter l s self
    | UIter true l => iterate C "into_iter" KSetIntoIter l s self
    end.

  (** A new storage, and then the requests. *)
  Definition work {Q} (step : Q -> S -> val -> S * val * reply skey V) (C : code (meth T))
    (w : world) (l : list Q) (s : S) : option (list (reply skey V) * S * val) :=
    match invoke (alinked w) C "empty" [] VUnit VUnit s with
    | (CVal self, _, s') => Some (replies step l s' self)
    | _ => None
    end.

  (** Two storages, and then whether they are equal. *)
  Definition work2 {Q} (step : Q -> S -> val -> S * val * reply skey V) (C : code (meth T))
    (w1 w2 : world) (l1 l2 : list Q) (s : S) : option (S * reply skey V) :=
    match work step C w1 l1 s with
    | Some (_, s1, a) =>
        match work step C w2 l2 s1 with
        | Some (_, s2, b) =>
            let '(c, a', s3) := invoke E C "eq" [] a b s2 in Some (s3, reply_of a' c)
        | None => None
        end
    | None => None
    end.

  (** * The same requests to the storages of the model *)

  (** The closures, as they see keys. *)
  Definition a_keep2_fn : retain_fn S (R_of flds) V := fun s k v =>
    match a_keep2 U s (written flds k) v with
    | (s1, v1, None) => (s1, v1, Unwind)
    | (s1, v1, Some true) => (s1, v1, Keep)
    | (s1, v1, Some false) =>
        let '(s2, u) := vf_drop (a_values U) s1 v1 in
        (s2, v1, if u then DiscardUnwind else Discard)
    end.
  Definition a_keep_fn : set_retain_fn S (R_of flds) := fun s k =>
    match a_keep U s (written flds k) with
    | (s1, None) => (s1, Unwind)
    | (s1, Some true) => (s1, Keep)
    | (s1, Some false) => (s1, Discard)
    end.

  Definition ended (o : outcome) : reply skey V :=
    match o with Done => RUnit | Unwound => RUnwound end.

  (** What an iterator of the model answers to turns. *)
  Fixpoint take_turns {A} (I : iterator A) (clones : bool) (l : list turn) (it : it_st I)
    : list (option A) :=
    match l with
    | [] => []
    | Front :: r => let '(x, it') := it_next I it in x :: take_turns I clones r it'
    | Back :: r =>
        match it_back I with
        | Some b => let '(x, it') := b it in x :: take_turns I clones r it'
        | None => take_turns I clones r it
        end
    | Again :: r => take_turns I clones r (if clones then it_clone I it else it)
    end.

  Definition shown {A} (f : A -> option skey * option V) (l : list (option A))
    : reply skey V := RItems (map (option_map f) l).

  Notation m := (any_map_storage V (fs_of flds)).
  Notation ss := (any_set_storage (fs_of flds)).

  Fixpoint store_each {A} (of : A -> option skey * ref) (g : option skey -> V -> V)
    (l : list (option A)) (st : ms_St m)
    : option (list (option (option skey * option V)) * ms_St m) :=
    match l with
    | [] => Some ([], st)
    | None :: r => option_map (fun e => (None :: fst e, snd e)) (store_each of g r st)
    | Some a :: r =>
        match ms_load m st (snd (of a)) with
        | Some v =>
            match ms_store m st (snd (of a)) (g (fst (of a)) v) with
            | Some st' =>
                option_map (fun e => (Some (fst (of a), Some v) :: fst e, snd e))
                           (store_each of g r st')
            | None => None
            end
        | None => None
        end
    end.

  Definition with_items (s : S) (st : ms_St m)
    (o : option (list (option (option skey * option V)) * ms_St m))
    : S * ms_St m * reply skey V :=
    match o with
    | Some (items, st') => (s, st', RItems items)
    | None => (s, st, RBad)
    end.

  Definition if_Ok {A} (r : res A) (st : ms_St m) (k : A -> ms_St m * reply skey V)
    : ms_St m * reply skey V :=
    match r with Ok a => k a | _ => (st, RBad) end.

  Definition put_at (st : ms_St m) (r : ref) (v : V) : ms_St m * reply skey V :=
    match ms_store m st r v with Some st' => (st', RUnit) | None => (st, RBad) end.

  Definition of_entry (k : R_of flds) (a : entry_act V) (st : ms_St m)
    : ms_St m * reply skey V :=
    match ms_entry m st k with
    | Ok (Occupied e) =>
        match a with
        | IKey => if_Ok (ms_occ_key m st e) st (fun k => (st, RKey (written flds k)))
        | IGet => if_Ok (ms_occ_get m st e) st (fun v => (st, ROpt (Some v)))
        | ISet v => if_Ok (ms_occ_get_mut m st e) st (fun r => put_at st r v)
        | IIntoMut v => if_Ok (ms_occ_into_mut m st e) st (fun r => put_at st r v)
        | IInsert v => if_Ok (ms_occ_insert m st e v) st (fun p => (snd p, ROpt (Some (fst p))))
        | IRemove => if_Ok (ms_occ_remove m st e) st (fun p => (snd p, ROpt (Some (fst p))))
        end
    | Ok (Vacant e) =>
        match a with
        | IKey => (st, RKey (written flds (ms_vac_key m st e)))
        | IInsert v => if_Ok (ms_vac_insert m st e v) st (fun p =>
                         (snd p, match ms_load m (snd p) (fst p) with
                                 | Some v => RVal v
                                 | None => RBad end))
        | IGet | IRemove => (st, ROpt None)
        | ISet _ | IIntoMut _ => (st, RUnit)
        end
    | _ => (st, RBad)
    end.

  Definition model_task (q : task (R_of flds) skey V) (s : S) (st : ms_St m)
    : S * ms_St m * reply skey V :=
    match q with
    | TLen => (s, st, RNat (ms_len m st))
    | TIsEmpty => (s, st, RBool (ms_is_empty m st))
    | TContains k => (s, st, RBool (ms_contains_key m st k))
    | TGet k => (s, st, ROpt (ms_get m st k))
    | TInsert k v => let '(o, st') := ms_insert m st k v in (s, st', ROpt o)
    | TSet k v =>
        match ms_get_mut m st k with
        | None => (s, st, RUnit)
        | Some r => let '(st', a) := put_at st r v in (s, st', a)
        end
    | TRemove k => let '(o, st') := ms_remove m st k in (s, st', ROpt o)
    | TRetain => let '(s', st', o) := ms_retain m a_keep2_fn s st in (s', st', ended o)
    | TClear =>
        let '(s', st', o) := ms_clear_drop m (vf_drop (a_values U)) s st in (s', st', ended o)
    | TClone =>
        match ms_clone_with m (vf_clone (a_values U)) s st with
        | (s', Some st') => (s', st', RUnit)
        | (s', None) => (s', st, RUnwound)
        end
    | TIter OfIter l =>
        (s, st, shown (fun e => (Some (written flds (fst e)), Some (snd e)))
                      (take_turns (ms_Iter m) true l (ms_iter m st)))
    | TIter OfKeys l =>
        (s, st, shown (fun k => (Some (written flds k), None))
                      (take_turns (ms_Keys m) true l (ms_keys m st)))
    | TIter OfValues l =>
        (s, st, shown (fun v => (None, Some v))
                      (take_turns (ms_Values m) true l (ms_values m st)))
    | TIter OfIntoIter l =>
        (s, st, shown (fun e => (Some (written flds (fst e)), Some (snd e)))
                      (take_turns (ms_IntoIter m) false l (ms_into_iter m st)))
    | TIterMut g l =>
        with_items s st
          (store_each (fun e => (Some (written flds (fst e)), snd e))
             (fun o => match o with Some k => g k | None => fun v => v end)
             (take_turns (ms_IterMut m) false l (ms_iter_mut m st)) st)
    | TValuesMut g l =>
        with_items s st
          (store_each (fun r => (None, r)) (fun _ => g)
             (take_turns (ms_ValuesMut m) false l (ms_values_mut m st)) st)
    | TEntry k a => let '(st', r) := of_entry k a st in (s, st', r)
    end.

  Definition model_set_task (q : set_task (R_of flds)) (s : S) (st : ss_St ss)
    : S * ss_St ss * reply skey V :=
    match q with
    | ULen => (s, st, RNat (ss_len ss st))
    | UIsEmpty => (s, st, RBool (ss_is_empty ss st))
    | UContains k => (s, st, RBool (ss_contains ss st k))
    | UInsert k => let '(b, st') := ss_insert ss st k in (s, st', RBool b)
    | URemove k => let '(b, st') := ss_remove ss st k in (s, st', RBool b)
    | URetain => let '(s', st', o) := ss_retain ss a_keep_fn s st in (s', st', ended o)
    | UClear => (s, ss_clear ss st, RUnit)
    | UClone => (s, ss_clone ss st, RUnit)
    | UIter false l =>
        (s, st, shown (fun k => (Some (written flds k), None))
                      (take_turns (ss_Iter ss) true l (ss_iter ss st)))
    | UIter true l =>
        (s, st, shown (fun k => (Some (written flds k), None))
                      (take_turns (ss_IntoIter ss) true l (ss_into_iter ss st)))
    end.

  (** Two storages of the model, and whether they are equal. *)
  Definition model_eq (a b : ms_St m) (s : S) : S * reply skey V :=
    match ms_eq_with m (vf_eq (a_values U)) s a b with
    | (s', Some b) => (s', RBool b)
    | (s', None) => (s', RUnwound)
    end.
End Enum.
Arguments auser {T} K V S.
Arguments MkAUser {T K V S}.
Arguments skey {T} K.
Arguments Plain {T K}.
Arguments Holding {T K}.

(** [retain] of the storages of a key type calls its closure and does nothing else
    with it: closures that do the same have the same effect. *)
Definition retains {K} (ki : KeyImpl K) : Prop :=
  (forall (V S : Type) (f g : retain_fn S K V) s st,
     (forall s k v, f s k v = g s k v) ->
     ms_retain (ki_map ki V) f s st = ms_retain (ki_map ki V) g s st) /\
  (forall (S : Type) (f g : set_retain_fn S K) s st,
     (forall s k, f s k = g s k) ->
     ss_retain (ki_set ki) f s st = ss_retain (ki_set ki) g s st).
