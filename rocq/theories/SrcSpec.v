(** Vocabulary for running source files: requests to a storage, how the interpreter runs
    the text of a file to answer them, and the answers of the storages of the model. *)
Require Import List Arith NArith Bool String.
Import ListNotations.
From Verif Require Import Std Traits SrcParse SrcRun.
Open Scope string_scope.

(** What is asked of an iterator: an item from the front, one from the back (nothing happens
    if it is not double-ended), to be replaced by its clone (nothing happens if it hands out
    values or [&mut]), the bounds of its length. *)
Inductive ask : Type := ANext | ABack | AClone | AHint.

(** Which iterator. *)
Inductive seen : Type := ByIter | ByKeys | ByValues | ByIntoIter.

(** What is done with an entry; nothing, if it is vacant, by [OnGet], [OnSet], [OnIntoMut] and
    [OnRemove]. *)
Inductive entry_use {V : Type} : Type :=
| OnKey | OnGet | OnSet (v : V) | OnIntoMut (v : V) | OnInsert (v : V) | OnRemove.
Arguments entry_use : clear implicits.

(** Requests to a map.  [MSet] assigns through [get_mut]; [MIterMut] and [MValuesMut] assign
    through every reference, when the last one has been given; [ByIntoIter] consumes a copy;
    [MClone] goes on with the clone. *)
Inductive req {K V : Type} : Type :=
| MLen | MIsEmpty | MContains (k : K) | MGet (k : K) | MInsert (k : K) (v : V)
| MSet (k : K) (v : V) | MRemove (k : K) | MRetain | MClear | MClone
| MIter (i : seen) (l : list ask)
| MIterMut (g : K -> V -> V) (l : list ask)
| MValuesMut (g : V -> V) (l : list ask)
| MEntry (k : K) (a : entry_use V).
Arguments req : clear implicits.

(** Requests to a set. *)
Inductive sreq {K : Type} : Type :=
| NLen | NIsEmpty | NContains (k : K) | NInsert (k : K) | NRemove (k : K)
| NRetain | NClear | NClone | NIter (into : bool) (l : list ask).
Arguments sreq : clear implicits.

(** What an iterator says: an item (a key, a value or both) or none, or the bounds. *)
Inductive told {K V : Type} : Type :=
| Item (o : option (option K * option V))
| Bounds (lower : nat) (upper : option nat).
Arguments told : clear implicits.

(** Answers.  [Bad] is anything that a request should never be answered with: undefined
    behaviour, a leak, an error of the program, or no end. *)
Inductive ans {K V : Type} : Type :=
| Nothing | Yes (b : bool) | Num (n : nat) | Opt (o : option V) | Key (k : K) | Val (v : V)
| Items (l : list (told K V)) | Unwinds | Bad.
Arguments ans : clear implicits.

(** What the user supplies: closures for [retain] and the functions on values; [None] when
    they unwind ([true] for the destructor). *)
Record user_fns {K V S : Type} : Type := MkUser {
  u_keep : S -> K -> V -> S * V * option bool;
  u_keep1 : S -> K -> S * option bool;
  u_clone : clone_fn S V;
  u_eq : eq_fn S V;
  u_drop : drop_fn S V
}.
Arguments user_fns : clear implicits.
Arguments MkUser {K V S}.

(** Answers to a list of requests, and what becomes of the surroundings and the storage. *)
Fixpoint answers {S Q St A : Type} (step : Q -> S -> St -> S * St * A) (l : list Q) (s : S) (st : St)
  : list A * S * St :=
  match l with
  | [] => ([], s, st)
  | q :: r =>
      let '(s1, st1, a) := step q s st in
      let '(rest, s2, st2) := answers step r s1 st1 in (a :: rest, s2, st2)
  end.

(** A result for every element, or none at all. *)
Fixpoint every {A B} (f : A -> option B) (l : list A) : option (list B) :=
  match l with
  | [] => Some []
  | x :: r =>
      match f x, every f r with
      | Some y, Some r' => Some (y :: r')
      | _, _ => None
      end
  end.

(** How a pattern of [None] and of results looks. *)
Definition hint_of {K V} (h : nat * option nat) : told K V := Bounds (fst h) (snd h).

Section Text.
  Context {K V X S : Type}.
  Notation val := (val V X).
  Notation ctl := (ctl V X).
  Notation store := (list val).
  Notation question := (question V X).
  Notation reply := (reply V X).

  (** A file to be run: the program it is part of, which of its types are the storage and
      the entries, how keys are written down, which iterators are double-ended; what
      the program uses but does not define. *)
  Record file : Type := MkFile {
    f_prog : list item;
    f_trait : string;
    f_storage : string;
    f_occ : string;
    f_vac : string;
    f_key : K -> val;
    f_as_key : val -> option K;
    f_both : string -> bool;
    f_load : X -> ref -> option V;
    f_store : X -> ref -> V -> option X;
    f_foreign : user_fns K V S -> (val -> bool -> val -> option V -> S -> S * option V * Std.answer) -> world
                -> question -> S -> S * reply;
    f_at_self : X -> bool
  }.
  Variable F : file.
  Variable U : user_fns K V S.

  (** The user's closure, called with a key and a reference to a value, or with a key. *)
  Definition call_keep (s : S) (args : list (val * option val)) : S * reply :=
    let wrong := (s, MkReply CStuck [] []) in
    let said o := match o with Some b => CVal (VBool b) | None => CUnwound end in
    match args with
    | [(a, None); (VRef p, Some (VUser v))] =>
        match f_as_key F a with
        | Some k => let '(s', v', o) := u_keep U s k v in (s', MkReply (said o) [(p, VUser v')] [])
        | None => wrong
        end
    | [(a, None)] =>
        match f_as_key F a with
        | Some k => let '(s', o) := u_keep1 U s k in (s', MkReply (said o) [] [])
        | None => wrong
        end
    | _ => wrong
    end.
  (** What is asked of the user. *)
  Definition user_answer (other : question -> S -> S * reply) (q : question) (s : S) : S * reply :=
    match q with
    | QGiven _ args => call_keep s args
    | QDrop v => let '(s', b) := u_drop U s v in (s', MkReply (if b then CUnwound else CVal unit_) [] [])
    | QClone v =>
        let '(s', o) := u_clone U s v in
        (s', MkReply (match o with Some y => CVal (VUser y) | None => CUnwound end) [] [])
    | QEq a b =>
        let '(s', o) := u_eq U s a b in
        (s', MkReply (match o with Some c => CVal (VBool c) | None => CUnwound end) [] [])
    | _ => other q s
    end.

  (** How long a program may take, and how many questions it may ask. *)
  Definition fuel : nat := 100.
  Definition budget : nat := 20.

  (** A closure of the program that a foreign storage calls with a key, or a reference to
      one, and, if it has one, a reference to a value: what it makes of the value, and
      whether the value stays.  If not, it is dropped. *)
  Definition callback (f : val) (by_ref : bool) (key : val) (v : option V) (s : S)
    : S * option V * Std.answer :=
    let wrong q s := (s, MkReply CStuck [] []) in
    let k := if by_ref then VRef (At 1 []) else key in
    let args := match v with Some _ => [k; VRef (At 0 [])] | None => [k] end in
    let cs := match v with Some v => [VUser v; key] | None => [unit_; key] end in
    match drive (user_answer wrong) (apply (f_prog F) fuel f args) cs budget [] s with
    | (c, cs', s1) =>
        let v1 := match v, cs' with Some _, VUser v1 :: _ => Some v1 | _, _ => None end in
        match c with
        | CVal (VBool true) => (s1, v1, Keep)
        | CVal (VBool false) =>
            match v1 with
            | Some x => let '(s2, u) := u_drop U s1 x in (s2, v1, if u then DiscardUnwind else Discard)
            | None => (s1, v1, Discard)
            end
        | _ => (s1, v1, Unwind)
        end
    end.
  Definition answer (w : world) : question -> S -> S * reply :=
    user_answer (fun q s =>
      match q with
      | QLoad x r =>
          (s, MkReply (match f_load F x r with Some v => CVal (VUser v) | None => CStuck end) [] [])
      | QStore x r v =>
          (s, MkReply (match f_store F x r v with Some y => CVal (VForeign y) | None => CStuck end) [] [])
      | _ => f_foreign F U callback w q s
      end).

  (** Running something. *)
  Definition go {A} (w : world) (act : run V X A) (cs : store) (s : S) : ctl A * store * S :=
    drive (answer w) act cs budget [] s.
  (** Without new hash tables. *)
  Definition old : world := fun _ _ => [].

  (** A function of a trait; without a trait, any function of the type. *)
  Definition function_of (tr ty m : string) : option fn :=
    if String.eqb tr "" then find_fn (f_prog F) ty m else find_in_trait (f_prog F) tr ty m.
  (** The function that makes a new storage; that of [Map] and [Set] has another name. *)
  Definition maker : string := if String.eqb (f_trait F) "" then "new" else "empty".

  (** A function of the trait, with the storage in the first cell of the store and another
      value in the second. *)
  Definition invoke (w : world) (tr ty m : string) (args : list val) (cs : store) (s : S)
    : ctl val * store * S :=
    match function_of tr ty m with
    | Some f => go w (call_fn (f_prog F) fuel ty f args) cs s
    | None => (CStuck, cs, s)
    end.
  (** How the function takes the value in a cell: by reference or by value. *)
  Definition self_arg (tr ty m : string) (cell : nat) (v : val) : val :=
    match function_of tr ty m with
    | Some (Fn _ SelfValue _ _) => v
    | _ => VRef (At cell [])
    end.

  (** The storage after a call. *)
  Definition self_in (t : store) : val := nth 0 t unit_.
  (** A part of a value, also if it is inside a foreign value; changing it. *)
  Definition seen_at (v : val) (p : list step) : option val :=
    match get_at v p with
    | Here x => Some x
    | Inside x r => option_map (fun v => VUser v) (f_load F x r)
    | Nowhere => None
    end.
  Definition changed_at (v : val) (p : list step) (n : V) : option val :=
    match get_at v p with
    | Here (VUser _) => set_at v p (VUser n)
    | Inside x r =>
        match f_store F x r n with
        | Some y => set_at v p (VForeign y)
        | None => None
        end
    | _ => None
    end.
  (** What is at a place. *)
  Definition at_ (t : store) (p : place) : option val :=
    match nth_error t (p_cell p) with
    | Some v => seen_at v (p_path p)
    | None => None
    end.
  (** A value of the user, or a reference to one. *)
  Definition value_of (t : store) (v : val) : option V :=
    match v with
    | VUser x => Some x
    | VRef p => match at_ t p with Some (VUser x) => Some x | _ => None end
    | _ => None
    end.
  (** References in a value lead to the storage only: the rest of the store can go. *)
  Fixpoint at_self (v : val) : bool :=
    match v with
    | VRef p => Nat.eqb (p_cell p) 0
    | VData _ _ l | VClos _ _ l _ =>
        (fix go (l : list (string * val)) : bool :=
           match l with
           | [] => true
           | (_, v) :: r => at_self v && go r
           end) l
    | VForeign x => f_at_self F x
    | _ => true
    end.

  Definition option_of (v : val) : option (option val) :=
    match v with
    | VData "Option" "None" _ => Some None
    | VData "Option" "Some" [(_, x)] => Some (Some x)
    | _ => None
    end.

  Definition answer_of (t : store) (c : ctl val) : ans K V :=
    match c with
    | CVal (VBool b) => Yes b
    | CVal (VNum n) => Num n
    | CVal (VData "()" "" []) => Nothing
    | CVal v =>
        match option_of v with
        | Some None => Opt None
        | Some (Some x) => match value_of t x with Some x => Opt (Some x) | None => Bad end
        | None => Bad
        end
    | CUnwound => Unwinds
    | _ => Bad
    end.

  (** One call on the storage. *)
  Definition call_on (m : string) (args : list val) (s : S) (self : val) : S * val * ans K V :=
    let '(c, t, s1) := invoke old (f_trait F) (f_storage F) m
                     (self_arg (f_trait F) (f_storage F) m 0 self :: args) [self] s in
    (s1, self_in t, answer_of t c).

  (** ** Iterators *)

  (** The parts of an item. *)
  Definition parts_of (v : val) : option K * option val :=
    match v with
    | VData "()" "" [(_, k); (_, x)] => (f_as_key F k, Some x)
    | _ =>
        match f_as_key F v with
        | Some k => (Some k, None)
        | None => (None, Some v)
        end
    end.
  Definition item_of (t : store) (v : val) : option (told K V) :=
    match option_of v with
    | Some None => Some (Item None)
    | Some (Some x) =>
        match parts_of x with
        | (Some k, None) => Some (Item (Some (Some k, None)))
        | (k, Some x) =>
            match value_of t x with Some v => Some (Item (Some (k, Some v))) | None => None end
        | (None, None) => None
        end
    | None => None
    end.
  Definition bounds_of (t : store) (v : val) : option (told K V) :=
    match v with
    | VData "()" "" [(_, VNum a); (_, b)] =>
        match option_of b with
        | Some None => Some (Bounds a None)
        | Some (Some (VNum b)) => Some (Bounds a (Some b))
        | _ => None
        end
    | _ => None
    end.

  (** A method of an iterator that is in the second cell of the store: its result, looked
      at, and what becomes of the storage, the iterator and the surroundings. *)
  Definition ask_it {A} (look : store -> val -> option A) (m : string) (self it : val) (s : S)
    : option (A * val * val * S) :=
    match go old (method (f_prog F) fuel (At 1 []) m []) [self; it] s with
    | (CVal v, t, s1) =>
        match look t v, nth_error t 1 with
        | Some a, Some it' => if at_self it' then Some (a, self_in t, it', s1) else None
        | _, _ => None
        end
    | _ => None
    end.

  (** What is asked of an iterator; [look] is what is done with each item. *)
  Fixpoint asking_all {A} (both clones : bool) (look bounds : store -> val -> option A) (l : list ask)
    (self it : val) (s : S) : option (list A * S) :=
    let on f m r :=
      match ask_it f m self it s with
      | Some (a, self', it', s') =>
          option_map (fun e => (a :: fst e, snd e)) (asking_all both clones look bounds r self' it' s')
      | None => None
      end in
    match l with
    | [] => Some ([], s)
    | ANext :: r => on look "next" r
    | ABack :: r => if both then on look "next_back" r else asking_all both clones look bounds r self it s
    | AClone :: r =>
        if clones then
          match ask_it (fun _ v => if at_self v then Some v else None) "clone" self it s with
          | Some (it', self', _, s') => asking_all both clones look bounds r self' it' s'
          | None => None
          end
        else asking_all both clones look bounds r self it s
    | AHint :: r => on bounds "size_hint" r
    end.

  Definition iterate (both clones : bool) (m : string) (l : list ask) (s : S) (self : val)
    : S * val * ans K V :=
    match invoke old (f_trait F) (f_storage F) m
            [self_arg (f_trait F) (f_storage F) m 0 self] [self] s with
    | (CVal it, t, s1) =>
        if at_self it then
          match asking_all both clones item_of bounds_of l (self_in t) it (s1) with
          | Some (items, s') => (s', self_in t, Items items)
          | None => (s1, self_in t, Bad)
          end
        else (s1, self_in t, Bad)
    | (_, t, s1) => (s1, self_in t, Bad)
    end.

  (** Items that are references into the storage, to be assigned through. *)
  Definition place_of (t : store) (v : val) : option (told K V + option K * place) :=
    match option_of v with
    | Some None => Some (inl (Item None))
    | Some (Some x) =>
        match parts_of x with
        | (k, Some (VRef p)) => if Nat.eqb (p_cell p) 0 then Some (inr (k, p)) else None
        | _ => None
        end
    | None => None
    end.
  Fixpoint assign_all (g : option K -> V -> V) (l : list (told K V + option K * place)) (self : val)
    : option (list (told K V) * val) :=
    match l with
    | [] => Some ([], self)
    | inl a :: r => option_map (fun e => (a :: fst e, snd e)) (assign_all g r self)
    | inr (k, p) :: r =>
        match seen_at self (p_path p) with
        | Some (VUser v) =>
            match changed_at self (p_path p) (g k v) with
            | Some self' =>
                option_map (fun e => (Item (Some (k, Some v)) :: fst e, snd e)) (assign_all g r self')
            | None => None
            end
        | _ => None
        end
    end.
  Definition iterate_mut (both : bool) (m : string) (g : option K -> V -> V) (l : list ask) (s : S) (self : val)
    : S * val * ans K V :=
    match invoke old (f_trait F) (f_storage F) m [VRef (At 0 [])] [self] s with
    | (CVal it, t, s1) =>
        if at_self it then
          match asking_all both false place_of (fun t v => option_map inl (bounds_of t v)) l (self_in t) it (s1) with
          | Some (items, s') =>
              match assign_all g items (self_in t) with
              | Some (items, self') => (s', self', Items items)
              | None => (s', self_in t, Bad)
              end
          | None => (s1, self_in t, Bad)
          end
        else (s1, self_in t, Bad)
    | (_, t, s1) => (s1, self_in t, Bad)
    end.

  (** ** Entries *)

  (** Assigning through a reference into the storage. *)
  Definition assign_at (v : V) (t : store) (r : val) : val * ans K V :=
    match r with
    | VRef p =>
        match changed_at (self_in t) (p_path p) v with
        | Some self' => if Nat.eqb (p_cell p) 0 then (self', Nothing) else (self_in t, Bad)
        | None => (self_in t, Bad)
        end
    | _ => (self_in t, Bad)
    end.
  Definition on_entry (tr ty m : string) (args : list val) (self e : val) (s : S)
    (k : store -> val -> val * ans K V) : S * val * ans K V :=
    match invoke old tr ty m (self_arg tr ty m 1 e :: args) [self; e] s with
    | (CVal v, t, s1) => let '(self', a) := k t v in (s1, self', a)
    | (_, t, s1) => (s1, self_in t, Bad)
    end.
  Definition its_value (f : V -> ans K V) (t : store) (v : val) : val * ans K V :=
    (self_in t, match value_of t v with Some x => f x | None => Bad end).
  Definition its_key (t : store) (v : val) : val * ans K V :=
    (self_in t, match f_as_key F v with Some k => Key k | None => Bad end).

  Definition do_entry (k : K) (a : entry_use V) (s : S) (self : val) : S * val * ans K V :=
    match invoke old (f_trait F) (f_storage F) "entry" [VRef (At 0 []); f_key F k] [self] s with
    | (CVal (VData "Entry" "Occupied" [(_, e)]), t, s1) =>
        let on m args := on_entry "OccupiedEntry" (f_occ F) m args (self_in t) e (s1) in
        if at_self e then
          match a with
          | OnKey => on "key" [] its_key
          | OnGet => on "get" [] (its_value (fun v => Opt (Some v)))
          | OnSet v => on "get_mut" [] (assign_at v)
          | OnIntoMut v => on "into_mut" [] (assign_at v)
          | OnInsert v => on "insert" [VUser v] (its_value (fun v => Opt (Some v)))
          | OnRemove => on "remove" [] (its_value (fun v => Opt (Some v)))
          end
        else (s1, self_in t, Bad)
    | (CVal (VData "Entry" "Vacant" [(_, e)]), t, s1) =>
        let on m args := on_entry "VacantEntry" (f_vac F) m args (self_in t) e (s1) in
        if at_self e then
          match a with
          | OnKey => on "key" [] its_key
          | OnInsert v => on "insert" [VUser v] (its_value (@Val K V))
          | OnGet | OnRemove => (s1, self_in t, Opt None)
          | OnSet _ | OnIntoMut _ => (s1, self_in t, Nothing)
          end
        else (s1, self_in t, Bad)
    | (_, t, s1) => (s1, self_in t, Bad)
    end.

  (** ** Requests *)

  (** Going on with a clone; if it unwinds, with the storage. *)
  Definition reclone (s : S) (self : val) : S * val * ans K V :=
    match go old (method (f_prog F) fuel (At 0 []) "clone" []) [self] s with
    | (CVal self', t, s1) => (s1, self', Nothing)
    | (CUnwound, t, s1) => (s1, self_in t, Unwinds)
    | (_, t, s1) => (s1, self_in t, Bad)
    end.

  Definition src_req (q : req K V) (s : S) (self : val) : S * val * ans K V :=
    let key := f_key F in
    match q with
    | MLen => call_on "len" [] s self
    | MIsEmpty => call_on "is_empty" [] s self
    | MContains k => call_on "contains_key" [key k] s self
    | MGet k => call_on "get" [key k] s self
    | MInsert k v => call_on "insert" [key k; VUser v] s self
    | MSet k v =>
        match invoke old (f_trait F) (f_storage F) "get_mut" [VRef (At 0 []); key k] [self] s with
        | (CVal o, t, s1) =>
            match option_of o with
            | Some None => (s1, self_in t, Nothing)
            | Some (Some r) => let '(self', a) := assign_at v t r in (s1, self', a)
            | None => (s1, self_in t, Bad)
            end
        | (_, t, s1) => (s1, self_in t, Bad)
        end
    | MRemove k => call_on "remove" [key k] s self
    | MRetain => call_on "retain" [VGiven 0] s self
    | MClear => call_on "clear" [] s self
    | MClone => reclone s self
    | MIter ByIter l => iterate (f_both F "iter") true "iter" l s self
    | MIter ByKeys l => iterate (f_both F "keys") true "keys" l s self
    | MIter ByValues l => iterate (f_both F "values") true "values" l s self
    | MIter ByIntoIter l => iterate (f_both F "into_iter") false "into_iter" l s self
    | MIterMut g l =>
        iterate_mut (f_both F "iter_mut") "iter_mut"
          (fun o => match o with Some k => g k | None => fun v => v end) l s self
    | MValuesMut g l => iterate_mut (f_both F "values_mut") "values_mut" (fun _ => g) l s self
    | MEntry k a => do_entry k a s self
    end.

  Definition src_sreq (q : sreq K) (s : S) (self : val) : S * val * ans K V :=
    let key := f_key F in
    match q with
    | NLen => call_on "len" [] s self
    | NIsEmpty => call_on "is_empty" [] s self
    | NContains k => call_on "contains" [key k] s self
    | NInsert k => call_on "insert" [key k] s self
    | NRemove k => call_on "remove" [key k] s self
    | NRetain => call_on "retain" [VGiven 0] s self
    | NClear => call_on "clear" [] s self
    | NClone => reclone s self
    | NIter false l => iterate (f_both F "iter") true "iter" l s self
    | NIter true l => iterate (f_both F "into_iter") false "into_iter" l s self
    end.

  (** A new storage, and then the requests. *)
  Definition from_new {Q} (step : Q -> S -> val -> S * val * ans K V) (w : world) (l : list Q) (s : S)
    : option (list (ans K V) * S * val) :=
    match invoke w (f_trait F) (f_storage F) maker [] [] s with
    | (CVal self, t, s1) => Some (answers step l (s1) self)
    | _ => None
    end.
  (** Its observable part. *)
  Definition told_by {Q} (step : Q -> S -> val -> S * val * ans K V) (w : world) (l : list Q) (s : S)
    : option (list (ans K V) * S) :=
    option_map fst (from_new step w l s).

  (** Whether two storages are equal. *)
  Definition src_eq (s : S) (a b : val) : option (S * ans K V) :=
    match go old (same (f_prog F) fuel (At 0 []) (At 1 [])) [a; b] s with
    | (CVal b, _, s1) => Some (s1, Yes b)
    | (CUnwound, _, s1) => Some (s1, Unwinds)
    | _ => None
    end.
  (** Two storages, and then whether they are equal. *)
  Definition compare_new {Q} (step : Q -> S -> val -> S * val * ans K V)
    (w1 w2 : world) (l1 l2 : list Q) (s : S) : option (S * ans K V) :=
    match from_new step w1 l1 s with
    | Some (_, s1, a) =>
        match from_new step w2 l2 s1 with
        | Some (_, s2, b) => src_eq s2 a b
        | None => None
        end
    | None => None
    end.
End Text.
Arguments file : clear implicits.

(** * The storages of the model *)
Section Model.
  Context {K V S : Type} (U : user_fns K V S).

  (** The closures of the user, as the model's [retain] takes them: a value that is not
      kept is dropped. *)
  Definition keep_fn : retain_fn S K V := fun s k v =>
    match u_keep U s k v with
    | (s1, v1, None) => (s1, v1, Unwind)
    | (s1, v1, Some true) => (s1, v1, Keep)
    | (s1, v1, Some false) =>
        let '(s2, u) := u_drop U s1 v1 in (s2, v1, if u then DiscardUnwind else Discard)
    end.
  Definition keep1_fn : set_retain_fn S K := fun s k =>
    match u_keep1 U s k with
    | (s1, None) => (s1, Unwind)
    | (s1, Some true) => (s1, Keep)
    | (s1, Some false) => (s1, Discard)
    end.

  Definition end_of (o : outcome) : ans K V := match o with Done => Nothing | Unwound => Unwinds end.

  (** What an iterator of the model says. *)
  Fixpoint say {A B} (I : iterator A) (clones : bool) (look : option A -> B) (bounds : nat * option nat -> B)
    (l : list ask) (it : it_st I) : list B :=
    match l with
    | [] => []
    | ANext :: r => let '(x, it') := it_next I it in look x :: say I clones look bounds r it'
    | ABack :: r =>
        match it_back I with
        | Some b => let '(x, it') := b it in look x :: say I clones look bounds r it'
        | None => say I clones look bounds r it
        end
    | AClone :: r => say I clones look bounds r (if clones then it_clone I it else it)
    | AHint :: r => bounds (it_hint I it) :: say I clones look bounds r it
    end.
  Definition shown {A} (I : iterator A) (clones : bool) (f : A -> option K * option V) (l : list ask)
    (it : it_st I) : ans K V :=
    Items (say I clones (fun o => Item (option_map f o)) hint_of l it).

  Variable m : MapStorage K V.

  Fixpoint put_all (g : option K -> V -> V) (l : list (told K V + option K * ref)) (st : ms_St m)
    : option (list (told K V) * ms_St m) :=
    match l with
    | [] => Some ([], st)
    | inl a :: r => option_map (fun e => (a :: fst e, snd e)) (put_all g r st)
    | inr (k, p) :: r =>
        match ms_load m st p with
        | Some v =>
            match ms_store m st p (g k v) with
            | Some st' => option_map (fun e => (Item (Some (k, Some v)) :: fst e, snd e)) (put_all g r st')
            | None => None
            end
        | None => None
        end
    end.
  Definition items_mut {A} (I : iterator A) (f : A -> option K * ref) (g : option K -> V -> V) (l : list ask)
    (it : it_st I) (s : S) (st : ms_St m) : S * ms_St m * ans K V :=
    match put_all g (say I false (fun o => match o with
                                           | Some a => inr (f a)
                                           | None => inl (Item None)
                                           end) (fun h => inl (hint_of h)) l it) st with
    | Some (l, st') => (s, st', Items l)
    | None => (s, st, Bad)
    end.

  Definition if_ok {A} (r : res A) (st : ms_St m) (k : A -> ms_St m * ans K V) : ms_St m * ans K V :=
    match r with Ok a => k a | _ => (st, Bad) end.
  Definition put (st : ms_St m) (r : ref) (v : V) : ms_St m * ans K V :=
    match ms_store m st r v with Some st' => (st', Nothing) | None => (st, Bad) end.

  Definition use_entry (k : K) (a : entry_use V) (st : ms_St m) : ms_St m * ans K V :=
    match ms_entry m st k with
    | Ok (Occupied e) =>
        match a with
        | OnKey => if_ok (ms_occ_key m st e) st (fun k => (st, Key k))
        | OnGet => if_ok (ms_occ_get m st e) st (fun v => (st, Opt (Some v)))
        | OnSet v => if_ok (ms_occ_get_mut m st e) st (fun r => put st r v)
        | OnIntoMut v => if_ok (ms_occ_into_mut m st e) st (fun r => put st r v)
        | OnInsert v => if_ok (ms_occ_insert m st e v) st (fun p => (snd p, Opt (Some (fst p))))
        | OnRemove => if_ok (ms_occ_remove m st e) st (fun p => (snd p, Opt (Some (fst p))))
        end
    | Ok (Vacant e) =>
        match a with
        | OnKey => (st, Key (ms_vac_key m st e))
        | OnInsert v =>
            if_ok (ms_vac_insert m st e v) st (fun p =>
              (snd p, match ms_load m (snd p) (fst p) with Some v => Val v | None => Bad end))
        | OnGet | OnRemove => (st, Opt None)
        | OnSet _ | OnIntoMut _ => (st, Nothing)
        end
    | _ => (st, Bad)
    end.

  Definition map_req (q : req K V) (s : S) (st : ms_St m) : S * ms_St m * ans K V :=
    match q with
    | MLen => (s, st, Num (ms_len m st))
    | MIsEmpty => (s, st, Yes (ms_is_empty m st))
    | MContains k => (s, st, Yes (ms_contains_key m st k))
    | MGet k => (s, st, Opt (ms_get m st k))
    | MInsert k v => let '(o, st') := ms_insert m st k v in (s, st', Opt o)
    | MSet k v =>
        match ms_get_mut m st k with
        | None => (s, st, Nothing)
        | Some r => let '(st', a) := put st r v in (s, st', a)
        end
    | MRemove k => let '(o, st') := ms_remove m st k in (s, st', Opt o)
    | MRetain => let '(s', st', o) := ms_retain m keep_fn s st in (s', st', end_of o)
    | MClear => let '(s', st', o) := ms_clear_drop m (u_drop U) s st in (s', st', end_of o)
    | MClone =>
        match ms_clone_with m (u_clone U) s st with
        | (s', Some st') => (s', st', Nothing)
        | (s', None) => (s', st, Unwinds)
        end
    | MIter ByIter l =>
        (s, st, shown (ms_Iter m) true (fun e => (Some (fst e), Some (snd e))) l (ms_iter m st))
    | MIter ByKeys l => (s, st, shown (ms_Keys m) true (fun k => (Some k, None)) l (ms_keys m st))
    | MIter ByValues l => (s, st, shown (ms_Values m) true (fun v => (None, Some v)) l (ms_values m st))
    | MIter ByIntoIter l =>
        (s, st, shown (ms_IntoIter m) false (fun e => (Some (fst e), Some (snd e))) l (ms_into_iter m st))
    | MIterMut g l =>
        items_mut (ms_IterMut m) (fun e => (Some (fst e), snd e))
          (fun o => match o with Some k => g k | None => fun v => v end) l (ms_iter_mut m st) s st
    | MValuesMut g l =>
        items_mut (ms_ValuesMut m) (fun r => (None, r)) (fun _ => g) l (ms_values_mut m st) s st
    | MEntry k a => let '(st', r) := use_entry k a st in (s, st', r)
    end.

  Definition map_compare (s : S) (a b : ms_St m) : S * ans K V :=
    match ms_eq_with m (u_eq U) s a b with
    | (s', Some b) => (s', Yes b)
    | (s', None) => (s', Unwinds)
    end.

  Variable ss : SetStorage K.

  Definition set_req (q : sreq K) (s : S) (st : ss_St ss) : S * ss_St ss * ans K V :=
    match q with
    | NLen => (s, st, Num (ss_len ss st))
    | NIsEmpty => (s, st, Yes (ss_is_empty ss st))
    | NContains k => (s, st, Yes (ss_contains ss st k))
    | NInsert k => let '(b, st') := ss_insert ss st k in (s, st', Yes b)
    | NRemove k => let '(b, st') := ss_remove ss st k in (s, st', Yes b)
    | NRetain => let '(s', st', o) := ss_retain ss keep1_fn s st in (s', st', end_of o)
    | NClear => (s, ss_clear ss st, Nothing)
    | NClone => (s, ss_clone ss st, Nothing)
    | NIter false l => (s, st, shown (ss_Iter ss) true (fun k => (Some k, None)) l (ss_iter ss st))
    | NIter true l => (s, st, shown (ss_IntoIter ss) false (fun k => (Some k, None)) l (ss_into_iter ss st))
    end.
  Definition set_compare (s : S) (a b : ss_St ss) : S * ans K V := (s, Yes (ss_eq ss a b)).

  (** Two storages of the model, and then whether they are equal. *)
  Definition compared {Q St} (step : Q -> S -> St -> S * St * ans K V) (cmp : S -> St -> St -> S * ans K V)
    (new1 new2 : St) (l1 l2 : list Q) (s : S) : S * ans K V :=
    let '(_, s1, a) := answers step l1 s new1 in
    let '(_, s2, b) := answers step l2 s1 new2 in cmp s2 a b.
End Model.
