(** Storages generated by [#[derive(Key)]] for enums with at least one tuple
    variant: fixed-map-derive/src/any_variants.rs. *)
Require Import List Arith NArith ZArith Bool.
Import ListNotations.
From Verif Require Import Std Traits OptionBucket MapStorages SetStorages.

(** The list of fields of the generated storage structs, one per variant
    (any_variants.rs:19-73, 2100-2128).  [Kind::Simple] (unit variant) is
    [FUnit], [Kind::Complex] (tuple variant with one element type [K]) is
    [FTuple].  As in DeriveUnit.v the enum itself is a nested sum. *)
Inductive fields : Type -> Type :=
| FNil : fields Empty_set
| FUnit : forall R : Type, fields R -> fields (unit + R)
| FTuple : forall K R : Type, KeyImpl K -> fields R -> fields (K + R).
Arguments FUnit {R}.
Arguments FTuple {K R}.

(** A reference into the fields after the first one, as a reference into the
    whole struct: the number of the field is increased (any_variants.rs:23,
    [_{index}]). *)
Definition shift_ref (r : ref) : ref :=
  match r with
  | i :: p => S i :: p
  | [] => []
  end.

(** * Iterators over the fields, any_variants.rs:1795-1850 *)

(** States of the field iterators of a generated iterator struct
    (e.g. any_variants.rs:803-807). *)
Fixpoint it_states {A} (its : list (iterator A)) : Type :=
  match its with
  | [] => unit
  | i :: r => (it_st i * it_states r)%type
  end.

(** The [match] on the field number in [next] (any_variants.rs:693-717);
    [None] is the arm [_ => break] (1808). *)
Fixpoint step_next {A} (its : list (iterator A)) (n : nat)
  : it_states its -> option (option A * it_states its) :=
  match its return it_states its -> option (option A * it_states its) with
  | [] => fun _ => None
  | i :: r => fun st =>
      match n with
      | 0 => let '(x, s) := it_next i (fst st) in Some (x, (s, snd st))
      | S m =>
          match step_next r m (snd st) with
          | Some (x, s) => Some (x, (fst st, s))
          | None => None
          end
      end
  end.

(** The [while] loop of [next], any_variants.rs:1805-1812.  [fuel] bounds the
    number of iterations; [end] is enough since [start] grows. *)
Fixpoint loop_next {A} (its : list (iterator A)) (fuel start end_ : nat)
  (st : it_states its) : option A * (nat * nat * it_states its) :=
  match fuel with
  | 0 => (None, (start, end_, st))
  | S fuel' =>
      if start <? end_ then
        match step_next its start st with
        | None => (None, (start, end_, st))
        | Some (Some x, st') => (Some x, (start, end_, st'))
        | Some (None, st') =>
            loop_next its fuel' (Nat.min (start + 1) end_) end_ st'
        end
      else (None, (start, end_, st))
  end.

(** The [next_back] functions of all field iterators: the [where] clause of
    the generated [DoubleEndedIterator] implementation
    (any_variants.rs:727-739). *)
Fixpoint backs {A} (its : list (iterator A)) : Type :=
  match its with
  | [] => unit
  | i :: r => ((it_st i -> option A * it_st i) * backs r)%type
  end.

(** The [where] clause holds when every field iterator is double-ended
    (any_variants.rs:727-739). *)
Fixpoint all_backs {A} (its : list (iterator A)) : option (backs its) :=
  match its return option (backs its) with
  | [] => Some tt
  | i :: r =>
      match it_back i, all_backs r with
      | Some b, Some bs => Some (b, bs)
      | _, _ => None
      end
  end.

(** The [match] on the field number in [next_back] (any_variants.rs:702-725);
    [None] is the arm [_ => break] (1843). *)
Fixpoint step_back {A} (its : list (iterator A)) (n : nat)
  : backs its -> it_states its -> option (option A * it_states its) :=
  match its
        return backs its -> it_states its -> option (option A * it_states its)
  with
  | [] => fun _ _ => None
  | i :: r => fun bs st =>
      match n with
      | 0 => let '(x, s) := fst bs (fst st) in Some (x, (s, snd st))
      | S m =>
          match step_back r m (snd bs) (snd st) with
          | Some (x, s) => Some (x, (fst st, s))
          | None => None
          end
      end
  end.

(** The [while] loop of [next_back], any_variants.rs:1838-1847. *)
Fixpoint loop_back {A} (its : list (iterator A)) (bs : backs its)
  (fuel start end_ : nat) (st : it_states its)
  : option A * (nat * nat * it_states its) :=
  match fuel with
  | 0 => (None, (start, end_, st))
  | S fuel' =>
      if start <? end_ then
        let next := end_ - 1 in
        match step_back its next bs st with
        | None => (None, (start, end_, st))
        | Some (Some x, st') => (Some x, (start, end_, st'))
        | Some (None, st') => loop_back its bs fuel' start (Nat.max next start) st'
        end
      else (None, (start, end_, st))
  end.

(** The fields of a cloned iterator struct (any_variants.rs:816, 966, 1112, 1453,
    1598, 1748). *)
Fixpoint clone_states {A} (its : list (iterator A)) : it_states its -> it_states its :=
  match its return it_states its -> it_states its with
  | [] => fun _ => tt
  | i :: r => fun st => (it_clone i (fst st), clone_states r (snd st))
  end.

(** Dropping the fields of an iterator struct, in order (any_variants.rs:1440-1444). *)
Fixpoint drop_states {A D} (its : list (iterator A)) (dr : drop_fn D A) (d : D)
  : it_states its -> D * bool :=
  match its return it_states its -> D * bool with
  | [] => fun _ => (d, false)
  | i :: r => fun st =>
      then_drop (it_drop i dr d (fst st)) (fun d1 => drop_states r dr d1 (snd st))
  end.

(** A generated iterator struct [{ start, end, fields.. }]
    (any_variants.rs:803-839 and its copies 953-989, 1099-1135, 1210-1234,
    1342-1366, 1440-1476, 1585-1621, 1728-1782).  [size_hint] is not overridden, so
    it is the default [(0, None)]. *)
Definition struct_it {A} (its : list (iterator A)) : iterator A := {|
  it_st := (nat * nat * it_states its)%type;
  it_next := fun s =>
    let '(start, end_, st) := s in loop_next its end_ start end_ st;
  it_back :=
    option_map (fun bs s =>
      let '(start, end_, st) := s in loop_back its bs end_ start end_ st)
      (all_backs its);
  it_hint := fun _ => (0, None);
  it_clone := fun s => let '(start, end_, st) := s in (start, end_, clone_states its st);
  it_drop := fun D dr d s => drop_states its dr d (snd s)
|}.

(** [mem::take] on a [bool] field yielding a fixed element
    (any_variants.rs:897-911, 1534-1548). *)
Definition flag_take {A} (x : A) (b : bool) : option A * bool :=
  (if b then Some x else None, false).

(** Such a [bool] field seen as an iterator (any_variants.rs:897-911,
    1534-1548).  Its size hint is never used. *)
Definition flag_it {A} (x : A) : iterator A := {|
  it_st := bool;
  it_next := flag_take x;
  it_back := Some (flag_take x);
  it_hint := fun _ => (0, None);
  it_clone := fun b => b;
  it_drop := fun D dr d b => (d, false)
|}.

(** The field iterators of a generated iterator struct: [simple i t] for the
    unit variant [t] at position [i], [complex i ki inj] for the tuple variant
    [inj] (e.g. any_variants.rs:781-792). *)
Fixpoint field_its {R T A} (simple : nat -> T -> iterator A)
  (complex : nat -> forall K, KeyImpl K -> (K -> T) -> iterator A)
  (i : nat) (fs : fields R) : (R -> T) -> list (iterator A) :=
  match fs in fields R return (R -> T) -> list (iterator A) with
  | FNil => fun _ => []
  | FUnit fs' => fun inj =>
      simple i (inj (inl tt)) ::
      field_its simple complex (S i) fs' (fun k => inj (inr k))
  | FTuple ki fs' => fun inj =>
      complex i _ ki (fun k => inj (inl k)) ::
      field_its simple complex (S i) fs' (fun k => inj (inr k))
  end.

(** The generated storage struct: one field per variant
    (any_variants.rs:405-415, 646-656). *)
Fixpoint frec (Sm : Type) (Cx : forall K, KeyImpl K -> Type) {R}
  (fs : fields R) : Type :=
  match fs with
  | FNil => unit
  | FUnit fs' => (Sm * frec Sm Cx fs')%type
  | FTuple ki fs' => (Cx _ ki * frec Sm Cx fs')%type
  end.

(** Initialisers of the fields of an iterator struct (e.g.
    any_variants.rs:785, 789, 849). *)
Fixpoint field_init {R T A Sm Cx} (simple : nat -> T -> iterator A)
  (complex : nat -> forall K, KeyImpl K -> (K -> T) -> iterator A)
  (sinit : forall i t, Sm -> it_st (simple i t))
  (cinit : forall i K (ki : KeyImpl K) inj, Cx K ki -> it_st (complex i K ki inj))
  (i : nat) (fs : fields R)
  : forall inj : R -> T, frec Sm Cx fs -> it_states (field_its simple complex i fs inj) :=
  match fs in fields R
        return forall inj : R -> T, frec Sm Cx fs ->
               it_states (field_its simple complex i fs inj)
  with
  | FNil => fun _ _ => tt
  | FUnit fs' => fun inj st =>
      (sinit i (inj (inl tt)) (fst st),
       field_init simple complex sinit cinit (S i) fs' (fun k => inj (inr k)) (snd st))
  | FTuple ki fs' => fun inj st =>
      (cinit i _ ki (fun k => inj (inl k)) (fst st),
       field_init simple complex sinit cinit (S i) fs' (fun k => inj (inr k)) (snd st))
  end.

(** Number of fields, any_variants.rs:842, 2156-2158. *)
Fixpoint fields_len {R} (fs : fields R) : nat :=
  match fs with
  | FNil => 0
  | FUnit fs' => S (fields_len fs')
  | FTuple _ fs' => S (fields_len fs')
  end.

(** * Map storage, any_variants.rs:142-426 *)
Section Map.
  Variable V : Type.

  (** Storage of a tuple variant's field (any_variants.rs:42, 406). *)
  Definition cx_map (K : Type) (ki : KeyImpl K) : Type := ms_St (ki_map ki V).

  (** [struct __MapStorage<V>], any_variants.rs:405-415. *)
  Definition any_map {R} (fs : fields R) : Type := frec (option V) cx_map fs.

  (** [PartialEq::eq], any_variants.rs:168-177. *)
  Fixpoint any_eq {R} (eq : V -> V -> bool) (fs : fields R)
    : any_map fs -> any_map fs -> bool :=
    match fs return any_map fs -> any_map fs -> bool with
    | FNil => fun _ _ => true
    | FUnit fs' => fun a b =>
        if negb (option_eq eq (fst a) (fst b)) then false
        else any_eq eq fs' (snd a) (snd b)
    | FTuple ki fs' => fun a b =>
        if negb (ms_eq (ki_map ki V) eq (fst a) (fst b)) then false
        else any_eq eq fs' (snd a) (snd b)
    end.

  (** [Clone::clone], any_variants.rs:194-201. *)
  Fixpoint any_clone {R} (cl : V -> V) (fs : fields R) : any_map fs -> any_map fs :=
    match fs return any_map fs -> any_map fs with
    | FNil => fun a => a
    | FUnit fs' => fun a => (option_map cl (fst a), any_clone cl fs' (snd a))
    | FTuple ki fs' => fun a =>
        (ms_clone (ki_map ki V) cl (fst a), any_clone cl fs' (snd a))
    end.

  (** [Clone::clone] with the calls of [V::clone] visible,
      any_variants.rs:194-201: the fields of the struct expression in order. *)
  Fixpoint any_clone_with {S R} (f : clone_fn S V) (fs : fields R)
    : S -> any_map fs -> S * option (any_map fs) :=
    match fs return S -> any_map fs -> S * option (any_map fs) with
    | FNil => fun s a => (s, Some a)
    | FUnit fs' => fun s a =>
        match clone_cell f s (fst a) with
        | (s1, None) => (s1, None)
        | (s1, Some o1) =>
            let '(s2, r) := any_clone_with f fs' s1 (snd a) in (s2, option_map (pair o1) r)
        end
    | FTuple ki fs' => fun s a =>
        match ms_clone_with (ki_map ki V) f s (fst a) with
        | (s1, None) => (s1, None)
        | (s1, Some o1) =>
            let '(s2, r) := any_clone_with f fs' s1 (snd a) in (s2, option_map (pair o1) r)
        end
    end.

  (** Dropping the storage: its fields in order, any_variants.rs:413-415. *)
  Fixpoint any_drop {D R} (dr : drop_fn D V) (fs : fields R)
    : D -> any_map fs -> D * bool :=
    match fs return D -> any_map fs -> D * bool with
    | FNil => fun d _ => (d, false)
    | FUnit fs' => fun d a =>
        then_drop (opt_drop dr d (fst a)) (fun d1 => any_drop dr fs' d1 (snd a))
    | FTuple ki fs' => fun d a =>
        then_drop (ms_drop (ki_map ki V) dr d (fst a)) (fun d1 => any_drop dr fs' d1 (snd a))
    end.

  (** [Clone::clone], any_variants.rs:194-201; when a clone unwinds, the fields made
      so far are dropped, the last one first. *)
  Fixpoint any_clone_undo {S R} (f : clone_fn S V) (dr : drop_fn S V) (fs : fields R)
    : S -> any_map fs -> S * option (any_map fs) :=
    match fs return S -> any_map fs -> S * option (any_map fs) with
    | FNil => fun s a => (s, Some a)
    | FUnit fs' => fun s a =>
        match clone_cell f s (fst a) with
        | (s1, None) => (s1, None)
        | (s1, Some o1) =>
            match any_clone_undo f dr fs' s1 (snd a) with
            | (s2, None) => (fst (opt_drop dr s2 o1), None)
            | (s2, Some r) => (s2, Some (o1, r))
            end
        end
    | FTuple ki fs' => fun s a =>
        match ms_clone_undo (ki_map ki V) f dr s (fst a) with
        | (s1, None) => (s1, None)
        | (s1, Some o1) =>
            match any_clone_undo f dr fs' s1 (snd a) with
            | (s2, None) => (fst (ms_drop (ki_map ki V) dr s2 o1), None)
            | (s2, Some r) => (s2, Some (o1, r))
            end
        end
    end.

  (** [PartialEq::eq] with the calls of [V::eq] visible, any_variants.rs:168-177:
      field by field, returning at the first difference. *)
  Fixpoint any_eq_with {S R} (f : eq_fn S V) (fs : fields R)
    : S -> any_map fs -> any_map fs -> S * option bool :=
    match fs return S -> any_map fs -> any_map fs -> S * option bool with
    | FNil => fun s _ _ => (s, Some true)
    | FUnit fs' => fun s a b =>
        eq_and (eq_cell f s (fst a) (fst b))
          (fun s1 => any_eq_with f fs' s1 (snd a) (snd b))
    | FTuple ki fs' => fun s a b =>
        eq_and (ms_eq_with (ki_map ki V) f s (fst a) (fst b))
          (fun s1 => any_eq_with f fs' s1 (snd a) (snd b))
    end.

  (** [empty], any_variants.rs:208-224; [i] is the number of the first field. *)
  Fixpoint any_empty {R} (fs : fields R) (i : nat) (w : world) : any_map fs :=
    match fs return any_map fs with
    | FNil => tt
    | FUnit fs' => (None, any_empty fs' (S i) w)
    | FTuple ki fs' => (ms_empty (ki_map ki V) (sub_world i w), any_empty fs' (S i) w)
    end.

  (** [insert], any_variants.rs:226-244. *)
  Fixpoint any_insert {R} (fs : fields R)
    : any_map fs -> R -> V -> option V * any_map fs :=
    match fs in fields R return any_map fs -> R -> V -> option V * any_map fs with
    | FNil => fun _ k _ => match k with end
    | FUnit fs' => fun st key value =>
        match key with
        | inl _ => let '(old, new) := mem_replace (fst st) (Some value) in
                   (old, (new, snd st))
        | inr k => let '(old, r) := any_insert fs' (snd st) k value in
                   (old, (fst st, r))
        end
    | FTuple ki fs' => fun st key value =>
        match key with
        | inl k => let '(old, s) := ms_insert (ki_map ki V) (fst st) k value in
                   (old, (s, snd st))
        | inr k => let '(old, r) := any_insert fs' (snd st) k value in
                   (old, (fst st, r))
        end
    end.

  (** [len], any_variants.rs:246-260: [0 + a + b + ..]. *)
  Fixpoint any_len_from {R} (fs : fields R) (n : nat) : any_map fs -> nat :=
    match fs return any_map fs -> nat with
    | FNil => fun _ => n
    | FUnit fs' => fun st =>
        any_len_from fs' (n + usize_from (is_some (fst st))) (snd st)
    | FTuple ki fs' => fun st =>
        any_len_from fs' (n + ms_len (ki_map ki V) (fst st)) (snd st)
    end.

  (** [is_empty], any_variants.rs:262-276: [true && a && b && ..]. *)
  Fixpoint any_is_empty_from {R} (fs : fields R) (b : bool) : any_map fs -> bool :=
    match fs return any_map fs -> bool with
    | FNil => fun _ => b
    | FUnit fs' => fun st => any_is_empty_from fs' (b && is_none (fst st)) (snd st)
    | FTuple ki fs' => fun st =>
        any_is_empty_from fs' (b && ms_is_empty (ki_map ki V) (fst st)) (snd st)
    end.

  (** [contains_key], any_variants.rs:278-296. *)
  Fixpoint any_contains_key {R} (fs : fields R) : any_map fs -> R -> bool :=
    match fs in fields R return any_map fs -> R -> bool with
    | FNil => fun _ k => match k with end
    | FUnit fs' => fun st key =>
        match key with
        | inl _ => is_some (fst st)
        | inr k => any_contains_key fs' (snd st) k
        end
    | FTuple ki fs' => fun st key =>
        match key with
        | inl k => ms_contains_key (ki_map ki V) (fst st) k
        | inr k => any_contains_key fs' (snd st) k
        end
    end.

  (** [get], any_variants.rs:298-316. *)
  Fixpoint any_get {R} (fs : fields R) : any_map fs -> R -> option V :=
    match fs in fields R return any_map fs -> R -> option V with
    | FNil => fun _ k => match k with end
    | FUnit fs' => fun st key =>
        match key with
        | inl _ => fst st
        | inr k => any_get fs' (snd st) k
        end
    | FTuple ki fs' => fun st key =>
        match key with
        | inl k => ms_get (ki_map ki V) (fst st) k
        | inr k => any_get fs' (snd st) k
        end
    end.

  (** [get_mut], any_variants.rs:318-336. *)
  Fixpoint any_get_mut {R} (fs : fields R) : any_map fs -> R -> option ref :=
    match fs in fields R return any_map fs -> R -> option ref with
    | FNil => fun _ k => match k with end
    | FUnit fs' => fun st key =>
        match key with
        | inl _ => opt_as_mut [0] (fst st)
        | inr k => option_map shift_ref (any_get_mut fs' (snd st) k)
        end
    | FTuple ki fs' => fun st key =>
        match key with
        | inl k => option_map (cons 0) (ms_get_mut (ki_map ki V) (fst st) k)
        | inr k => option_map shift_ref (any_get_mut fs' (snd st) k)
        end
    end.

  (** [remove], any_variants.rs:338-356. *)
  Fixpoint any_remove {R} (fs : fields R)
    : any_map fs -> R -> option V * any_map fs :=
    match fs in fields R return any_map fs -> R -> option V * any_map fs with
    | FNil => fun _ k => match k with end
    | FUnit fs' => fun st key =>
        match key with
        | inl _ => let '(old, new) := mem_replace (fst st) None in
                   (old, (new, snd st))
        | inr k => let '(old, r) := any_remove fs' (snd st) k in
                   (old, (fst st, r))
        end
    | FTuple ki fs' => fun st key =>
        match key with
        | inl k => let '(old, s) := ms_remove (ki_map ki V) (fst st) k in
                   (old, (s, snd st))
        | inr k => let '(old, r) := any_remove fs' (snd st) k in
                   (old, (fst st, r))
        end
    end.

  (** [retain], any_variants.rs:358-385; [inj] names the variants. *)
  Fixpoint any_retain {S R T} (f : retain_fn S T V) (fs : fields R)
    : (R -> T) -> S -> any_map fs -> S * any_map fs * outcome :=
    match fs in fields R
          return (R -> T) -> S -> any_map fs -> S * any_map fs * outcome
    with
    | FNil => fun _ s st => (s, st, Done)
    | FUnit fs' => fun inj s st =>
        match retain_cell f s (inj (inl tt)) (fst st) with
        | (s1, o1, Unwound) => (s1, (o1, snd st), Unwound)
        | (s1, o1, Done) =>
            let '(s2, r, o) := any_retain f fs' (fun k => inj (inr k)) s1 (snd st) in
            (s2, (o1, r), o)
        end
    | FTuple ki fs' => fun inj s st =>
        match ms_retain (ki_map ki V) (fun s k v => f s (inj (inl k)) v) s (fst st) with
        | (s1, o1, Unwound) => (s1, (o1, snd st), Unwound)
        | (s1, o1, Done) =>
            let '(s2, r, o) := any_retain f fs' (fun k => inj (inr k)) s1 (snd st) in
            (s2, (o1, r), o)
        end
    end.

  (** [clear], any_variants.rs:387-403. *)
  Fixpoint any_clear {R} (fs : fields R) : any_map fs -> any_map fs :=
    match fs return any_map fs -> any_map fs with
    | FNil => fun st => st
    | FUnit fs' => fun st => (None, any_clear fs' (snd st))
    | FTuple ki fs' => fun st =>
        (ms_clear (ki_map ki V) (fst st), any_clear fs' (snd st))
    end.

  (** [clear] with the destructors visible, any_variants.rs:387-403: one
      statement per field, so an unwinding destructor leaves the later fields
      alone. *)
  Fixpoint any_clear_drop {D R} (dr : drop_fn D V) (fs : fields R)
    : D -> any_map fs -> D * any_map fs * outcome :=
    match fs return D -> any_map fs -> D * any_map fs * outcome with
    | FNil => fun d st => (d, st, Done)
    | FUnit fs' => fun d st =>
        match drop_cell dr d (fst st) with
        | (d1, o1, Unwound) => (d1, (o1, snd st), Unwound)
        | (d1, o1, Done) =>
            let '(d2, r, o) := any_clear_drop dr fs' d1 (snd st) in (d2, (o1, r), o)
        end
    | FTuple ki fs' => fun d st =>
        match ms_clear_drop (ki_map ki V) dr d (fst st) with
        | (d1, o1, Unwound) => (d1, (o1, snd st), Unwound)
        | (d1, o1, Done) =>
            let '(d2, r, o) := any_clear_drop dr fs' d1 (snd st) in (d2, (o1, r), o)
        end
    end.

  (** Reading through a [&mut V] into the storage (result of
      any_variants.rs:318-336). *)
  Fixpoint any_load {R} (fs : fields R) : any_map fs -> ref -> option V :=
    match fs return any_map fs -> ref -> option V with
    | FNil => fun _ _ => None
    | FUnit fs' => fun st r =>
        match r with
        | [0] => fst st
        | S i :: p => any_load fs' (snd st) (i :: p)
        | _ => None
        end
    | FTuple ki fs' => fun st r =>
        match r with
        | 0 :: p => ms_load (ki_map ki V) (fst st) p
        | S i :: p => any_load fs' (snd st) (i :: p)
        | [] => None
        end
    end.

  (** Assigning through a [&mut V] into the storage (result of
      any_variants.rs:318-336). *)
  Fixpoint any_store {R} (fs : fields R)
    : any_map fs -> ref -> V -> option (any_map fs) :=
    match fs return any_map fs -> ref -> V -> option (any_map fs) with
    | FNil => fun _ _ _ => None
    | FUnit fs' => fun st r v =>
        match r with
        | [0] => match fst st with
                 | Some _ => Some (Some v, snd st)
                 | None => None
                 end
        | S i :: p => option_map (pair (fst st)) (any_store fs' (snd st) (i :: p) v)
        | _ => None
        end
    | FTuple ki fs' => fun st r v =>
        match r with
        | 0 :: p =>
            option_map (fun s => (s, snd st)) (ms_store (ki_map ki V) (fst st) p v)
        | S i :: p => option_map (pair (fst st)) (any_store fs' (snd st) (i :: p) v)
        | [] => None
        end
    end.

  (** ** Entries, any_variants.rs:1853-2090 *)

  (** Reading the option place of the unit variant at position [i]
      (any_variants.rs:1894). *)
  Fixpoint any_cell_get {R} (fs : fields R) : any_map fs -> ref -> option (option V) :=
    match fs return any_map fs -> ref -> option (option V) with
    | FNil => fun _ _ => None
    | FUnit fs' => fun st r =>
        match r with
        | [0] => Some (fst st)
        | S i :: p => any_cell_get fs' (snd st) (i :: p)
        | _ => None
        end
    | FTuple _ fs' => fun st r =>
        match r with
        | S i :: p => any_cell_get fs' (snd st) (i :: p)
        | _ => None
        end
    end.

  (** Writing that place (any_variants.rs:1894). *)
  Fixpoint any_cell_set {R} (fs : fields R)
    : any_map fs -> ref -> option V -> option (any_map fs) :=
    match fs return any_map fs -> ref -> option V -> option (any_map fs) with
    | FNil => fun _ _ _ => None
    | FUnit fs' => fun st r o =>
        match r with
        | [0] => Some (o, snd st)
        | S i :: p => option_map (pair (fst st)) (any_cell_set fs' (snd st) (i :: p) o)
        | _ => None
        end
    | FTuple _ fs' => fun st r o =>
        match r with
        | S i :: p => option_map (pair (fst st)) (any_cell_set fs' (snd st) (i :: p) o)
        | _ => None
        end
    end.

  (** The option places of the struct (any_variants.rs:1894). *)
  Definition any_cells {R} (fs : fields R) : cells (any_map fs) V :=
    MkCells (any_cell_get fs) (any_cell_set fs).

  (** The tuple variants of [enum OccupiedEntry], any_variants.rs:1903, 1995. *)
  Fixpoint any_occ_cx {R} (fs : fields R) : Type :=
    match fs with
    | FNil => Empty_set
    | FUnit fs' => any_occ_cx fs'
    | FTuple ki fs' => (ms_Occ (ki_map ki V) + any_occ_cx fs')%type
    end.

  (** The tuple variants of [enum VacantEntry], any_variants.rs:1904, 1990. *)
  Fixpoint any_vac_cx {R} (fs : fields R) : Type :=
    match fs with
    | FNil => Empty_set
    | FUnit fs' => any_vac_cx fs'
    | FTuple ki fs' => (ms_Vac (ki_map ki V) + any_vac_cx fs')%type
    end.

  (** [enum OccupiedEntry], any_variants.rs:1993-1996. *)
  Definition any_occ {R} (fs : fields R) : Type :=
    (keyed R some_bucket + any_occ_cx fs)%type.

  (** [enum VacantEntry], any_variants.rs:1988-1991. *)
  Definition any_vac {R} (fs : fields R) : Type :=
    (keyed R none_bucket + any_vac_cx fs)%type.

  (** The arms of [entry], any_variants.rs:1894, 1906-1911, 2082-2086.  [simple]
      is [option_to_entry] applied to the field at a path. *)
  Fixpoint any_entry_arms {R} {A B : Type} (fs : fields R) (i : nat)
    (simple : ref -> res (entry A B))
    (occ : any_occ_cx fs -> A) (vac : any_vac_cx fs -> B) {struct fs}
    : any_map fs -> R -> res (entry A B) :=
    match fs in fields R
          return (any_occ_cx fs -> A) -> (any_vac_cx fs -> B) ->
                 any_map fs -> R -> res (entry A B)
    with
    | FNil => fun _ _ _ k => match k with end
    | FUnit fs' => fun occ vac st key =>
        match key with
        | inl _ => simple [i]
        | inr k => any_entry_arms fs' (S i) simple occ vac (snd st) k
        end
    | FTuple ki fs' => fun occ vac st key =>
        match key with
        | inl k =>
            res_map (fun e => match e with
                              | Occupied o => Occupied (occ (inl o))
                              | Vacant v => Vacant (vac (inl v))
                              end) (ms_entry (ki_map ki V) (fst st) k)
        | inr k =>
            any_entry_arms fs' (S i) simple
              (fun o => occ (inr o)) (fun v => vac (inr v)) (snd st) k
        end
    end occ vac.

  (** [option_to_entry], any_variants.rs:2069-2074. *)
  Definition any_option_to_entry {R} (fs : fields R) (st : any_map fs) (key : R)
    (opt : ref) : res (entry (any_occ fs) (any_vac fs)) :=
    res_map (fun b => match keyed_entry key b with
                      | Occupied o => Occupied (inl o)
                      | Vacant v => Vacant (inl v)
                      end) (option_bucket_new (any_cells fs) st opt).

  (** [entry], any_variants.rs:2082-2086. *)
  Definition any_entry {R} (fs : fields R) (st : any_map fs) (key : R)
    : res (entry (any_occ fs) (any_vac fs)) :=
    any_entry_arms fs 0 (any_option_to_entry fs st key) inr inr st key.

  (** Arms of [OccupiedEntry::key] for tuple variants, any_variants.rs:1926. *)
  Fixpoint any_occ_key_cx {R} (fs : fields R) : any_map fs -> any_occ_cx fs -> res R :=
    match fs in fields R return any_map fs -> any_occ_cx fs -> res R with
    | FNil => fun _ e => match e with end
    | FUnit fs' => fun st e => res_map inr (any_occ_key_cx fs' (snd st) e)
    | FTuple ki fs' => fun st e =>
        match e with
        | inl o => res_map inl (ms_occ_key (ki_map ki V) (fst st) o)
        | inr e' => res_map inr (any_occ_key_cx fs' (snd st) e')
        end
    end.

  (** Arms of [OccupiedEntry::get] for tuple variants, any_variants.rs:1927-1928. *)
  Fixpoint any_occ_get_cx {R} (fs : fields R) : any_map fs -> any_occ_cx fs -> res V :=
    match fs return any_map fs -> any_occ_cx fs -> res V with
    | FNil => fun _ e => match e with end
    | FUnit fs' => fun st e => any_occ_get_cx fs' (snd st) e
    | FTuple ki fs' => fun st e =>
        match e with
        | inl o => ms_occ_get (ki_map ki V) (fst st) o
        | inr e' => any_occ_get_cx fs' (snd st) e'
        end
    end.

  (** Arms of [OccupiedEntry::get_mut] for tuple variants,
      any_variants.rs:1929-1931. *)
  Fixpoint any_occ_get_mut_cx {R} (fs : fields R)
    : any_map fs -> any_occ_cx fs -> res ref :=
    match fs return any_map fs -> any_occ_cx fs -> res ref with
    | FNil => fun _ e => match e with end
    | FUnit fs' => fun st e => res_map shift_ref (any_occ_get_mut_cx fs' (snd st) e)
    | FTuple ki fs' => fun st e =>
        match e with
        | inl o => res_map (cons 0) (ms_occ_get_mut (ki_map ki V) (fst st) o)
        | inr e' => res_map shift_ref (any_occ_get_mut_cx fs' (snd st) e')
        end
    end.

  (** Arms of [OccupiedEntry::into_mut] for tuple variants,
      any_variants.rs:1932-1934. *)
  Fixpoint any_occ_into_mut_cx {R} (fs : fields R)
    : any_map fs -> any_occ_cx fs -> res ref :=
    match fs return any_map fs -> any_occ_cx fs -> res ref with
    | FNil => fun _ e => match e with end
    | FUnit fs' => fun st e => res_map shift_ref (any_occ_into_mut_cx fs' (snd st) e)
    | FTuple ki fs' => fun st e =>
        match e with
        | inl o => res_map (cons 0) (ms_occ_into_mut (ki_map ki V) (fst st) o)
        | inr e' => res_map shift_ref (any_occ_into_mut_cx fs' (snd st) e')
        end
    end.

  (** Arms of [OccupiedEntry::insert] for tuple variants, any_variants.rs:1935. *)
  Fixpoint any_occ_insert_cx {R} (fs : fields R)
    : any_map fs -> any_occ_cx fs -> V -> res (V * any_map fs) :=
    match fs return any_map fs -> any_occ_cx fs -> V -> res (V * any_map fs) with
    | FNil => fun _ e _ => match e with end
    | FUnit fs' => fun st e v =>
        res_map (fun r => (fst r, (fst st, snd r))) (any_occ_insert_cx fs' (snd st) e v)
    | FTuple ki fs' => fun st e v =>
        match e with
        | inl o => res_map (fun r => (fst r, (snd r, snd st)))
                           (ms_occ_insert (ki_map ki V) (fst st) o v)
        | inr e' => res_map (fun r => (fst r, (fst st, snd r)))
                            (any_occ_insert_cx fs' (snd st) e' v)
        end
    end.

  (** Arms of [OccupiedEntry::remove] for tuple variants,
      any_variants.rs:1936-1938. *)
  Fixpoint any_occ_remove_cx {R} (fs : fields R)
    : any_map fs -> any_occ_cx fs -> res (V * any_map fs) :=
    match fs return any_map fs -> any_occ_cx fs -> res (V * any_map fs) with
    | FNil => fun _ e => match e with end
    | FUnit fs' => fun st e =>
        res_map (fun r => (fst r, (fst st, snd r))) (any_occ_remove_cx fs' (snd st) e)
    | FTuple ki fs' => fun st e =>
        match e with
        | inl o => res_map (fun r => (fst r, (snd r, snd st)))
                           (ms_occ_remove (ki_map ki V) (fst st) o)
        | inr e' => res_map (fun r => (fst r, (fst st, snd r)))
                            (any_occ_remove_cx fs' (snd st) e')
        end
    end.

  (** Arms of [VacantEntry::key] for tuple variants, any_variants.rs:1916-1918. *)
  Fixpoint any_vac_key_cx {R} (fs : fields R) : any_map fs -> any_vac_cx fs -> R :=
    match fs in fields R return any_map fs -> any_vac_cx fs -> R with
    | FNil => fun _ e => match e with end
    | FUnit fs' => fun st e => inr (any_vac_key_cx fs' (snd st) e)
    | FTuple ki fs' => fun st e =>
        match e with
        | inl o => inl (ms_vac_key (ki_map ki V) (fst st) o)
        | inr e' => inr (any_vac_key_cx fs' (snd st) e')
        end
    end.

  (** Arms of [VacantEntry::insert] for tuple variants, any_variants.rs:1919-1921. *)
  Fixpoint any_vac_insert_cx {R} (fs : fields R)
    : any_map fs -> any_vac_cx fs -> V -> res (ref * any_map fs) :=
    match fs return any_map fs -> any_vac_cx fs -> V -> res (ref * any_map fs) with
    | FNil => fun _ e _ => match e with end
    | FUnit fs' => fun st e v =>
        res_map (fun r => (shift_ref (fst r), (fst st, snd r)))
                (any_vac_insert_cx fs' (snd st) e v)
    | FTuple ki fs' => fun st e v =>
        match e with
        | inl o => res_map (fun r => (0 :: fst r, (snd r, snd st)))
                           (ms_vac_insert (ki_map ki V) (fst st) o v)
        | inr e' => res_map (fun r => (shift_ref (fst r), (fst st, snd r)))
                            (any_vac_insert_cx fs' (snd st) e' v)
        end
    end.

  (** [OccupiedEntry::key], any_variants.rs:2020-2025. *)
  Definition any_occ_key {R} (fs : fields R) (st : any_map fs) (e : any_occ fs)
    : res R :=
    match e with
    | inl s => Ok (kb_key s)
    | inr c => any_occ_key_cx fs st c
    end.

  (** [OccupiedEntry::get], any_variants.rs:2028-2033, 1963-1965. *)
  Definition any_occ_get {R} (fs : fields R) (st : any_map fs) (e : any_occ fs)
    : res V :=
    match e with
    | inl s => some_as_ref (any_cells fs) st (kb_inner s)
    | inr c => any_occ_get_cx fs st c
    end.

  (** [OccupiedEntry::get_mut], any_variants.rs:2036-2041, 1968-1970. *)
  Definition any_occ_get_mut {R} (fs : fields R) (st : any_map fs) (e : any_occ fs)
    : res ref :=
    match e with
    | inl s => some_as_mut (any_cells fs) st (kb_inner s)
    | inr c => any_occ_get_mut_cx fs st c
    end.

  (** [OccupiedEntry::into_mut], any_variants.rs:2044-2049, 1973-1975. *)
  Definition any_occ_into_mut {R} (fs : fields R) (st : any_map fs) (e : any_occ fs)
    : res ref :=
    match e with
    | inl s => some_into_mut (any_cells fs) st (kb_inner s)
    | inr c => any_occ_into_mut_cx fs st c
    end.

  (** [OccupiedEntry::insert], any_variants.rs:2052-2057, 1978-1980. *)
  Definition any_occ_insert {R} (fs : fields R) (st : any_map fs) (e : any_occ fs)
    (value : V) : res (V * any_map fs) :=
    match e with
    | inl s => some_replace (any_cells fs) st (kb_inner s) value
    | inr c => any_occ_insert_cx fs st c value
    end.

  (** [OccupiedEntry::remove], any_variants.rs:2060-2065, 1983-1985. *)
  Definition any_occ_remove {R} (fs : fields R) (st : any_map fs) (e : any_occ fs)
    : res (V * any_map fs) :=
    match e with
    | inl s => some_take (any_cells fs) st (kb_inner s)
    | inr c => any_occ_remove_cx fs st c
    end.

  (** [VacantEntry::key], any_variants.rs:2001-2006. *)
  Definition any_vac_key {R} (fs : fields R) (st : any_map fs) (e : any_vac fs) : R :=
    match e with
    | inl s => kb_key s
    | inr c => any_vac_key_cx fs st c
    end.

  (** [VacantEntry::insert], any_variants.rs:2009-2014, 1951-1953. *)
  Definition any_vac_insert {R} (fs : fields R) (st : any_map fs) (e : any_vac fs)
    (value : V) : res (ref * any_map fs) :=
    match e with
    | inl s => none_insert (any_cells fs) st (kb_inner s) value
    | inr c => any_vac_insert_cx fs st c value
    end.

  (** ** Iterators *)

  (** Field of a pair iterator for a unit variant: [take] and attach the key
      (any_variants.rs:693-709). *)
  Definition pair_simple {T X} (_ : nat) (t : T) : iterator (T * X) :=
    map_it (fun x => (t, x)) (opt_it X).

  (** [Iter]: field for a tuple variant (any_variants.rs:710-725, 787-790). *)
  Definition iter_cx {T} (_ : nat) K (ki : KeyImpl K) (inj : K -> T)
    : iterator (T * V) :=
    map_it (fun e => (inj (fst e), snd e)) (ms_Iter (ki_map ki V)).

  (** [Keys]: field for a unit variant (any_variants.rs:893-912). *)
  Definition keys_simple {T} (_ : nat) (t : T) : iterator T := flag_it t.

  (** [Keys]: field for a tuple variant (any_variants.rs:913-931). *)
  Definition keys_cx {T} (_ : nat) K (ki : KeyImpl K) (inj : K -> T) : iterator T :=
    map_it inj (ms_Keys (ki_map ki V)).

  (** [Values] and [ValuesMut]: field for a unit variant
      (any_variants.rs:1039-1058, 1283-1302). *)
  Definition val_simple {T X} (_ : nat) (_ : T) : iterator X := opt_it X.

  (** [Values]: field for a tuple variant (any_variants.rs:1059-1077). *)
  Definition values_cx {T} (_ : nat) K (ki : KeyImpl K) (_ : K -> T) : iterator V :=
    ms_Values (ki_map ki V).

  (** [IterMut]: field for a tuple variant (any_variants.rs:710-725,
      1191-1198). *)
  Definition iter_mut_cx {T} (i : nat) K (ki : KeyImpl K) (inj : K -> T)
    : iterator (T * ref) :=
    map_it (fun e => (inj (fst e), i :: snd e)) (ms_IterMut (ki_map ki V)).

  (** [ValuesMut]: field for a tuple variant (any_variants.rs:1303-1321). *)
  Definition values_mut_cx {T} (i : nat) K (ki : KeyImpl K) (_ : K -> T)
    : iterator ref :=
    map_it (cons i) (ms_ValuesMut (ki_map ki V)).

  (** [IntoIter]: field for a tuple variant (any_variants.rs:710-725,
      1422-1429). *)
  Definition into_iter_cx {T} (_ : nat) K (ki : KeyImpl K) (inj : K -> T)
    : iterator (T * V) :=
    map_it (fun e => (inj (fst e), snd e)) (ms_IntoIter (ki_map ki V)).

  Section Storage.
    Context {R : Type} (fs : fields R).

    (** [iter], any_variants.rs:848-850. *)
    Definition any_iter (st : any_map fs)
      : it_st (struct_it (field_its pair_simple iter_cx 0 fs (fun k : R => k))) :=
      (0, fields_len fs,
       field_init (Cx := cx_map) pair_simple iter_cx (fun _ _ o => o)
         (fun _ K ki _ s => ms_iter (ki_map ki V) s) 0 fs (fun k => k) st).

    (** [keys], any_variants.rs:998-1000. *)
    Definition any_keys (st : any_map fs)
      : it_st (struct_it (field_its keys_simple keys_cx 0 fs (fun k : R => k))) :=
      (0, fields_len fs,
       field_init (Cx := cx_map) keys_simple keys_cx (fun _ _ o => is_some o)
         (fun _ K ki _ s => ms_keys (ki_map ki V) s) 0 fs (fun k => k) st).

    (** [values], any_variants.rs:1144-1146. *)
    Definition any_values (st : any_map fs)
      : it_st (struct_it (field_its val_simple values_cx 0 fs (fun k : R => k))) :=
      (0, fields_len fs,
       field_init (Cx := cx_map) val_simple values_cx (fun _ _ o => o)
         (fun _ K ki _ s => ms_values (ki_map ki V) s) 0 fs (fun k => k) st).

    (** [iter_mut], any_variants.rs:1243-1245. *)
    Definition any_iter_mut (st : any_map fs)
      : it_st (struct_it (field_its pair_simple iter_mut_cx 0 fs (fun k : R => k))) :=
      (0, fields_len fs,
       field_init (Cx := cx_map) pair_simple iter_mut_cx (fun i _ o => opt_as_mut [i] o)
         (fun _ K ki _ s => ms_iter_mut (ki_map ki V) s) 0 fs (fun k => k) st).

    (** [values_mut], any_variants.rs:1375-1377. *)
    Definition any_values_mut (st : any_map fs)
      : it_st (struct_it (field_its val_simple values_mut_cx 0 fs (fun k : R => k))) :=
      (0, fields_len fs,
       field_init (Cx := cx_map) val_simple values_mut_cx (fun i _ o => opt_as_mut [i] o)
         (fun _ K ki _ s => ms_values_mut (ki_map ki V) s) 0 fs (fun k => k) st).

    (** [into_iter], any_variants.rs:1485-1487. *)
    Definition any_into_iter (st : any_map fs)
      : it_st (struct_it (field_its pair_simple into_iter_cx 0 fs (fun k : R => k))) :=
      (0, fields_len fs,
       field_init (Cx := cx_map) pair_simple into_iter_cx (fun _ _ o => o)
         (fun _ K ki _ s => ms_into_iter (ki_map ki V) s) 0 fs (fun k => k) st).

    (** [impl MapStorage<Enum, V> for __MapStorage<V>],
        any_variants.rs:142-426. *)
    Definition any_map_storage : MapStorage R V := {|
      ms_St := any_map fs;
      ms_Iter := struct_it (field_its pair_simple iter_cx 0 fs (fun k => k));
      ms_Keys := struct_it (field_its keys_simple keys_cx 0 fs (fun k => k));
      ms_Values := struct_it (field_its val_simple values_cx 0 fs (fun k => k));
      ms_IterMut := struct_it (field_its pair_simple iter_mut_cx 0 fs (fun k => k));
      ms_ValuesMut := struct_it (field_its val_simple values_mut_cx 0 fs (fun k => k));
      ms_IntoIter := struct_it (field_its pair_simple into_iter_cx 0 fs (fun k => k));
      ms_empty := any_empty fs 0;
      ms_len := any_len_from fs 0;
      ms_is_empty := any_is_empty_from fs true;
      ms_insert := any_insert fs;
      ms_contains_key := any_contains_key fs;
      ms_get := any_get fs;
      ms_get_mut := any_get_mut fs;
      ms_remove := any_remove fs;
      ms_retain := fun S f s st => any_retain f fs (fun k => k) s st;
      ms_clear := any_clear fs;
      ms_clear_drop := fun D dr d st => any_clear_drop dr fs d st;
      ms_iter := any_iter;
      ms_keys := any_keys;
      ms_values := any_values;
      ms_iter_mut := any_iter_mut;
      ms_values_mut := any_values_mut;
      ms_into_iter := any_into_iter;
      ms_load := any_load fs;
      ms_store := any_store fs;
      ms_Occ := any_occ fs;
      ms_Vac := any_vac fs;
      ms_entry := any_entry fs;
      ms_occ_key := any_occ_key fs;
      ms_occ_get := any_occ_get fs;
      ms_occ_get_mut := any_occ_get_mut fs;
      ms_occ_into_mut := any_occ_into_mut fs;
      ms_occ_insert := any_occ_insert fs;
      ms_occ_remove := any_occ_remove fs;
      ms_vac_key := any_vac_key fs;
      ms_vac_insert := any_vac_insert fs;
      ms_clone_with := fun S f s st => any_clone_with f fs s st;
      ms_clone_undo := fun S f dr s st => any_clone_undo f dr fs s st;
      ms_drop := fun D dr d st => any_drop dr fs d st;
      ms_clone := fun cl => any_clone cl fs;
      ms_eq_with := fun S f s a b => any_eq_with f fs s a b;
      ms_eq := fun eq => any_eq eq fs;
      ms_hash_with := None;
      ms_partial_cmp_with := None;
      ms_cmp_with := None;
      ms_hash := None;
      ms_partial_cmp := None;
      ms_cmp := None
    |}.
  End Storage.
End Map.

(** * Set storage, any_variants.rs:429-667 *)

(** Storage of a tuple variant's field (any_variants.rs:44, 647). *)
Definition cx_set (K : Type) (ki : KeyImpl K) : Type := ss_St (ki_set ki).

(** [struct __SetStorage], any_variants.rs:646-656. *)
Definition any_set {R} (fs : fields R) : Type := frec bool cx_set fs.

(** [PartialEq::eq], any_variants.rs:450-459. *)
Fixpoint anys_eq {R} (fs : fields R) : any_set fs -> any_set fs -> bool :=
  match fs return any_set fs -> any_set fs -> bool with
  | FNil => fun _ _ => true
  | FUnit fs' => fun a b =>
      if negb (Bool.eqb (fst a) (fst b)) then false else anys_eq fs' (snd a) (snd b)
  | FTuple ki fs' => fun a b =>
      if negb (ss_eq (ki_set ki) (fst a) (fst b)) then false
      else anys_eq fs' (snd a) (snd b)
  end.

(** [Clone::clone], any_variants.rs:477-484. *)
Fixpoint anys_clone {R} (fs : fields R) : any_set fs -> any_set fs :=
  match fs return any_set fs -> any_set fs with
  | FNil => fun a => a
  | FUnit fs' => fun a => (fst a, anys_clone fs' (snd a))
  | FTuple ki fs' => fun a => (ss_clone (ki_set ki) (fst a), anys_clone fs' (snd a))
  end.

(** [empty], any_variants.rs:491-507; [i] is the number of the first field. *)
Fixpoint anys_empty {R} (fs : fields R) (i : nat) (w : world) : any_set fs :=
  match fs return any_set fs with
  | FNil => tt
  | FUnit fs' => (false, anys_empty fs' (S i) w)
  | FTuple ki fs' => (ss_empty (ki_set ki) (sub_world i w), anys_empty fs' (S i) w)
  end.

(** [insert], any_variants.rs:509-527. *)
Fixpoint anys_insert {R} (fs : fields R) : any_set fs -> R -> bool * any_set fs :=
  match fs in fields R return any_set fs -> R -> bool * any_set fs with
  | FNil => fun _ k => match k with end
  | FUnit fs' => fun st key =>
      match key with
      | inl _ => let '(old, new) := mem_replace (fst st) true in
                 (negb old, (new, snd st))
      | inr k => let '(b, r) := anys_insert fs' (snd st) k in (b, (fst st, r))
      end
  | FTuple ki fs' => fun st key =>
      match key with
      | inl k => let '(b, s) := ss_insert (ki_set ki) (fst st) k in (b, (s, snd st))
      | inr k => let '(b, r) := anys_insert fs' (snd st) k in (b, (fst st, r))
      end
  end.

(** [len], any_variants.rs:529-543. *)
Fixpoint anys_len_from {R} (fs : fields R) (n : nat) : any_set fs -> nat :=
  match fs return any_set fs -> nat with
  | FNil => fun _ => n
  | FUnit fs' => fun st => anys_len_from fs' (n + usize_from (fst st)) (snd st)
  | FTuple ki fs' => fun st =>
      anys_len_from fs' (n + ss_len (ki_set ki) (fst st)) (snd st)
  end.

(** [is_empty], any_variants.rs:545-559. *)
Fixpoint anys_is_empty_from {R} (fs : fields R) (b : bool) : any_set fs -> bool :=
  match fs return any_set fs -> bool with
  | FNil => fun _ => b
  | FUnit fs' => fun st => anys_is_empty_from fs' (b && negb (fst st)) (snd st)
  | FTuple ki fs' => fun st =>
      anys_is_empty_from fs' (b && ss_is_empty (ki_set ki) (fst st)) (snd st)
  end.

(** [contains], any_variants.rs:561-579. *)
Fixpoint anys_contains {R} (fs : fields R) : any_set fs -> R -> bool :=
  match fs in fields R return any_set fs -> R -> bool with
  | FNil => fun _ k => match k with end
  | FUnit fs' => fun st key =>
      match key with
      | inl _ => fst st
      | inr k => anys_contains fs' (snd st) k
      end
  | FTuple ki fs' => fun st key =>
      match key with
      | inl k => ss_contains (ki_set ki) (fst st) k
      | inr k => anys_contains fs' (snd st) k
      end
  end.

(** [remove], any_variants.rs:581-599. *)
Fixpoint anys_remove {R} (fs : fields R) : any_set fs -> R -> bool * any_set fs :=
  match fs in fields R return any_set fs -> R -> bool * any_set fs with
  | FNil => fun _ k => match k with end
  | FUnit fs' => fun st key =>
      match key with
      | inl _ => let '(old, new) := mem_replace (fst st) false in
                 (old, (new, snd st))
      | inr k => let '(b, r) := anys_remove fs' (snd st) k in (b, (fst st, r))
      end
  | FTuple ki fs' => fun st key =>
      match key with
      | inl k => let '(b, s) := ss_remove (ki_set ki) (fst st) k in (b, (s, snd st))
      | inr k => let '(b, r) := anys_remove fs' (snd st) k in (b, (fst st, r))
      end
  end.

(** [retain], any_variants.rs:601-626; [inj] names the variants. *)
Fixpoint anys_retain {S R T} (f : set_retain_fn S T) (fs : fields R)
  : (R -> T) -> S -> any_set fs -> S * any_set fs * outcome :=
  match fs in fields R
        return (R -> T) -> S -> any_set fs -> S * any_set fs * outcome
  with
  | FNil => fun _ s st => (s, st, Done)
  | FUnit fs' => fun inj s st =>
      match retain_flag f s (inj (inl tt)) (fst st) with
      | (s1, b1, Unwound) => (s1, (b1, snd st), Unwound)
      | (s1, b1, Done) =>
          let '(s2, r, o) := anys_retain f fs' (fun k => inj (inr k)) s1 (snd st) in
          (s2, (b1, r), o)
      end
  | FTuple ki fs' => fun inj s st =>
      match ss_retain (ki_set ki) (fun s k => f s (inj (inl k))) s (fst st) with
      | (s1, b1, Unwound) => (s1, (b1, snd st), Unwound)
      | (s1, b1, Done) =>
          let '(s2, r, o) := anys_retain f fs' (fun k => inj (inr k)) s1 (snd st) in
          (s2, (b1, r), o)
      end
  end.

(** [clear], any_variants.rs:628-644. *)
Fixpoint anys_clear {R} (fs : fields R) : any_set fs -> any_set fs :=
  match fs return any_set fs -> any_set fs with
  | FNil => fun st => st
  | FUnit fs' => fun st => (false, anys_clear fs' (snd st))
  | FTuple ki fs' => fun st => (ss_clear (ki_set ki) (fst st), anys_clear fs' (snd st))
  end.

(** [Iter]: field for a unit variant (any_variants.rs:1530-1549). *)
Definition siter_simple {T} (_ : nat) (t : T) : iterator T := flag_it t.

(** [Iter]: field for a tuple variant (any_variants.rs:1550-1568). *)
Definition siter_cx {T} (_ : nat) K (ki : KeyImpl K) (inj : K -> T) : iterator T :=
  map_it inj (ss_Iter (ki_set ki)).

(** [IntoIter]: field for a tuple variant (any_variants.rs:1694-1712); unit
    variants (1674-1693) as in [Iter]. *)
Definition sinto_cx {T} (_ : nat) K (ki : KeyImpl K) (inj : K -> T) : iterator T :=
  map_it inj (ss_IntoIter (ki_set ki)).

Section SetStorage.
  Context {R : Type} (fs : fields R).

  (** [iter], any_variants.rs:1630-1632. *)
  Definition anys_iter (st : any_set fs)
    : it_st (struct_it (field_its siter_simple siter_cx 0 fs (fun k : R => k))) :=
    (0, fields_len fs,
     field_init (Cx := cx_set) siter_simple siter_cx (fun _ _ b => b)
       (fun _ K ki _ s => ss_iter (ki_set ki) s) 0 fs (fun k => k) st).

  (** [into_iter], any_variants.rs:1787-1789. *)
  Definition anys_into_iter (st : any_set fs)
    : it_st (struct_it (field_its siter_simple sinto_cx 0 fs (fun k : R => k))) :=
    (0, fields_len fs,
     field_init (Cx := cx_set) siter_simple sinto_cx (fun _ _ b => b)
       (fun _ K ki _ s => ss_into_iter (ki_set ki) s) 0 fs (fun k => k) st).

  (** [impl SetStorage<Enum> for __SetStorage], any_variants.rs:429-667. *)
  Definition any_set_storage : SetStorage R := {|
    ss_St := any_set fs;
    ss_Iter := struct_it (field_its siter_simple siter_cx 0 fs (fun k => k));
    ss_IntoIter := struct_it (field_its siter_simple sinto_cx 0 fs (fun k => k));
    ss_empty := anys_empty fs 0;
    ss_len := anys_len_from fs 0;
    ss_is_empty := anys_is_empty_from fs true;
    ss_insert := anys_insert fs;
    ss_contains := anys_contains fs;
    ss_remove := anys_remove fs;
    ss_retain := fun S f s st => anys_retain f fs (fun k => k) s st;
    ss_clear := anys_clear fs;
    ss_iter := anys_iter;
    ss_into_iter := anys_into_iter;
    ss_clone := anys_clone fs;
    ss_eq := anys_eq fs;
    ss_hash := None;
    ss_partial_cmp := None;
    ss_cmp := None;
    ss_raw := None
  |}.
End SetStorage.

(** [implement], any_variants.rs:12-90. *)
Definition derive_any {R} (fs : fields R) : KeyImpl R :=
  MkKeyImpl (fun V => any_map_storage V fs) (any_set_storage fs).
