(** Vocabulary of the property statements that talks about the modelled API:
    iterating to the end, values that safe programs can build, histories. *)
Require Import List Arith NArith ZArith Bool.
Import ListNotations.
From Verif Require Import Std Traits Key Api Spec.

(** * Iterating *)

(** Calling [next] until it returns [None] yields [l]. *)
Definition yields {A} (i : iterator A) (s : it_st i) (l : list A) : Prop :=
  exists n0, forall n, n0 <= n -> drain i n s = Some l.

(** Any sequence of [next] and [next_back] calls: the results and the final
    state; [None] if [next_back] is called but not implemented. *)
Fixpoint run_it {A} (i : iterator A) (ds : list dir) (s : it_st i)
  : option (list (option A) * it_st i) :=
  match ds with
  | [] => Some ([], s)
  | Front :: ds =>
      let '(x, s1) := it_next i s in
      option_map (fun '(o, s2) => (x :: o, s2)) (run_it i ds s1)
  | Back :: ds =>
      match it_back i with
      | None => None
      | Some b =>
          let '(x, s1) := b s in
          option_map (fun '(o, s2) => (x :: o, s2)) (run_it i ds s1)
      end
  end.

Definition double_ended {A} (i : iterator A) : bool :=
  match it_back i with Some _ => true | None => false end.

(** [s] behaves as the deque [l] under [next] and, if implemented,
    [next_back]. *)
Definition behaves_as_deque {A} (i : iterator A) (s : it_st i) (l : list A) : Prop :=
  yields i s l /\
  forall ds, (In Back ds -> double_ended i = true) ->
    exists s', run_it i ds s = Some (fst (deque ds l), s') /\
               yields i s' (snd (deque ds l)).

(** From [s] on, a clone taken after any calls behaves as the deque of what
    remains at that point, with the size hint of the original. *)
Definition clones_continue {A} (i : iterator A) (s : it_st i) (l : list A) : Prop :=
  behaves_as_deque i s l /\
    forall ds outs s', run_it i ds s = Some (outs, s') ->
    behaves_as_deque i (it_clone i s') (snd (deque ds l)) /\
    it_hint i (it_clone i s') = it_hint i s'.

(** [size_hint] brackets the number of remaining items, after any calls. *)
Definition hints_bracket {A} (i : iterator A) (s : it_st i) : Prop :=
  forall ds outs s', run_it i ds s = Some (outs, s') ->
  exists l, yields i s' l /\ fst (it_hint i s') <= length l /\
            match snd (it_hint i s') with Some u => length l <= u | None => True end.

(** [len] of an [ExactSizeIterator] is the number of remaining items, after any
    calls. *)
Definition hints_exact {A} (i : iterator A) (s : it_st i) : Prop :=
  forall ds outs s', run_it i ds s = Some (outs, s') ->
  exists l, yields i s' l /\ it_hint i s' = (length l, Some (length l)).

(** * Maps that safe programs can build *)

Section Map.
  Context {K V : Type} (m : MapStorage K V).

  (** [map_reachable st]: a safe program can build the map [st].
      [occ_live st k o]: during such a program, [o] is an occupied entry
      obtained by [entry(k)] and still alive, while the map is in state [st]. *)
  Inductive map_reachable : ms_St m -> Prop :=
  | mr_new w : map_reachable (map_new m w)
  | mr_insert st k v : map_reachable st -> map_reachable (snd (map_insert m st k v))
  | mr_remove st k : map_reachable st -> map_reachable (snd (map_remove m st k))
  | mr_clear st : map_reachable st -> map_reachable (map_clear m st)
  | mr_retain (S : Type) (f : retain_fn S K V) (s : S) st :
      map_reachable st -> map_reachable (snd (fst (map_retain m f s st)))
  | mr_assign st r v st' :
      map_reachable st -> assign m st r v = Ok st' -> map_reachable st'
  | mr_clone cl st : map_reachable st -> map_reachable (map_clone m cl st)
  | mr_vacant st k x v r st' :
      map_reachable st -> map_entry m st k = Ok (Vacant x) ->
      ms_vac_insert m st x v = Ok (r, st') -> map_reachable st'
  | mr_occupied st k o : occ_live st k o -> map_reachable st
  | mr_occ_remove st k o v st' :
      occ_live st k o -> ms_occ_remove m st o = Ok (v, st') -> map_reachable st'
  with occ_live : ms_St m -> K -> ms_Occ m -> Prop :=
  | ol_entry st k o :
      map_reachable st -> map_entry m st k = Ok (Occupied o) -> occ_live st k o
  | ol_get_mut st k o r v st' :
      occ_live st k o -> ms_occ_get_mut m st o = Ok r -> assign m st r v = Ok st' ->
      occ_live st' k o
  | ol_insert st k o v old st' :
      occ_live st k o -> ms_occ_insert m st o v = Ok (old, st') -> occ_live st' k o.

  (** Several assignments through references held at once. *)
  Fixpoint assign_all (st : ms_St m) (ws : list (ref * V)) : res (ms_St m) :=
    match ws with
    | [] => Ok st
    | (r, v) :: ws => res_bind (assign m st r v) (fun st' => assign_all st' ws)
    end.

  (** What [or_insert(d)] on the entry of [k] must achieve, returning [r]: an
      existing value stays, otherwise [d] is stored; [r] refers to the value now
      stored; nothing else changes. *)
  Definition or_inserts (st : ms_St m) (k : K) (d : V) (r : ref) (st' : ms_St m) : Prop :=
    let v := match map_get m st k with Some v => v | None => d end in
    map_get m st' k = Some v /\ deref m st' r = Ok v /\ map_get_mut m st' k = Some r /\
    (forall k', k' <> k -> map_get m st' k' = map_get m st k').
End Map.

Scheme map_reachable_mut := Minimality for map_reachable Sort Prop
  with occ_live_mut := Minimality for occ_live Sort Prop.
Combined Scheme reachable_mut from map_reachable_mut, occ_live_mut.

(** * Sets that safe programs can build (without raw integers) *)

Section Set_.
  Context {T : Type} (m : SetStorage T).

  Inductive set_reachable : ss_St m -> Prop :=
  | sr_new w : set_reachable (set_new m w)
  | sr_insert st k : set_reachable st -> set_reachable (snd (set_insert m st k))
  | sr_remove st k : set_reachable st -> set_reachable (snd (set_remove m st k))
  | sr_clear st : set_reachable st -> set_reachable (set_clear m st)
  | sr_retain (S : Type) (f : set_retain_fn S T) (s : S) st :
      set_reachable st -> set_reachable (snd (fst (set_retain m f s st)))
  | sr_clone st : set_reachable st -> set_reachable (set_clone m st).
End Set_.

(** * Intersections *)

Section Inter.
  Context {T : Type} (m : SetStorage T).

  (** Calling [next] on an intersection until it returns [None]. *)
  Fixpoint inter_drain (fuel : nat) (x : intersection m) : option (list T) :=
    match fuel with
    | 0 => None
    | S f =>
        match inter_next m f x with
        | None => None
        | Some (None, _) => Some []
        | Some (Some e, x') => option_map (cons e) (inter_drain f x')
        end
    end.

  (** Calling [next] [k] times: the results and the final state. *)
  Fixpoint inter_run (fuel k : nat) (x : intersection m)
    : option (list (option T) * intersection m) :=
    match k with
    | 0 => Some ([], x)
    | S k =>
        match inter_next m fuel x with
        | None => None
        | Some (e, x1) => option_map (fun '(o, x2) => (e :: o, x2)) (inter_run fuel k x1)
        end
    end.
End Inter.

(** * serde *)

(** The input [d] supplies exactly the items [l] and then ends. *)
Inductive supplies {D A Err} (acc : access D A Err) : D -> list A -> Prop :=
| sup_end d d' : acc d = (inl None, d') -> supplies acc d []
| sup_item d x d' l : acc d = (inl (Some x), d') -> supplies acc d' l -> supplies acc d (x :: l).

(** The input [d] supplies the items [l] and then fails with [e]. *)
Inductive breaks {D A Err} (acc : access D A Err) : D -> list A -> Err -> Prop :=
| br_fail d e d' : acc d = (inr e, d') -> breaks acc d [] e
| br_item d x d' l e : acc d = (inl (Some x), d') -> breaks acc d' l e -> breaks acc d (x :: l) e.

(** Handing the items [l] to a serializer one by one, up to the first error. *)
Fixpoint feed {A Out Err} (z : serializer A Out Err) (s : ser_st z) (l : list A) : Out + Err :=
  match l with
  | [] => ser_end z s
  | x :: l => match ser_elem z s x with inl s' => feed z s' l | inr e => inr e end
  end.

(** Announcing [length l] items, then handing them over. *)
Definition feed_all {A Out Err} (z : serializer A Out Err) (l : list A) : Out + Err :=
  match ser_start z (Some (length l)) with inl s => feed z s l | inr e => inr e end.

(** The result of a loop that needs enough fuel. *)
Definition returns {A} (f : nat -> option A) (x : A) : Prop :=
  exists n0, forall n, n0 <= n -> f n = Some x.
