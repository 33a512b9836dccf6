(** A map as a list of entries: what every request to the code generated for an enum
    with tuple variants should be answered with. *)
Require Import List Arith NArith Bool String Permutation Sorted.
Import ListNotations.
From Verif Require Import Std Traits Key Spec EffectSpec ClearSpec AnyCode CodeSpec AnyCodeSpec.
Open Scope list_scope.

Section Reference.
  Context {R Ky V S : Type}.
  (** How keys are shown, which comes first when iterating, and which ones are
      yielded by [keys] even if they are absent (C07). *)
  Variable name : R -> Ky.
  Variable before : R -> R -> Prop.
  Variable ghost : R -> Prop.
  (** The user's closure and functions. *)
  Variable keep : retain_fn S R V.
  Variable clone : clone_fn S V.
  Variable drop : drop_fn S V.
  (** Which keys are stored together. *)
  Variable together : R -> R -> spot.
  (** Whether iterators can be advanced from the back. *)
  Variable both : bool.

  (** What is stored under [k]. *)
  Definition holds (es : list (R * V)) (k : R) (o : option V) : Prop :=
    match o with
    | Some v => In (k, v) es
    | None => ~ In k (map fst es)
    end.

  (** The value under [k], where there was [old], is now [v]. *)
  Definition replaced (es : list (R * V)) (k : R) (old v : V) (es' : list (R * V)) : Prop :=
    exists l1 l2, es = l1 ++ (k, old) :: l2 /\ es' = l1 ++ (k, v) :: l2.

  (** A new entry; entries may be ordered anew (by a hash table), as far as [before]
      leaves it open. *)
  Definition added (es : list (R * V)) (k : R) (v : V) (es' : list (R * V)) : Prop :=
    Permutation es' ((k, v) :: es) /\
    StronglySorted (fun a b => ~ before (fst b) (fst a)) es'.

  (** An entry less. *)
  Definition taken (es : list (R * V)) (k : R) (v : V) (es' : list (R * V)) : Prop :=
    exists l1 l2, es = l1 ++ (k, v) :: l2 /\ es' = l1 ++ l2.

  (** Taking items from the front or the back of a list. *)
  Fixpoint deal {A} (l : list turn) (es : list A) : list (option A) :=
    match l with
    | [] => []
    | Front :: r => hd_error es :: deal r (tl es)
    | Back :: r =>
        if both then hd_error (rev es) :: deal r (removelast es) else deal r es
    | Again :: r => deal r es
    end.

  Definition shows {A} (f : A -> option Ky * option V) (l : list turn) (es : list A) : reply Ky V :=
    RItems (map (option_map f) (deal l es)).

  (** Those entries changed by [g] that have been dealt. *)
  Definition touched (g : Ky -> V -> V) (l : list turn) (es es' : list (R * V)) : Prop :=
    Forall2 (fun e e' =>
      fst e' = fst e /\
      (In (Some e) (deal l es) -> snd e' = g (name (fst e)) (snd e)) /\
      (~ In (Some e) (deal l es) -> snd e' = snd e)) es es'.

  Definition finished (o : outcome) : reply Ky V :=
    match o with Done => RUnit | Unwound => RUnwound end.

  (** A request in state [s] to the map [es]: the answer, and what both become. *)
  Inductive ref_task : task R Ky V -> S -> list (R * V) -> reply Ky V -> S -> list (R * V) -> Prop :=
  | RfLen s es : ref_task TLen s es (RNat (List.length es)) s es
  | RfIsEmpty s es b : (b = true <-> es = []) -> ref_task TIsEmpty s es (RBool b) s es
  | RfContains k s es b o : holds es k o -> b = is_some o ->
      ref_task (TContains k) s es (RBool b) s es
  | RfGet k s es o : holds es k o -> ref_task (TGet k) s es (ROpt o) s es
  | RfInsertNew k v s es es' : holds es k None -> added es k v es' ->
      ref_task (TInsert k v) s es (ROpt None) s es'
  | RfInsertOld k v s es es' old : replaced es k old v es' ->
      ref_task (TInsert k v) s es (ROpt (Some old)) s es'
  | RfSetNone k v s es : holds es k None -> ref_task (TSet k v) s es RUnit s es
  | RfSet k v s es es' old : replaced es k old v es' -> ref_task (TSet k v) s es RUnit s es'
  | RfRemoveNone k s es : holds es k None -> ref_task (TRemove k) s es (ROpt None) s es
  | RfRemove k v s es es' : taken es k v es' ->
      ref_task (TRemove k) s es (ROpt (Some v)) s es'
  | RfRetain s es s' es' o : retain_list keep s es = (s', es', o) ->
      ref_task TRetain s es (finished o) s' es'
  | RfClear s es s' kept leaked o : clears_to drop together s es s' kept leaked o ->
      ref_task TClear s es (finished o) s' kept
  | RfClone s es s' es' : clone_values clone s es = (s', Some es') ->
      ref_task TClone s es RUnit s' es'
  | RfClonePanic s es s' : clone_values clone s es = (s', None) ->
      ref_task TClone s es RUnwound s' es
  | RfIter l s es :
      ref_task (TIter OfIter l) s es (shows (fun e => (Some (name (fst e)), Some (snd e))) l es) s es
  | RfIntoIter l s es :
      ref_task (TIter OfIntoIter l) s es
        (shows (fun e => (Some (name (fst e)), Some (snd e))) l es) s es
  | RfValues l s es :
      ref_task (TIter OfValues l) s es (shows (fun e => (None, Some (snd e))) l es) s es
  | RfKeys l s es ks : NoDup ks -> (forall k, In k ks <-> In k (map fst es) \/ ghost k) ->
      StronglySorted (fun a b => ~ before b a) ks ->
      ref_task (TIter OfKeys l) s es (shows (fun k => (Some (name k), None)) l ks) s es
  | RfIterMut g l s es es' : touched g l es es' ->
      ref_task (TIterMut g l) s es
        (shows (fun e => (Some (name (fst e)), Some (snd e))) l es) s es'
  | RfValuesMut g l s es es' : touched (fun _ => g) l es es' ->
      ref_task (TValuesMut g l) s es (shows (fun e => (None, Some (snd e))) l es) s es'
  | RfEntryKey k s es : ref_task (TEntry k IKey) s es (RKey (name k)) s es
  | RfEntryGet k s es o : holds es k o -> ref_task (TEntry k IGet) s es (ROpt o) s es
  | RfEntrySetNone k v s es a : (a = ISet v \/ a = IIntoMut v) -> holds es k None ->
      ref_task (TEntry k a) s es RUnit s es
  | RfEntrySet k v s es es' a old : (a = ISet v \/ a = IIntoMut v) -> replaced es k old v es' ->
      ref_task (TEntry k a) s es RUnit s es'
  | RfEntryInsertNew k v s es es' : holds es k None -> added es k v es' ->
      ref_task (TEntry k (IInsert v)) s es (RVal v) s es'
  | RfEntryInsertOld k v s es es' old : replaced es k old v es' ->
      ref_task (TEntry k (IInsert v)) s es (ROpt (Some old)) s es'
  | RfEntryRemoveNone k s es : holds es k None ->
      ref_task (TEntry k IRemove) s es (ROpt None) s es
  | RfEntryRemove k v s es es' : taken es k v es' ->
      ref_task (TEntry k IRemove) s es (ROpt (Some v)) s es'.

  (** A list of requests. *)
  Inductive ref_tasks : list (task R Ky V) -> S -> list (R * V) -> list (reply Ky V) -> S ->
                        list (R * V) -> Prop :=
  | RfEnd s es : ref_tasks [] s es [] s es
  | RfStep q l s es a s1 es1 rs s2 es2 :
      ref_task q s es a s1 es1 -> ref_tasks l s1 es1 rs s2 es2 ->
      ref_tasks (q :: l) s es (a :: rs) s2 es2.
End Reference.

(** * A set as a list of elements *)

Section Sets.
  Context {R Ky V S : Type}.
  Variable name : R -> Ky.
  Variable before : R -> R -> Prop.
  (** Where a key ends up, and the other [bool] in its place: the storage of sets of
      [bool], of [()] and of [Option] do not do what is documented (C26 to C29, C38). *)
  Variable at_leaf : R -> leaf.
  Variable other : R -> option R.
  (** [stays j k]: a [retain] that unwinds at [j] leaves [k] in the set even if it was
      rejected. *)
  Variable stays : R -> R -> bool.
  Variable keep : set_retain_fn S R.
  Variable both : bool.

  Definition in_order (es : list R) : Prop :=
    NoDup es /\ StronglySorted (fun a b => ~ before b a) es.

  (** [insert] answers whether the element is new, save that under a [bool] and for a
      [None] it answers whether it was there. *)
  Definition insert_says (k : R) (was : bool) : bool :=
    match at_leaf k with LBool | LNone => was | _ => negb was end.

  Inductive ref_set_task : set_task R -> S -> list R -> reply Ky V -> S -> list R -> Prop :=
  | RsLen s es : ref_set_task ULen s es (RNat (List.length es)) s es
  | RsIsEmpty s es b : (b = true <-> forall k, In k es <-> at_leaf k = LNone) ->
      ref_set_task UIsEmpty s es (RBool b) s es
  | RsContains k s es b : (b = true <-> In k es) ->
      ref_set_task (UContains k) s es (RBool b) s es
  | RsInsertNew k s es es' : ~ In k es -> Permutation es' (k :: es) -> in_order es' ->
      ref_set_task (UInsert k) s es (RBool (insert_says k false)) s es'
  | RsInsertOld k s es : In k es ->
      ref_set_task (UInsert k) s es (RBool (insert_says k true)) s es
  | RsRemoveNone k s es b : ~ In k es -> (b = true <-> exists j, other k = Some j /\ In j es) ->
      ref_set_task (URemove k) s es (RBool b) s es
  | RsRemove k s l1 l2 :
      ref_set_task (URemove k) s (l1 ++ k :: l2) (RBool true) s (l1 ++ l2)
  | RsRetain s es seen has s' es' at_ : in_order seen ->
      (forall k, In k seen <-> In k es \/ at_leaf k = LUnit) ->
      (forall k, has k = true <-> In k es) -> filter has seen = es ->
      retain_undo keep stays has s seen = (s', es', at_) ->
      ref_set_task URetain s es (match at_ with Some _ => RUnwound | None => RUnit end) s' es'
  | RsClear s es : ref_set_task UClear s es RUnit s []
  | RsClone s es : ref_set_task UClone s es RUnit s es
  | RsIter into l s es :
      ref_set_task (UIter into l) s es (shows both (fun k => (Some (name k), None)) l es) s es.

  Inductive ref_set_tasks : list (set_task R) -> S -> list R -> list (reply Ky V) -> S ->
                            list R -> Prop :=
  | RsEnd s es : ref_set_tasks [] s es [] s es
  | RsStep q l s es a s1 es1 rs s2 es2 :
      ref_set_task q s es a s1 es1 -> ref_set_tasks l s1 es1 rs s2 es2 ->
      ref_set_tasks (q :: l) s es (a :: rs) s2 es2.
End Sets.

(** * The enum *)
Section Enum.
  Context {T : Type} (ty : T -> kty).
  Notation R_of := (R_of (K := fun t => key (ty t))).

  (** Its variants, as in Key.v. *)
  Fixpoint variants_in (flds : vfields T) : variants :=
    match flds with
    | [] => VNil
    | (_, None) :: r => Key.VUnit (variants_in r)
    | (_, Some t) :: r => VTuple (ty t) (variants_in r)
    end.

  (** Iteration order: variants as they are declared, keys of one variant in the order
      of the element type. *)
  Fixpoint earlier (flds : vfields T) : R_of flds -> R_of flds -> Prop :=
    match flds return R_of flds -> R_of flds -> Prop with
    | [] => fun _ _ => False
    | (_, None) :: r => fun a b =>
        match a, b with
        | inl _, inl _ => False
        | inl _, inr _ => True
        | inr _, inl _ => False
        | inr x, inr y => earlier r x y
        end
    | (_, Some t) :: r => fun a b =>
        match a, b with
        | inl x, inl y => key_before (ty t) x y
        | inl _, inr _ => True
        | inr _, inl _ => False
        | inr x, inr y => earlier r x y
        end
    end.

  (** Where a key ends up, as in Spec.v. *)
  Fixpoint leaf_in (flds : vfields T) : R_of flds -> leaf :=
    match flds return R_of flds -> leaf with
    | [] => fun _ => LVariant
    | (_, None) :: r => fun k => match k with inl _ => LVariant | inr x => leaf_in r x end
    | (_, Some t) :: r => fun k => match k with inl x => leaf_of (ty t) x | inr x => leaf_in r x end
    end.

  (** The other [bool] in the place of one, as in Spec.v. *)
  Fixpoint other_in (flds : vfields T) : R_of flds -> option (R_of flds) :=
    match flds return R_of flds -> option (R_of flds) with
    | [] => fun _ => None
    | (_, None) :: r => fun k =>
        match k with inl _ => None | inr x => option_map inr (other_in r x) end
    | (_, Some t) :: r => fun k =>
        match k with
        | inl x => option_map inl (sibling (ty t) x)
        | inr x => option_map inr (other_in r x)
        end
    end.

  (** Which keys are stored together, as in ClearSpec.v. *)
  Fixpoint together_in (flds : vfields T) : R_of flds -> R_of flds -> spot :=
    match flds return R_of flds -> R_of flds -> spot with
    | [] => fun _ _ => Elsewhere
    | (_, None) :: r => fun a b =>
        match a, b with inr x, inr y => together_in r x y | _, _ => Elsewhere end
    | (_, Some t) :: r => fun a b =>
        match a, b with
        | inl x, inl y => placed (ty t) x y
        | inr x, inr y => together_in r x y
        | _, _ => Elsewhere
        end
    end.

  (** Two keys of one bit set, as in Spec.v. *)
  Fixpoint stays_in (flds : vfields T) : R_of flds -> R_of flds -> bool :=
    match flds return R_of flds -> R_of flds -> bool with
    | [] => fun _ _ => false
    | (_, None) :: r => fun a b =>
        match a, b with inr x, inr y => stays_in r x y | _, _ => false end
    | (_, Some t) :: r => fun a b =>
        match a, b with
        | inl x, inl y => one_bitset (ty t) x y
        | inr x, inr y => stays_in r x y
        | _, _ => false
        end
    end.
End Enum.
