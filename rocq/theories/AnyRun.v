(** What the code of AnyCode.v is linked with: the storages of the element types, as
    the records of Traits.v. *)
Require Import List Arith NArith Bool String.
Import ListNotations.
From Verif Require Import Std Traits OptionBucket Rust AnyCode.
Open Scope string_scope.

Section Link.
  (** Codes of element types, the types (any_variants.rs:40) and their
      implementations of [Key] (any_variants.rs:41-45). *)
  Context {T : Type} (T_dec : forall a b : T, {a = b} + {a <> b})
          {K : T -> Type} (impl : forall t, KeyImpl (K t)) {V S : Type}.

  (** [<#element as Key>::MapStorage<V>], any_variants.rs:41. *)
  Definition M (t : T) : MapStorage (K t) V := ki_map (impl t) V.

  (** [<#element as Key>::SetStorage], any_variants.rs:43. *)
  Definition N (t : T) : SetStorage (K t) := ki_set (impl t).

  (** The items of the iterators of these storages (any_variants.rs:788, 914, 1060,
      1196, 1304, 1427, 1551, 1695). *)
  Definition item (q : ikind) (t : T) : Type :=
    match q with
    | KIter | KIntoIter => (K t * V)%type
    | KKeys | KSetIter | KSetIntoIter => K t
    | KValues => V
    | KIterMut => (K t * ref)%type
    | KValuesMut => ref
    end.

  (** The iterators (see [item]; any_variants.rs:788). *)
  Definition it_of (q : ikind) (t : T) : iterator (item q t) :=
    match q with
    | KIter => ms_Iter (M t)
    | KKeys => ms_Keys (M t)
    | KValues => ms_Values (M t)
    | KIterMut => ms_IterMut (M t)
    | KValuesMut => ms_ValuesMut (M t)
    | KIntoIter => ms_IntoIter (M t)
    | KSetIter => ss_Iter (N t)
    | KSetIntoIter => ss_IntoIter (N t)
    end.

  (** Values that the code gets from and hands to these storages: keys, storages,
      iterators and entries (any_variants.rs:50, 406, 788, 1903-1904).  Iterators and
      entries know the place of the storage they borrow. *)
  Inductive foreign : Type :=
  | XKey (t : T) (k : K t)
  | XMap (t : T) (s : ms_St (M t))
  | XSet (t : T) (s : ss_St (N t))
  | XIt (q : ikind) (t : T) (p : place) (s : it_st (it_of q t))
  | XOcc (t : T) (p : place) (o : ms_Occ (M t))
  | XVac (t : T) (p : place) (v : ms_Vac (M t)).

  Notation val := (val V foreign).
  Notation rt := (rt V foreign S).
  Notation ctl := (ctl V foreign).

  (** The value has the type that the call demands (rustc checks
      any_variants.rs:232). *)
  Definition cast (P : T -> Type) {t : T} (x : P t) (t' : T) : option (P t') :=
    match T_dec t t' with
    | left e => Some (eq_rect t P x t' e)
    | right _ => None
    end.
  (** See [cast] (any_variants.rs:232). *)
  Definition as_key (t : T) (v : val) : option (K t) :=
    match v with VForeign (XKey t' k) => cast K k t | _ => None end.
  (** See [cast] (any_variants.rs:232). *)
  Definition as_map (t : T) (v : val) : option (ms_St (M t)) :=
    match v with VForeign (XMap t' s) => cast (fun t => ms_St (M t)) s t | _ => None end.
  (** See [cast] (any_variants.rs:515). *)
  Definition as_set (t : T) (v : val) : option (ss_St (N t)) :=
    match v with VForeign (XSet t' s) => cast (fun t => ss_St (N t)) s t | _ => None end.

  (** [Option<V>] and booleans (any_variants.rs:238, 290). *)
  Definition vopt (o : option V) : val :=
    match o with Some v => VSome (VUser v) | None => VNone end.

  (** The option a value is (any_variants.rs:171, 198). *)
  Definition as_opt (v : val) : option (option V) :=
    match v with
    | VNone => Some None
    | VSome (VUser v) => Some (Some v)
    | _ => None
    end.

  (** A method with [&self] of the storage at a place (any_variants.rs:251). *)
  Definition with_map (t : T) (p : place) (st : rt) (f : ms_St (M t) -> ctl) : ctl * rt :=
    match read st p with
    | Some v => match as_map t v with Some s => (f s, st) | None => (CStuck, st) end
    | None => (CStuck, st)
    end.
  (** One with [&mut self] (any_variants.rs:232). *)
  Definition on_map (t : T) (p : place) (st : rt) (f : ms_St (M t) -> ctl * ms_St (M t))
    : ctl * rt :=
    match read st p with
    | Some v =>
        match as_map t v with
        | Some s =>
            let '(c, s') := f s in
            match write st p (VForeign (XMap t s')) with
            | Some st' => (c, st')
            | None => (CStuck, st)
            end
        | None => (CStuck, st)
        end
    | None => (CStuck, st)
    end.
  (** The same for sets (any_variants.rs:534). *)
  Definition with_set (t : T) (p : place) (st : rt) (f : ss_St (N t) -> ctl) : ctl * rt :=
    match read st p with
    | Some v => match as_set t v with Some s => (f s, st) | None => (CStuck, st) end
    | None => (CStuck, st)
    end.
  (** The same for sets (any_variants.rs:515). *)
  Definition on_set (t : T) (p : place) (st : rt) (f : ss_St (N t) -> ctl * ss_St (N t))
    : ctl * rt :=
    match read st p with
    | Some v =>
        match as_set t v with
        | Some s =>
            let '(c, s') := f s in
            match write st p (VForeign (XSet t s')) with
            | Some st' => (c, st')
            | None => (CStuck, st)
            end
        | None => (CStuck, st)
        end
    | None => (CStuck, st)
    end.

  (** A key that is an argument (any_variants.rs:232). *)
  Definition with_key (t : T) (v : val) (st : rt) (f : K t -> ctl * rt) : ctl * rt :=
    match as_key t v with Some k => f k | None => (CStuck, st) end.

  (** A result that may be an error, which no error would be in a program
      without undefined behaviour (any_variants.rs:1907, 1913-1937). *)
  Definition if_ok {A} (r : res A) (f : A -> ctl) : ctl :=
    match r with Ok a => f a | _ => CStuck end.
  (** See [if_ok] (any_variants.rs:1921, 1935); the storage is unchanged by an
      error. *)
  Definition if_ok2 {A St} (r : res (A * St)) (s : St) (f : A -> ctl) : ctl * St :=
    match r with Ok (a, s') => (f a, s') | _ => (CStuck, s) end.

  (** A reference that a storage at [p] gives, for assigning
      (any_variants.rs:323). *)
  Definition vref (p : place) (r : ref) : val := VRef (inside p (SInto r)).

  (** The items of iterators (any_variants.rs:713, 919, 1065).  Simplification: a
      shared reference from another storage is the value it points to. *)
  Definition item_val (q : ikind) (t : T) (p : place) : item q t -> val :=
    match q return item q t -> val with
    | KIter | KIntoIter => fun e => VPair (VForeign (XKey t (fst e))) (VUser (snd e))
    | KKeys | KSetIter | KSetIntoIter => fun k => VForeign (XKey t k)
    | KValues => fun v => VUser v
    | KIterMut => fun e => VPair (VForeign (XKey t (fst e))) (vref p (snd e))
    | KValuesMut => fun r => vref p r
    end.

  (** Making an iterator over the storage [v], which is borrowed from [p]
      (any_variants.rs:789, 915, 1061, 1197, 1305, 1428, 1552, 1696). *)
  Definition start (q : ikind) (t : T) (v : val) : option (it_st (it_of q t)) :=
    match q return option (it_st (it_of q t)) with
    | KIter => option_map (ms_iter (M t)) (as_map t v)
    | KKeys => option_map (ms_keys (M t)) (as_map t v)
    | KValues => option_map (ms_values (M t)) (as_map t v)
    | KIterMut => option_map (ms_iter_mut (M t)) (as_map t v)
    | KValuesMut => option_map (ms_values_mut (M t)) (as_map t v)
    | KIntoIter => option_map (ms_into_iter (M t)) (as_map t v)
    | KSetIter => option_map (ss_iter (N t)) (as_set t v)
    | KSetIntoIter => option_map (ss_into_iter (N t)) (as_set t v)
    end.

  (** One step of an iterator field (any_variants.rs:713, 721). *)
  Definition advance (p : place) (st : rt)
    (f : forall q t, it_st (it_of q t) -> option (option (item q t) * it_st (it_of q t)))
    : ctl * rt :=
    match read st p with
    | Some (VForeign (XIt q t r s)) =>
        match f q t s with
        | Some (o, s') =>
            match write st p (VForeign (XIt q t r s')) with
            | Some st' =>
                (CVal (match o with
                       | Some x => VSome (item_val q t r x)
                       | None => VNone end), st')
            | None => (CStuck, st)
            end
        | None => (CStuck, st)
        end
    | _ => (CStuck, st)
    end.

  (** What the user supplies for the values: [V::clone], [V::eq] and the destructor
      (any_variants.rs:171, 198, 370, 397). *)
  Record value_fns : Type := MkValueFns {
    vf_clone : clone_fn S V;
    vf_eq : eq_fn S V;
    vf_drop : drop_fn S V
  }.
  Variable F : value_fns.

  (** Ends a call that may unwind (any_variants.rs:198). *)
  Definition or_unwound {A} (st : rt) (s : S) (o : option A) (f : A -> val) : ctl * rt :=
    (match o with Some a => CVal (f a) | None => CUnwound end, with_user st s).

  (** [Clone::clone] of a field, any_variants.rs:198, 481, 816, 966, 1112, 1598, 1748:
      an option of a value or of a reference, a [bool], or something of another
      storage. *)
  Definition clone_val (v : val) (st : rt) : ctl * rt :=
    match v with
    | VBool b => (CVal (VBool b), st)
    | VSome (VRef p) => (CVal (VSome (VRef p)), st)
    | VForeign (XMap t s) =>
        let '(u, o) := ms_clone_with (M t) (vf_clone F) (rt_user st) s in
        or_unwound st u o (fun s' => VForeign (XMap t s'))
    | VForeign (XSet t s) => (CVal (VForeign (XSet t (ss_clone (N t) s))), st)
    | VForeign (XIt q t p s) => (CVal (VForeign (XIt q t p (it_clone (it_of q t) s))), st)
    | _ =>
        match as_opt v with
        | Some o =>
            let '(u, r) := clone_cell (vf_clone F) (rt_user st) o in or_unwound st u r vopt
        | None => (CStuck, st)
        end
    end.

  (** [PartialEq::ne] of two fields, any_variants.rs:171, 453: the default, [!(a == b)]. *)
  Definition ne_val (v w : val) (st : rt) : ctl * rt :=
    match v, w with
    | VBool a, VBool b => (CVal (VBool (negb (Bool.eqb a b))), st)
    | VForeign (XMap t s), _ =>
        match as_map t w with
        | Some s' =>
            let '(u, o) := ms_eq_with (M t) (vf_eq F) (rt_user st) s s' in
            or_unwound st u o (fun b => VBool (negb b))
        | None => (CStuck, st)
        end
    | VForeign (XSet t s), _ =>
        match as_set t w with
        | Some s' => (CVal (VBool (negb (ss_eq (N t) s s'))), st)
        | None => (CStuck, st)
        end
    | _, _ =>
        match as_opt v, as_opt w with
        | Some a, Some b =>
            let '(u, o) := eq_cell (vf_eq F) (rt_user st) a b in
            or_unwound st u o (fun b => VBool (negb b))
        | _, _ => (CStuck, st)
        end
    end.

  (** Randomness of the hash tables that are created (src/map/storage/hashbrown.rs). *)
  Variable w : world.

  (** The methods of the storages of the element types: see [meth]
      (any_variants.rs:210-403, 493-641, 713, 1913-1937). *)
  Definition ext_call (m : meth T) (l : list val) (st : rt) : ctl * rt :=
    match m, l with
    | MEmpty i t, [] => (CVal (VForeign (XMap t (ms_empty (M t) (sub_world i w)))), st)
    | MInsert t, [VRef p; kv; VUser v] =>
        with_key t kv st (fun k => on_map t p st (fun s =>
          let '(o, s') := ms_insert (M t) s k v in (CVal (vopt o), s')))
    | MLen t, [VRef p] => with_map t p st (fun s => CVal (VUsize (ms_len (M t) s)))
    | MIsEmpty t, [VRef p] => with_map t p st (fun s => CVal (VBool (ms_is_empty (M t) s)))
    | MContainsKey t, [VRef p; kv] =>
        with_key t kv st (fun k => with_map t p st (fun s =>
          CVal (VBool (ms_contains_key (M t) s k))))
    | MGet t, [VRef p; kv] =>
        with_key t kv st (fun k => with_map t p st (fun s => CVal (vopt (ms_get (M t) s k))))
    | MGetMut t, [VRef p; kv] =>
        with_key t kv st (fun k => with_map t p st (fun s =>
          CVal (match ms_get_mut (M t) s k with
                | Some r => VSome (vref p r)
                | None => VNone end)))
    | MRemove t, [VRef p; kv] =>
        with_key t kv st (fun k => on_map t p st (fun s =>
          let '(o, s') := ms_remove (M t) s k in (CVal (vopt o), s')))
    | MClear t, [VRef p] =>
        match read st p with
        | Some v =>
            match as_map t v with
            | Some s =>
                let '(u, s', o) := ms_clear_drop (M t) (vf_drop F) (rt_user st) s in
                match write st p (VForeign (XMap t s')) with
                | Some st' =>
                    (match o with Done => CVal VUnit | Unwound => CUnwound end,
                     with_user st' u)
                | None => (CStuck, st)
                end
            | None => (CStuck, st)
            end
        | None => (CStuck, st)
        end
    | MStart q t, [VRef p] =>
        match read st p with
        | Some v =>
            match start q t v with
            | Some s => (CVal (VForeign (XIt q t p s)), st)
            | None => (CStuck, st)
            end
        | None => (CStuck, st)
        end
    | MStart q t, [v] =>
        match start q t v with
        | Some s => (CVal (VForeign (XIt q t (MkPlace BLent []) s)), st)
        | None => (CStuck, st)
        end
    | MEntry t, [VRef p; kv] =>
        with_key t kv st (fun k => with_map t p st (fun s =>
          if_ok (ms_entry (M t) s k) (fun e => CVal
            (match e with
             | Occupied o => VEnumOf "Occupied" (VForeign (XOcc t p o))
             | Vacant v => VEnumOf "Vacant" (VForeign (XVac t p v))
             end))))
    | MOccKey t, [VForeign (XOcc t' p o)] =>
        match cast (fun t => ms_Occ (M t)) o t with
        | Some o => with_map t p st (fun s =>
            if_ok (ms_occ_key (M t) s o) (fun k => CVal (VForeign (XKey t k))))
        | None => (CStuck, st)
        end
    | MOccGet t, [VForeign (XOcc t' p o)] =>
        match cast (fun t => ms_Occ (M t)) o t with
        | Some o => with_map t p st (fun s =>
            if_ok (ms_occ_get (M t) s o) (fun v => CVal (VUser v)))
        | None => (CStuck, st)
        end
    | MOccGetMut t, [VForeign (XOcc t' p o)] =>
        match cast (fun t => ms_Occ (M t)) o t with
        | Some o => with_map t p st (fun s =>
            if_ok (ms_occ_get_mut (M t) s o) (fun r => CVal (vref p r)))
        | None => (CStuck, st)
        end
    | MOccIntoMut t, [VForeign (XOcc t' p o)] =>
        match cast (fun t => ms_Occ (M t)) o t with
        | Some o => with_map t p st (fun s =>
            if_ok (ms_occ_into_mut (M t) s o) (fun r => CVal (vref p r)))
        | None => (CStuck, st)
        end
    | MOccInsert t, [VForeign (XOcc t' p o); VUser v] =>
        match cast (fun t => ms_Occ (M t)) o t with
        | Some o => on_map t p st (fun s =>
            if_ok2 (ms_occ_insert (M t) s o v) s (fun old => CVal (VUser old)))
        | None => (CStuck, st)
        end
    | MOccRemove t, [VForeign (XOcc t' p o)] =>
        match cast (fun t => ms_Occ (M t)) o t with
        | Some o => on_map t p st (fun s =>
            if_ok2 (ms_occ_remove (M t) s o) s (fun old => CVal (VUser old)))
        | None => (CStuck, st)
        end
    | MVacKey t, [VForeign (XVac t' p o)] =>
        match cast (fun t => ms_Vac (M t)) o t with
        | Some o => with_map t p st (fun s =>
            CVal (VForeign (XKey t (ms_vac_key (M t) s o))))
        | None => (CStuck, st)
        end
    | MVacInsert t, [VForeign (XVac t' p o); VUser v] =>
        match cast (fun t => ms_Vac (M t)) o t with
        | Some o => on_map t p st (fun s =>
            if_ok2 (ms_vac_insert (M t) s o v) s (fun r => CVal (vref p r)))
        | None => (CStuck, st)
        end
    | SEmpty i t, [] => (CVal (VForeign (XSet t (ss_empty (N t) (sub_world i w)))), st)
    | SInsert t, [VRef p; kv] =>
        with_key t kv st (fun k => on_set t p st (fun s =>
          let '(b, s') := ss_insert (N t) s k in (CVal (VBool b), s')))
    | SLen t, [VRef p] => with_set t p st (fun s => CVal (VUsize (ss_len (N t) s)))
    | SIsEmpty t, [VRef p] => with_set t p st (fun s => CVal (VBool (ss_is_empty (N t) s)))
    | SContains t, [VRef p; kv] =>
        with_key t kv st (fun k => with_set t p st (fun s =>
          CVal (VBool (ss_contains (N t) s k))))
    | SRemove t, [VRef p; kv] =>
        with_key t kv st (fun k => on_set t p st (fun s =>
          let '(b, s') := ss_remove (N t) s k in (CVal (VBool b), s')))
    | SClear t, [VRef p] =>
        on_set t p st (fun s => (CVal VUnit, ss_clear (N t) s))
    | MNe, [VRef p; VRef r] =>
        match read st p, read st r with
        | Some a, Some b => ne_val a b st
        | _, _ => (CStuck, st)
        end
    | MClone, [VRef p] =>
        match read st p with Some a => clone_val a st | None => (CStuck, st) end
    | MNext, [VRef p] => advance p st (fun q t s => Some (it_next (it_of q t) s))
    | MNextBack, [VRef p] =>
        advance p st (fun q t s => option_map (fun b => b s) (it_back (it_of q t)))
    | _, _ => (CStuck, st)
    end.

  (** The answer of a closure that ran on a value that it may have changed
      (any_variants.rs:365); a value that is not kept is dropped by the storage.
      Simplification: as everywhere ([retain_fn]) this is part of the answer. *)
  Definition answer_in (st : rt) (v : V) (r : ctl * rt) : S * V * answer :=
    match r with
    | (c, st') =>
        let v' := match rt_lent st' with VUser x => x | _ => v end in
        match c with
        | CVal (VBool true) => (rt_user st', v', Keep)
        | CVal (VBool false) =>
            let '(s, u) := vf_drop F (rt_user st') v' in
            (s, v', if u then DiscardUnwind else Discard)
        | _ => (rt_user st', v', Unwind)
        end
    end.

  (** [retain] of another storage, any_variants.rs:363-366, 606-609.  The closure
      sees the key and a reference to a value that is lent to it; of what is
      around it, it only changes the state of the user's closure. *)
  Definition ext_retain (m : meth T) (r : val) (body : list val -> rt -> ctl * rt) (st : rt)
    : ctl * rt :=
    match m, r with
    | MRetain t, VRef p =>
        match read st p with
        | Some v =>
            match as_map t v with
            | Some s =>
                let '(u, s', o) :=
                  ms_retain (M t) (fun u k v =>
                    answer_in st v
                      (body [VForeign (XKey t k); VRef (MkPlace BLent [])]
                            (MkRt (rt_loc st) (rt_self st) (rt_other st) (VUser v) u)))
                    (rt_user st) s in
                match write st p (VForeign (XMap t s')) with
                | Some st' =>
                    (match o with Done => CVal VUnit | Unwound => CUnwound end,
                     with_user st' u)
                | None => (CStuck, st)
                end
            | None => (CStuck, st)
            end
        | None => (CStuck, st)
        end
    | SRetain t, VRef p =>
        match read st p with
        | Some v =>
            match as_set t v with
            | Some s =>
                let '(u, s', o) :=
                  ss_retain (N t) (fun u k =>
                    match body [VForeign (XKey t k)] (with_user st u) with
                    | (CVal (VBool true), st') => (rt_user st', Keep)
                    | (CVal (VBool false), st') => (rt_user st', Discard)
                    | (_, st') => (rt_user st', Unwind)
                    end) (rt_user st) s in
                match write st p (VForeign (XSet t s')) with
                | Some st' =>
                    (match o with Done => CVal VUnit | Unwound => CUnwound end,
                     with_user st' u)
                | None => (CStuck, st)
                end
            | None => (CStuck, st)
            end
        | None => (CStuck, st)
        end
    | _, _ => (CStuck, st)
    end.
End Link.
Arguments foreign {T K} impl V.
Arguments value_fns V S : clear implicits.
Arguments MkValueFns {V S}.
Arguments XKey {T K impl V}.
Arguments XMap {T K impl V}.
Arguments XSet {T K impl V}.
Arguments XIt {T K impl V}.
Arguments XOcc {T K impl V}.
Arguments XVac {T K impl V}.
