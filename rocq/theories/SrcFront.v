(** The front end as source files: src/map.rs, src/map/entry.rs, src/set.rs and
    src/set/intersection.rs, run around any storage; what is asked of a [Map] and a [Set]
    beyond what their storage is asked, and the answers of the model ([Api]). *)
Require Import List Arith NArith ZArith Bool String.
Import ListNotations.
From Verif Require Import Std Traits Api SrcText SrcStd SrcParse SrcRun SrcSpec SrcFiles.
Open Scope string_scope.

(** * Maps *)

(** What the user supplies for entries: [or_insert_with], [or_insert_with_key],
    [and_modify] and [V::default]; [None] when they unwind. *)
Record entry_fns {K V S : Type} : Type := MkEntryFns {
  e_make : S -> S * option V;
  e_make_key : S -> K -> S * option V;
  e_modify : S -> V -> S * V * outcome;
  e_default : S -> S * option V
}.
Arguments entry_fns : clear implicits.
Arguments MkEntryFns {K V S}.

(** How a chain of methods on an entry ends.  Through the reference that the last one returns,
    the value is read, and then perhaps another one is assigned. *)
Inductive entry_end {V : Type} : Type :=
| ToKey
| OrInsert (v : V) (w : option V)
| OrInsertWith (w : option V)
| OrInsertWithKey (w : option V)
| OrDefault (w : option V).
Arguments entry_end : clear implicits.

(** Requests to a [Map]: those of its storage; loops over [&map] and [&mut map];
    [map.entry(k).and_modify(f)…] ([n] times) and how it goes on. *)
Inductive freq {K V : Type} : Type :=
| FPlain (q : req K V)
| FRefIter (l : list ask)
| FRefIterMut (g : K -> V -> V) (l : list ask)
| FEntry (k : K) (n : nat) (e : entry_end V).
Arguments freq : clear implicits.

(** Comparing and hashing two maps: user functions for values, with their effects or without. *)
Record order_fns {V S : Type} : Type := MkOrderFns {
  o_pcmp : pcmp_fn S V;
  o_cmp : cmp_fn S V;
  o_word : hash_fn S Z;
  o_hash : hash_fn S V;
  o_pcmp0 : V -> V -> option comparison;
  o_cmp0 : V -> V -> comparison
}.
Arguments order_fns : clear implicits.
Arguments MkOrderFns {V S}.
Inductive order_req : Type := OPartialCmp | OCmp | OLt | OLe | OGt | OGe.
Inductive pick_req : Type := PMax | PMin.

Definition ordering_val {V X} (c : comparison) : val V X :=
  VData "Ordering" (match c with Lt => "Less" | Eq => "Equal" | Gt => "Greater" end) [].
Definition as_ordering {V X} (v : val V X) : option comparison :=
  match v with
  | VData "Ordering" "Less" [] => Some Lt
  | VData "Ordering" "Equal" [] => Some Eq
  | VData "Ordering" "Greater" [] => Some Gt
  | _ => None
  end.

(** What comparing two maps says. *)
Inductive order_ans : Type :=
| IsOrdered (o : option comparison) | IsCmp (c : comparison) | IsSo (b : bool) | OrderUnwinds.

Definition order_name (q : order_req) : string :=
  match q with
  | OPartialCmp => "partial_cmp" | OCmp => "cmp" | OLt => "lt" | OLe => "le" | OGt => "gt" | OGe => "ge"
  end.
Definition order_trait (q : order_req) : string := match q with OCmp => "Ord" | _ => "PartialOrd" end.
(** What the program says. *)
Definition order_said {V X} (v : val V X) : option order_ans :=
  match v with
  | VBool b => Some (IsSo b)
  | VData "Ordering" _ _ => option_map IsCmp (as_ordering v)
  | _ =>
      match option_of v with
      | Some None => Some (IsOrdered None)
      | Some (Some c) => option_map (fun c => IsOrdered (Some c)) (as_ordering c)
      | None => None
      end
  end.

Section FrontMap.
  Context {K V S : Type} (m : MapStorage K V).
  Notation X := (foreign_map m).
  Notation val := (val V X).
  Notation reply := (reply V X).

  (** Methods of the storage that only the front end calls. *)
  Definition ask_order (ord : order_fns V S) (st : ms_St m) (f : string) (args : list (val * option val)) (s : S)
    : option (S * reply) :=
    let truth (g : option (ms_St m -> ms_St m -> bool)) st2 :=
      option_map (fun g => (s, says m (CVal (VBool (g st st2))))) g in
    let chosen (g : option (ms_St m -> ms_St m -> ms_St m)) st2 :=
      option_map (fun g => (s, says m (CVal (VForeign (XMap m (g st st2)))))) g in
    match f, args with
    | "partial_cmp", [(VRef _, Some (VForeign (XMap _ st2)))] =>
        option_map (fun g =>
          let '(s', o) := g S (o_pcmp ord) s st st2 in
          (s', says m (match o with
                       | Some o => CVal (opt_val (option_map ordering_val o))
                       | None => CUnwound
                       end))) (ms_partial_cmp_with m)
    | "cmp", [(VRef _, Some (VForeign (XMap _ st2)))] =>
        option_map (fun g =>
          let '(s', o) := g S (o_cmp ord) s st st2 in
          (s', says m (match o with Some c => CVal (ordering_val c) | None => CUnwound end))) (ms_cmp_with m)
    | "lt", [(VRef _, Some (VForeign (XMap _ st2)))] => truth (map_lt m (o_pcmp0 ord)) st2
    | "le", [(VRef _, Some (VForeign (XMap _ st2)))] => truth (map_le m (o_pcmp0 ord)) st2
    | "gt", [(VRef _, Some (VForeign (XMap _ st2)))] => truth (map_gt m (o_pcmp0 ord)) st2
    | "ge", [(VRef _, Some (VForeign (XMap _ st2)))] => truth (map_ge m (o_pcmp0 ord)) st2
    | "max", [(VForeign (XMap _ st2), None)] => chosen (map_max m (o_cmp0 ord)) st2
    | "min", [(VForeign (XMap _ st2), None)] => chosen (map_min m (o_cmp0 ord)) st2
    | "clamp", [(VForeign (XMap _ lo), None); (VForeign (XMap _ hi), None)] =>
        option_map (fun g =>
          (s, says m (result_val (fun st => VForeign (XMap m st)) (g st lo hi)))) (map_clamp m (o_pcmp0 ord))
    | "hash", [(VGiven _, None)] =>
        option_map (fun g =>
          let '(s', u) := g S (o_word ord) (o_hash ord) s st in
          (s', says m (if u : bool then CUnwound else CVal unit_))) (ms_hash_with m)
    | _, _ => None
    end.
  (** What src/map.rs uses but does not define. *)
  Definition front_foreign (ord : option (order_fns V S)) (U : user_fns K V S)
    (call : val -> bool -> val -> option V -> S -> S * option V * Std.answer) (w : world)
    (q : question V X) (s : S) : S * reply :=
    match q with
    | QMethod (XGiven _ l) p "next" [] _ =>
        match l with
        | [] => (s, says m (CVal none_))
        | (k, v) :: r =>
            (s, MkReply (CVal (some_ (VData "()" "" [("0", key_val m k); ("1", VUser v)])))
                  [(p, VForeign (XGiven m r))] [])
        end
    | QMethod (XGiven _ l) p "into_iter" [] _ => (s, says m (CVal (VForeign (XGiven m l))))
    | QMethod (XMap _ st) p f args _ =>
        match ord with
        | Some ord =>
            match ask_order ord st f args s with
            | Some r => r
            | None => (s, wrong m)
            end
        | None => ask_map m false U call st p f args s
        end
    | _ => foreign_answer m false ["K"; "MapStorage"; "empty"] (fun w => w) U call w q s
    end.

  (** src/map.rs with src/map/entry.rs. *)
  Definition map_text : list (list string) := [text_core; text_map_entry; text_map_rs].
  Definition map_file (ord : option (order_fns V S)) (p : list item) : file K V X S := MkFile
    p "" "Map" "" "" (key_val m) as_key_val (both_ends m) (map_load m) (map_store m)
    (front_foreign ord) (map_at_self m).

  Section Requests.
    Variables (p : list item) (U : user_fns K V S) (E : entry_fns K V S).
    Notation F := (map_file None p).

    (** The user's functions, those for entries among them. *)
    Definition entry_answer (q : question V X) (s : S) : S * reply :=
      let made r : S * reply :=
        match r with
        | (s', Some v) => (s', MkReply (CVal (VUser v)) [] [])
        | (s', None) => (s', MkReply CUnwound [] [])
        end in
      match q with
      | QGiven 1 [] => made (e_make E s)
      | QGiven 2 [(VForeign (XKey _ k), None)] => made (e_make_key E s k)
      | QGiven 3 [(VRef p, Some (VUser v))] =>
          let '(s', v', o) := e_modify E s v in
          (s', MkReply (match o with Done => CVal unit_ | Unwound => CUnwound end) [(p, VUser v')] [])
      | QPath ["Default"; "default"] [] => made (e_default E s)
      | _ => answer F U old q s
      end.
    (** A method of the entry in the second cell of the store. *)
    Definition entry_call (f : string) (args : list val) (self e : val) (s : S)
      : ctl V X val * list val * S :=
      drive entry_answer (method p fuel (At 1 []) f args) [self; e] budget [] s.

    (** Reading through a reference, and perhaps writing. *)
    Definition through (w : option V) (t : list val) (r : val) : val * ans K V :=
      match value_of F t r with
      | Some v =>
          match w with
          | Some x => let '(self', a) := assign_at F x t r in (self', match a with Nothing => Val v | _ => Bad end)
          | None => (self_in t, Val v)
          end
      | None => (self_in t, Bad)
      end.

    (** [and_modify], some times: the entry, and the surroundings and the map then; nothing is
        changed by what ends in [Bad]. *)
    Fixpoint modifying (n : nat) (s : S) (self e : val) : S * val * (val + ans K V) :=
      match n with
      | 0 => (s, self, inl e)
      | Datatypes.S n =>
          match entry_call "and_modify" [VGiven 3] self e s with
          | (CVal e', t, s1) =>
              if at_self F e' then modifying n s1 (self_in t) e' else (s, self, inr Bad)
          | (CUnwound, t, s1) => (s1, self_in t, inr Unwinds)
          | _ => (s, self, inr Bad)
          end
      end.

    (** [map.entry(k)] and what follows. *)
    Definition front_entry (k : K) (n : nat) (e : entry_end V) (s : S) (self : val) : S * val * ans K V :=
      match invoke F U old "" "Map" "entry" [VRef (At 0 []); key_val m k] [self] s with
      | (CVal x, t, s1) =>
          if at_self F x then
            match modifying n s1 (self_in t) x with
            | (s2, self2, inl y) =>
                let on f args (look : list val -> val -> val * ans K V) :=
                  match entry_call f args self2 y s2 with
                  | (CVal v, t, s3) => let '(self3, a) := look t v in (s3, self3, a)
                  | (CUnwound, t, s3) => (s3, self_in t, Unwinds)
                  | _ => (s2, self2, Bad)
                  end in
                match e with
                | ToKey => on "key" [] (its_key F)
                | OrInsert v w => on "or_insert" [VUser v] (through w)
                | OrInsertWith w => on "or_insert_with" [VGiven 1] (through w)
                | OrInsertWithKey w => on "or_insert_with_key" [VGiven 2] (through w)
                | OrDefault w => on "or_default" [] (through w)
                end
            | (s2, self2, inr a) => (s2, self2, a)
            end
          else (s1, self_in t, Bad)
      | (_, t, s1) => (s1, self_in t, Bad)
      end.
    (** The entries of the storage, as [Map::entry] gives them. *)
    Definition plain_entry (k : K) (a : entry_use V) (s : S) (self : val) : S * val * ans K V :=
      match invoke F U old "" "Map" "entry" [VRef (At 0 []); key_val m k] [self] s with
      | (CVal (VData "Entry" c [(_, e)]), t, s1) =>
          let on f args (look : list val -> val -> val * ans K V) :=
            match entry_call f args (self_in t) e s1 with
            | (CVal v, t, s2) => let '(self', r) := look t v in (s2, self', r)
            | (_, t, s2) => (s2, self_in t, Bad)
            end in
          if at_self F e then
            match c, a with
            | "Occupied", OnKey | "Vacant", OnKey => on "key" [] (its_key F)
            | "Occupied", OnGet => on "get" [] (its_value F (fun v => Opt (Some v)))
            | "Occupied", OnSet v => on "get_mut" [] (assign_at F v)
            | "Occupied", OnIntoMut v => on "into_mut" [] (assign_at F v)
            | "Occupied", OnInsert v => on "insert" [VUser v] (its_value F (fun v => Opt (Some v)))
            | "Occupied", OnRemove => on "remove" [] (its_value F (fun v => Opt (Some v)))
            | "Vacant", OnInsert v => on "insert" [VUser v] (its_value F (@Val K V))
            | "Vacant", OnGet | "Vacant", OnRemove => (s1, self_in t, Opt None)
            | "Vacant", OnSet _ | "Vacant", OnIntoMut _ => (s1, self_in t, Nothing)
            | _, _ => (s1, self_in t, Bad)
            end
          else (s1, self_in t, Bad)
      | (_, t, s1) => (s1, self_in t, Bad)
      end.

    (** [for … in &map] and [for … in &mut map]: the same file with other names. *)
    Definition ref_file (ty : string) : file K V X S := MkFile
      p "IntoIterator" ty "" "" (key_val m) as_key_val (both_ends m) (map_load m) (map_store m)
      (front_foreign None) (map_at_self m).

    Definition front_req (q : freq K V) (s : S) (self : val) : S * val * ans K V :=
      match q with
      | FPlain (MEntry k a) => plain_entry k a s self
      | FPlain q => src_req F U q s self
      | FRefIter l =>
          match invoke F U old "IntoIterator" "&Map" "into_iter" [VRef (At 0 [])] [self] s with
          | (CVal it, t, s1) =>
              if at_self F it then
                match asking_all F U (both_ends m "iter") true (item_of F) bounds_of l (self_in t) it s1 with
                | Some (items, s') => (s', self_in t, Items items)
                | None => (s1, self_in t, Bad)
                end
              else (s1, self_in t, Bad)
          | (_, t, s1) => (s1, self_in t, Bad)
          end
      | FRefIterMut g l =>
          iterate_mut (ref_file "&mut Map") U (both_ends m "iter_mut") "into_iter"
            (fun o => match o with Some k => g k | None => fun v => v end) l s self
      | FEntry k n e => front_entry k n e s self
      end.
  End Requests.

  (** ** Other functions *)
  Section Functions.
    Variables (p : list item) (U : user_fns K V S).

    (** A [Map] around a storage. *)
    Definition map_val (st : ms_St m) : val := VData "Map" "" [("storage", VForeign (XMap m st))].

    (** [Map::default]. *)
    Definition front_default (w : world) (s : S) : option (val * S) :=
      match invoke (map_file None p) U w "Default" "Map" "default" [] [] s with
      | (CVal v, _, s1) => Some (v, s1)
      | _ => None
      end.
    (** [Map::from_iter] on an iterator that gives these pairs: the map, if the program ends
        within a number of steps and questions. *)
    Definition front_from_iter (n : nat) (w : world) (l : list (K * V)) (s : S) : option (val * S) :=
      let F := map_file None p in
      match function_of F "FromIterator" "Map" "from_iter" with
      | Some f =>
          match drive (answer F U w) (call_fn p n "Map" f [VForeign (XGiven m l)]) [] n [] s with
          | (CVal v, _, s1) => Some (v, s1)
          | _ => None
          end
      | None => None
      end.

    Variable ord : order_fns V S.
    Notation F := (map_file (Some ord) p).
    (** [a.partial_cmp(&b)] and the like. *)
    Definition front_order (q : order_req) (s : S) (a b : val) : option (S * order_ans) :=
      match invoke F U old (order_trait q) "Map" (order_name q) [VRef (At 0 []); VRef (At 1 [])] [a; b] s with
      | (CVal v, _, s1) => option_map (pair s1) (order_said v)
      | (CUnwound, _, s1) => Some (s1, OrderUnwinds)
      | _ => None
      end.
    (** [a.max(b)], [a.min(b)]. *)
    Definition front_pick (q : pick_req) (s : S) (a b : val) : option val :=
      match invoke F U old "Ord" "Map" (match q with PMax => "max" | PMin => "min" end) [a; b] [] s with
      | (CVal v, _, _) => Some v
      | _ => None
      end.
    (** [a.clamp(b, c)]. *)
    Definition front_clamp (s : S) (a b c : val) : option (res val) :=
      match invoke F U old "Ord" "Map" "clamp" [a; b; c] [] s with
      | (CVal v, _, _) => Some (Ok v)
      | (CUnwound, _, _) => Some Panic
      | _ => None
      end.
    (** [a.hash(&mut state)]; [true] when it unwinds. *)
    Definition front_hash (s : S) (a : val) : option (S * bool) :=
      match invoke F U old "Hash" "Map" "hash" [VRef (At 0 []); VGiven 4] [a] s with
      | (CVal _, _, s1) => Some (s1, false)
      | (CUnwound, _, s1) => Some (s1, true)
      | _ => None
      end.
  End Functions.
End FrontMap.

(** ** The answers of the model *)
Section ModelMap.
  Context {K V S : Type} (m : MapStorage K V) (U : user_fns K V S) (E : entry_fns K V S) (ord : order_fns V S).

  (** Reading through a reference, and perhaps writing. *)
  Definition read_write (w : option V) (st : ms_St m) (r : ref) : ms_St m * ans K V :=
    match deref m st r, w with
    | Ok v, Some x => match assign m st r x with Ok st' => (st', Val v) | _ => (st, Bad) end
    | Ok v, None => (st, Val v)
    | _, _ => (st, Bad)
    end.
  Fixpoint modify_all (n : nat) (s : S) (st : ms_St m) (e : map_entry_t m)
    : S * ms_St m * (map_entry_t m + ans K V) :=
    match n with
    | 0 => (s, st, inl e)
    | Datatypes.S n =>
        match entry_and_modify m st e (e_modify E) s with
        | Ok (s', Some e', st') => modify_all n s' st' e'
        | Ok (s', None, st') => (s', st', inr Unwinds)
        | _ => (s, st, inr Bad)
        end
    end.
  Definition entry_req (k : K) (n : nat) (e : entry_end V) (s : S) (st : ms_St m) : S * ms_St m * ans K V :=
    match map_entry m st k with
    | Ok x =>
        match modify_all n s st x with
        | (s2, st2, inl y) =>
            let by_ref (w : option V) (r : res (S * option ref * ms_St m)) :=
              match r with
              | Ok (s3, Some r, st3) => let '(st4, a) := read_write w st3 r in (s3, st4, a)
              | Ok (s3, None, st3) => (s3, st3, Unwinds)
              | _ => (s2, st2, Bad)
              end in
            match e with
            | ToKey => match entry_key m st2 y with Ok k => (s2, st2, Key k) | _ => (s2, st2, Bad) end
            | OrInsert v w =>
                by_ref w (res_map (fun p => (s2, Some (fst p), snd p)) (entry_or_insert m st2 y v))
            | OrInsertWith w => by_ref w (entry_or_insert_with m st2 y (e_make E) s2)
            | OrInsertWithKey w => by_ref w (entry_or_insert_with_key m st2 y (e_make_key E) s2)
            | OrDefault w =>
                let (s3, d) := match y with Occupied _ => (s2, None) | Vacant _ => e_default E s2 end in
                by_ref w (res_map (fun p => (s3, fst p, snd p)) (entry_or_default m st2 y d))
            end
        | (s2, st2, inr a) => (s2, st2, a)
        end
    | _ => (s, st, Bad)
    end.
  Definition fmap_req (q : freq K V) (s : S) (st : ms_St m) : S * ms_St m * ans K V :=
    match q with
    | FPlain q => map_req U m q s st
    | FRefIter l =>
        (s, st, shown (ms_Iter m) true (fun e => (Some (fst e), Some (snd e))) l (map_iter m st))
    | FRefIterMut g l =>
        items_mut m (ms_IterMut m) (fun e => (Some (fst e), snd e))
          (fun o => match o with Some k => g k | None => fun v => v end) l (map_iter_mut m st) s st
    | FEntry k n e => entry_req k n e s st
    end.

  Definition map_order (q : order_req) (s : S) (a b : ms_St m) : option (S * order_ans) :=
    let truth (g : option (ms_St m -> ms_St m -> bool)) := option_map (fun g => (s, IsSo (g a b))) g in
    match q with
    | OPartialCmp =>
        option_map (fun g => match g s a b with
                             | (s', Some o) => (s', IsOrdered o)
                             | (s', None) => (s', OrderUnwinds)
                             end) (map_partial_cmp_with m (o_pcmp ord))
    | OCmp =>
        option_map (fun g => match g s a b with
                             | (s', Some o) => (s', IsCmp o)
                             | (s', None) => (s', OrderUnwinds)
                             end) (map_cmp_with m (o_cmp ord))
    | OLt => truth (map_lt m (o_pcmp0 ord))
    | OLe => truth (map_le m (o_pcmp0 ord))
    | OGt => truth (map_gt m (o_pcmp0 ord))
    | OGe => truth (map_ge m (o_pcmp0 ord))
    end.
End ModelMap.
