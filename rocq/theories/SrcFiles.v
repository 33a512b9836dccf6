(** The hand-written storages as source files: which texts make up a program, and what the
    programs use but do not define. *)
Require Import List Arith NArith Bool String.
Import ListNotations.
From Verif Require Import Std Traits SrcText SrcStd SrcParse SrcRun SrcSpec.
Open Scope string_scope.

(** Several files as a program; nothing, if one of them cannot be read. *)
Fixpoint program (l : list (list string)) : list item :=
  match l with
  | [] => []
  | t :: r => match parse t with Some i => i ++ program r | None => [] end%list
  end.

(** * Files that use nothing that they do not define *)

(** No foreign values. *)
Definition no_load {X V} (_ : X) (_ : ref) : option V := None.
Definition no_store {X V} (_ : X) (_ : ref) (_ : V) : option X := None.
Definition no_foreign {A B C S V X} (_ : A) (_ : B) (_ : C) (_ : question V X) (s : S) : S * reply V X :=
  (s, MkReply CStuck [] []).

Definition bool_val {V X} (b : bool) : val V X := VBool b.
Definition as_bool_val {V X} (v : val V X) : option bool := match v with VBool b => Some b | _ => None end.

(** src/map/storage/boolean.rs. *)
Definition bool_map_text : list (list string) :=
  [text_core; text_option_bucket; text_map_entry; text_map_boolean].
Definition bool_map_file (V S : Type) (p : list item) : file bool V Empty_set S := MkFile
  p "MapStorage" "BooleanMapStorage" "Occupied" "Vacant"
  bool_val as_bool_val (fun _ => true) no_load no_store no_foreign (fun _ => true).

(** src/set/storage/boolean.rs. *)
Definition bool_set_text : list (list string) := [text_core; text_set_boolean].
Definition bool_set_file (V S : Type) (p : list item) : file bool V Empty_set S := MkFile
  p "SetStorage" "BooleanSetStorage" "" ""
  bool_val as_bool_val (fun _ => true) no_load no_store no_foreign (fun _ => true).

(** The default of the type of keys, for the key type [()]. *)
Definition unit_val {V X} (_ : unit) : val V X := unit_.
Definition as_unit_val {V X} (v : val V X) : option unit :=
  match v with VData "()" "" [] => Some tt | _ => None end.
Definition default_key {A B C S V X} (_ : A) (_ : B) (_ : C) (q : question V X) (s : S) : S * reply V X :=
  match q with
  | QPath ["K"; "default"] [] | QPath ["T"; "default"] [] => (s, MkReply (CVal unit_) [] [])
  | _ => (s, MkReply CStuck [] [])
  end.

(** src/map/storage/singleton.rs. *)
Definition single_map_text : list (list string) :=
  [text_core; text_option_bucket; text_map_entry; text_map_singleton].
Definition single_map_file (V S : Type) (p : list item) : file unit V Empty_set S := MkFile
  p "MapStorage" "SingletonMapStorage" "SomeBucket" "NoneBucket"
  unit_val as_unit_val (fun _ => true) no_load no_store default_key (fun _ => true).

(** src/set/storage/singleton.rs. *)
Definition single_set_text : list (list string) := [text_core; text_set_singleton].
Definition single_set_file (V S : Type) (p : list item) : file unit V Empty_set S := MkFile
  p "SetStorage" "SingletonSetStorage" "" ""
  unit_val as_unit_val (fun _ => true) no_load no_store default_key (fun _ => true).

(** * Files that use another storage, or a hash table *)

(** An optional value. *)
Definition opt_val {V X} (o : option (val V X)) : val V X :=
  match o with Some x => some_ x | None => none_ end.
Definition bounds_val {V X} (h : nat * option nat) : val V X :=
  VData "()" "" [("0", VNum (fst h)); ("1", opt_val (option_map (fun n => VNum n) (snd h)))].
Definition result_val {V X A} (f : A -> val V X) (r : res A) : ctl V X (val V X) :=
  match r with Ok a => CVal (f a) | UB => CUB | Leak => CLeak | Panic => CUnwound end.

Section ForeignMap.
  Context {K V S : Type}.
  (** The foreign storage.  Does it hand out references to keys, as hash tables do? *)
  Variables (m : MapStorage K V) (refs : bool).

  (** Its values.  Those that borrow the storage mutably know where it is.  [XGiven] is an
      iterator of the user, [XUsers] a serializer or a formatter, whose state is part of the
      surroundings. *)
  Inductive foreign_map : Type :=
  | XMap (st : ms_St m)
  | XKey (k : K)
  | XIter (it : it_st (ms_Iter m))
  | XKeys (it : it_st (ms_Keys m))
  | XValues (it : it_st (ms_Values m))
  | XIterMut (it : it_st (ms_IterMut m)) (p : place)
  | XValuesMut (it : it_st (ms_ValuesMut m)) (p : place)
  | XIntoIter (it : it_st (ms_IntoIter m))
  | XOcc (e : ms_Occ m) (p : place)
  | XVac (e : ms_Vac m) (p : place)
  | XGiven (l : list (K * V))
  | XUsers (n : nat).
  Notation val := (val V foreign_map).
  Notation reply := (reply V foreign_map).

  Definition map_load (x : foreign_map) (r : ref) : option V :=
    match x with XMap st => ms_load m st r | _ => None end.
  Definition map_store (x : foreign_map) (r : ref) (v : V) : option foreign_map :=
    match x with XMap st => option_map XMap (ms_store m st r v) | _ => None end.
  Definition map_at_self (x : foreign_map) : bool :=
    match x with
    | XIterMut _ p | XValuesMut _ p | XOcc _ p | XVac _ p => Nat.eqb (p_cell p) 0
    | _ => true
    end.

  Definition key_val (k : K) : val := VForeign (XKey k).
  (** A key that is handed out: itself, or a reference to a new cell. *)
  Definition key_out (k : K) (here : nat) : val * list val :=
    if refs then (VRef (At here []), [key_val k]) else (key_val k, []).
  (** A key among the arguments, given as such or by reference. *)
  Definition key_in (a : val * option val) : option K :=
    match a with
    | (VForeign (XKey k), _) | (VRef _, Some (VForeign (XKey k))) => Some k
    | _ => None
    end.
  Definition pair_val (a : val * list val) (b : val) : val * list val :=
    (VData "()" "" [("0", fst a); ("1", b)], snd a).

  Definition says (c : ctl V foreign_map val) : reply := MkReply c [] [].
  Definition wrong : reply := says CStuck.
  Definition says_new (p : place) (st : ms_St m) (c : ctl V foreign_map val) : reply :=
    MkReply c [(p, VForeign (XMap st))] [].

  (** Iterators.  A shared reference to a value is represented by the value. *)
  Definition ask_foreign {A} (I : iterator A) (wrap : it_st I -> foreign_map)
    (item : A -> nat -> val * list val) (it : it_st I) (p : place) (f : string) (here : nat) : reply :=
    let give r :=
      match r with
      | (Some a, it') =>
          MkReply (CVal (some_ (fst (item a here)))) [(p, VForeign (wrap it'))] (snd (item a here))
      | (None, it') => MkReply (CVal none_) [(p, VForeign (wrap it'))] []
      end in
    match f with
    | "next" => give (it_next I it)
    | "next_back" => match it_back I with Some b => give (b it) | None => wrong end
    | "size_hint" => says (CVal (bounds_val (it_hint I it)))
    | "clone" => says (CVal (VForeign (wrap (it_clone I it))))
    | _ => wrong
    end.

  (** Entries. *)
  Definition entry_type : string := if refs then "HashMapEntry" else "Entry".
  Definition new_ref (p : place) (r : ref) : val := VRef (part p (Into r)).
  Definition ask_occ (e : ms_Occ m) (st : ms_St m) (p : place) (f : string) (args : list (val * option val))
    (here : nat) : reply :=
    match f, args with
    | "key", [] =>
        match ms_occ_key m st e with
        | Ok k => MkReply (CVal (fst (key_out k here))) [] (snd (key_out k here))
        | r => says (result_val key_val r)
        end
    | "get", [] => says (result_val (fun v => VUser v) (ms_occ_get m st e))
    | "get_mut", [] => says (result_val (new_ref p) (ms_occ_get_mut m st e))
    | "into_mut", [] => says (result_val (new_ref p) (ms_occ_into_mut m st e))
    | "insert", [(VUser v, _)] =>
        match ms_occ_insert m st e v with
        | Ok (o, st') => says_new p st' (CVal (VUser o))
        | r => says (result_val (fun x => VUser (fst x)) r)
        end
    | "remove", [] =>
        match ms_occ_remove m st e with
        | Ok (o, st') => says_new p st' (CVal (VUser o))
        | r => says (result_val (fun x => VUser (fst x)) r)
        end
    | _, _ => wrong
    end.
  Definition ask_vac (e : ms_Vac m) (st : ms_St m) (p : place) (f : string) (args : list (val * option val))
    (here : nat) : reply :=
    match f, args with
    | "key", [] =>
        MkReply (CVal (fst (key_out (ms_vac_key m st e) here))) [] (snd (key_out (ms_vac_key m st e) here))
    | "insert", [(VUser v, _)] =>
        match ms_vac_insert m st e v with
        | Ok (r, st') => says_new p st' (CVal (new_ref p r))
        | r => says (result_val (fun x => new_ref p (fst x)) r)
        end
    | _, _ => wrong
    end.
  (** The storage at a place. *)
  Definition map_at (cs : list val) (p : place) : option (ms_St m) :=
    match nth_error cs (p_cell p) with
    | Some v => match get_at v (p_path p) with Here (VForeign (XMap st)) => Some st | _ => None end
    | None => None
    end.

  (** A closure of the program that the storage calls. *)
  Definition keep_by (call : val -> bool -> val -> option V -> S -> S * option V * Std.answer) (g : val)
    : retain_fn S K V := fun s k v =>
    match call g refs (key_val k) (Some v) s with
    | (s', Some v', a) => (s', v', a)
    | (s', None, a) => (s', v, a)
    end.
  Definition ends (o : outcome) : ctl V foreign_map val :=
    match o with Done => CVal unit_ | Unwound => CUnwound end.

  (** Methods of the storage. *)
  Definition ask_map {KF} (U : user_fns KF V S)
    (call : val -> bool -> val -> option V -> S -> S * option V * Std.answer)
    (st : ms_St m) (p : place) (f : string) (args : list (val * option val)) (s : S) : S * reply :=
    let by_key a act : S * reply :=
      match key_in a with Some k => (s, act k) | None => (s, wrong) end in
    let iter x : S * reply := (s, says (CVal (VForeign x))) in
    match f, args with
    | "len", [] => (s, says (CVal (VNum (ms_len m st))))
    | "is_empty", [] => (s, says (CVal (VBool (ms_is_empty m st))))
    | "insert", [a; (VUser v, _)] =>
        by_key a (fun k =>
          let '(o, st') := ms_insert m st k v in says_new p st' (CVal (opt_val (option_map (fun v => VUser v) o))))
    | "contains_key", [a] => by_key a (fun k => says (CVal (VBool (ms_contains_key m st k))))
    | "get", [a] => by_key a (fun k => says (CVal (opt_val (option_map (fun v => VUser v) (ms_get m st k)))))
    | "get_mut", [a] => by_key a (fun k => says (CVal (opt_val (option_map (new_ref p) (ms_get_mut m st k)))))
    | "remove", [a] =>
        by_key a (fun k =>
          let '(o, st') := ms_remove m st k in says_new p st' (CVal (opt_val (option_map (fun v => VUser v) o))))
    | "retain", [(g, _)] =>
        let '(s', st', o) := ms_retain m (keep_by call g) s st in (s', says_new p st' (ends o))
    | "clear", [] =>
        let '(s', st', o) := ms_clear_drop m (u_drop U) s st in (s', says_new p st' (ends o))
    | "iter", [] => iter (XIter (ms_iter m st))
    | "keys", [] => iter (XKeys (ms_keys m st))
    | "values", [] => iter (XValues (ms_values m st))
    | "iter_mut", [] => iter (XIterMut (ms_iter_mut m st) p)
    | "values_mut", [] => iter (XValuesMut (ms_values_mut m st) p)
    | "into_iter", [] => iter (XIntoIter (ms_into_iter m st))
    | "entry", [a] =>
        by_key a (fun k =>
          match ms_entry m st k with
          | Ok (Occupied e) => says (CVal (VData entry_type "Occupied" [("0", VForeign (XOcc e p))]))
          | Ok (Vacant e) => says (CVal (VData entry_type "Vacant" [("0", VForeign (XVac e p))]))
          | r => says (result_val (fun _ => unit_) r)
          end)
    | "clone", [] =>
        let '(s', o) := ms_clone_with m (u_clone U) s st in
        (s', says (match o with Some st' => CVal (VForeign (XMap st')) | None => CUnwound end))
    | "eq", [(VRef _, Some (VForeign (XMap st2)))] =>
        let '(s', o) := ms_eq_with m (u_eq U) s st st2 in
        (s', says (match o with Some b => CVal (VBool b) | None => CUnwound end))
    | _, _ => (s, wrong)
    end.

  (** Everything that is asked of the storage; [path] is the function that makes a new one. *)
  Definition foreign_answer {KF} (path : list string) (sub : world -> world) (U : user_fns KF V S)
    (call : val -> bool -> val -> option V -> S -> S * option V * Std.answer) (w : world)
    (q : question V foreign_map) (s : S) : S * reply :=
    match q with
    | QPath p [] =>
        (s, if list_eq_dec string_dec p path then says (CVal (VForeign (XMap (ms_empty m (sub w))))) else wrong)
    | QMethod (XMap st) p f args _ => ask_map U call st p f args s
    | QMethod (XIter it) p f [] cs =>
        (s, ask_foreign (ms_Iter m) XIter (fun e h => pair_val (key_out (fst e) h) (VUser (snd e)))
              it p f (List.length cs))
    | QMethod (XKeys it) p f [] cs => (s, ask_foreign (ms_Keys m) XKeys key_out it p f (List.length cs))
    | QMethod (XValues it) p f [] cs =>
        (s, ask_foreign (ms_Values m) XValues (fun v _ => (VUser v, [])) it p f (List.length cs))
    | QMethod (XIterMut it b) p f [] cs =>
        (s, ask_foreign (ms_IterMut m) (fun i => XIterMut i b)
              (fun e h => pair_val (key_out (fst e) h) (new_ref b (snd e))) it p f (List.length cs))
    | QMethod (XValuesMut it b) p f [] cs =>
        (s, ask_foreign (ms_ValuesMut m) (fun i => XValuesMut i b) (fun r _ => (new_ref b r, []))
              it p f (List.length cs))
    | QMethod (XIntoIter it) p f [] cs =>
        (s, ask_foreign (ms_IntoIter m) XIntoIter (fun e _ => pair_val (key_val (fst e), []) (VUser (snd e)))
              it p f (List.length cs))
    | QMethod (XOcc e b) p f args cs =>
        (s, match map_at cs b with Some st => ask_occ e st b f args (List.length cs) | None => wrong end)
    | QMethod (XVac e b) p f args cs =>
        (s, match map_at cs b with Some st => ask_vac e st b f args (List.length cs) | None => wrong end)
    | _ => (s, wrong)
    end.

  (** Whether its iterators are double-ended. *)
  Definition both_ends (i : string) : bool :=
    match i with
    | "iter" => is_some (it_back (ms_Iter m))
    | "keys" => is_some (it_back (ms_Keys m))
    | "values" => is_some (it_back (ms_Values m))
    | "iter_mut" => is_some (it_back (ms_IterMut m))
    | "values_mut" => is_some (it_back (ms_ValuesMut m))
    | _ => is_some (it_back (ms_IntoIter m))
    end.
End ForeignMap.
Arguments foreign_map {K V}.

(** Keys of the option storages. *)
Definition opt_key_val {K V X} (k : K -> val V X) (o : option K) : val V X := opt_val (option_map k o).
Definition as_opt_key_val {K V X} (k : val V X -> option K) (v : val V X) : option (option K) :=
  match option_of v with
  | Some None => Some None
  | Some (Some x) => option_map Some (k x)
  | None => None
  end.
Definition as_key_val {K V} {m : MapStorage K V} (v : val V (foreign_map m)) : option K :=
  match v with VForeign (XKey _ k) => Some k | _ => None end.

(** src/map/storage/option.rs. *)
Definition option_map_text : list (list string) :=
  [text_core; text_option_bucket; text_map_entry; text_map_option].
Definition option_map_file {K V} (m : MapStorage K V) (S : Type) (p : list item)
  : file (option K) V (foreign_map m) S := MkFile
  p "MapStorage" "OptionMapStorage" "Occupied" "Vacant"
  (opt_key_val (key_val m)) (as_opt_key_val as_key_val) (both_ends m) (map_load m) (map_store m)
  (foreign_answer m false ["K"; "MapStorage"; "empty"] (sub_world 0)) (map_at_self m).

(** src/map/storage/hashbrown.rs. *)
Definition hash_map_text : list (list string) := [text_core; text_hash; text_map_entry; text_map_hashbrown].
Definition hash_map_file {K V} (m : MapStorage K V) (S : Type) (p : list item)
  : file K V (foreign_map m) S := MkFile
  p "MapStorage" "HashbrownMapStorage" "Occupied" "Vacant"
  (key_val m) as_key_val (both_ends m) (map_load m) (map_store m)
  (foreign_answer m true ["hashbrown"; "HashMap"; "new"] (fun w => w)) (map_at_self m).

Section ForeignSet.
  Context {K V S : Type}.
  (** The foreign set.  Does it hand out references to elements, as hash tables do? *)
  Variables (m : SetStorage K) (refs : bool).

  (** Its values; [YGiven] and [YUsers] are as [XGiven] and [XUsers]. *)
  Inductive foreign_set : Type :=
  | YSet (st : ss_St m)
  | YKey (k : K)
  | YIter (it : it_st (ss_Iter m))
  | YIntoIter (it : it_st (ss_IntoIter m))
  | YGiven (l : list K)
  | YUsers (n : nat).
  Notation val := (val V foreign_set).
  Notation reply := (reply V foreign_set).

  Definition elem_val (k : K) : val := VForeign (YKey k).
  Definition as_elem_val (v : val) : option K := match v with VForeign (YKey k) => Some k | _ => None end.
  Definition elem_in (a : val * option val) : option K :=
    match a with
    | (VForeign (YKey k), _) | (VRef _, Some (VForeign (YKey k))) => Some k
    | _ => None
    end.
  Definition sets (c : ctl V foreign_set val) : reply := MkReply c [] [].
  Definition sets_new (p : place) (st : ss_St m) (c : ctl V foreign_set val) : reply :=
    MkReply c [(p, VForeign (YSet st))] [].

  Definition ask_set_iter (I : iterator K) (by_ref : bool) (wrap : it_st I -> foreign_set) (it : it_st I) (p : place)
    (f : string) (here : nat) : reply :=
    let give r :=
      match r with
      | (Some a, it') =>
          if by_ref
          then MkReply (CVal (some_ (VRef (At here [])))) [(p, VForeign (wrap it'))] [elem_val a]
          else MkReply (CVal (some_ (elem_val a))) [(p, VForeign (wrap it'))] []
      | (None, it') => MkReply (CVal none_) [(p, VForeign (wrap it'))] []
      end in
    match f with
    | "next" => give (it_next I it)
    | "next_back" => match it_back I with Some b => give (b it) | None => sets CStuck end
    | "size_hint" => sets (CVal (bounds_val (it_hint I it)))
    | "clone" => sets (CVal (VForeign (wrap (it_clone I it))))
    | _ => sets CStuck
    end.

  Definition keep1_by (call : val -> bool -> val -> option V -> S -> S * option V * Std.answer) (g : val)
    : set_retain_fn S K := fun s k =>
    match call g refs (elem_val k) None s with
    | (s', _, a) => (s', a)
    end.

  (** Methods of the set. *)
  Definition ask_set (call : val -> bool -> val -> option V -> S -> S * option V * Std.answer)
    (st : ss_St m) (p : place) (f : string) (args : list (val * option val)) (s : S) : S * reply :=
    let by_key a act : S * reply :=
      match elem_in a with Some k => (s, act k) | None => (s, sets CStuck) end in
    match f, args with
    | "len", [] => (s, sets (CVal (VNum (ss_len m st))))
    | "is_empty", [] => (s, sets (CVal (VBool (ss_is_empty m st))))
    | "insert", [a] =>
        by_key a (fun k => let '(b, st') := ss_insert m st k in sets_new p st' (CVal (VBool b)))
    | "contains", [a] => by_key a (fun k => sets (CVal (VBool (ss_contains m st k))))
    | "remove", [a] =>
        by_key a (fun k => let '(b, st') := ss_remove m st k in sets_new p st' (CVal (VBool b)))
    | "retain", [(g, _)] =>
        let '(s', st', o) := ss_retain m (keep1_by call g) s st in
        (s', sets_new p st' (match o with Done => CVal unit_ | Unwound => CUnwound end))
    | "clear", [] => (s, sets_new p (ss_clear m st) (CVal unit_))
    | "iter", [] => (s, sets (CVal (VForeign (YIter (ss_iter m st)))))
    | "into_iter", [] => (s, sets (CVal (VForeign (YIntoIter (ss_into_iter m st)))))
    | "clone", [] => (s, sets (CVal (VForeign (YSet (ss_clone m st)))))
    | "eq", [(VRef _, Some (VForeign (YSet st2)))] => (s, sets (CVal (VBool (ss_eq m st st2))))
    | _, _ => (s, sets CStuck)
    end.
  Definition foreign_set_answer {KF} (path : list string) (sub : world -> world) (U : user_fns KF V S)
    (call : val -> bool -> val -> option V -> S -> S * option V * Std.answer) (w : world)
    (q : question V foreign_set) (s : S) : S * reply :=
    match q with
    | QPath p [] =>
        (s, if list_eq_dec string_dec p path then sets (CVal (VForeign (YSet (ss_empty m (sub w))))) else sets CStuck)
    | QMethod (YSet st) p f args _ => ask_set call st p f args s
    | QMethod (YIter it) p f [] cs => (s, ask_set_iter (ss_Iter m) refs YIter it p f (List.length cs))
    | QMethod (YIntoIter it) p f [] cs => (s, ask_set_iter (ss_IntoIter m) false YIntoIter it p f (List.length cs))
    | _ => (s, sets CStuck)
    end.
  Definition set_both_ends (i : string) : bool :=
    match i with
    | "iter" => is_some (it_back (ss_Iter m))
    | _ => is_some (it_back (ss_IntoIter m))
    end.
End ForeignSet.
Arguments foreign_set {K}.

(** src/set/storage/option.rs. *)
Definition option_set_text : list (list string) := [text_core; text_set_option].
Definition option_set_file {K} (m : SetStorage K) (V S : Type) (p : list item)
  : file (option K) V (foreign_set m) S := MkFile
  p "SetStorage" "OptionSetStorage" "" ""
  (opt_key_val (elem_val m)) (as_opt_key_val (as_elem_val m)) (set_both_ends m) no_load no_store
  (foreign_set_answer m false ["T"; "SetStorage"; "empty"] (sub_world 0)) (fun _ => true).

(** src/set/storage/hashbrown.rs. *)
Definition hash_set_text : list (list string) := [text_core; text_set_hashbrown].
Definition hash_set_file {K} (m : SetStorage K) (V S : Type) (p : list item)
  : file K V (foreign_set m) S := MkFile
  p "SetStorage" "HashbrownSetStorage" "" ""
  (elem_val m) (as_elem_val m) (set_both_ends m) no_load no_store
  (foreign_set_answer m true ["hashbrown"; "HashSet"; "new"] (fun w => w)) (fun _ => true).
