(** Reading src/key.rs: the types that are keys, and the storages they use. *)
Require Import List Arith NArith ZArith Bool String.
Import ListNotations.
From Verif Require Import Std Traits OptionBucket Hashbrown MapStorages SetStorages DeriveUnit DeriveAny Key.
From Verif Require Import SrcLex KeyText DeriveQuote DeriveRead.
Open Scope string_scope.

(** ** The impls of the file *)

(** An [impl Key]: the feature it needs, its type parameters, its type, and what it says for
    [MapStorage<V>] and [SetStorage] (key.rs:137-182). *)
Record row : Type := MkRow {
  rw_feature : option string;
  rw_params : list tt;
  rw_ty : list tt;
  rw_map : list tt;
  rw_set : list tt
}.

(** A macro with one rule: its parameter and what it stands for (key.rs:150-167). *)
Definition macros : Type := list (string * (string * list tt)).
(** [$x] in a macro (key.rs:153-155). *)
Fixpoint subst (fuel : nat) (x : string) (a l : list tt) : list tt :=
  match fuel with
  | 0 => []
  | S f =>
      match l with
      | [] => []
      | P "$" :: W y :: r =>
          if String.eqb x y then (a ++ subst f x a r)%list else P "$" :: W y :: subst f x a r
      | G o b :: r => G o (subst f x a b) :: subst f x a r
      | t :: r => t :: subst f x a r
      end
  end.

(** The type of an impl ends before [where] (key.rs:142-145). *)
Definition impl_type (l : list tt) : list tt :=
  match split_at (TId "where") l with Some (a, _) => a | None => l end.
(** An impl (key.rs:137-140). *)
Definition read_impl (feature : option string) (h b : list tt) : option row :=
  let '(ps, h) := match h with
                  | P "<" :: r => match split_at (TP ">") r with Some p => p | None => ([], h) end
                  | _ => ([], h)
                  end in
  match h, whole "type MapStorage < V > = $upto ; type SetStorage = $upto ;" b with
  | W "Key" :: W "for" :: ty, Some [m; s] => Some (MkRow feature ps (impl_type ty) m s)
  | _, _ => None
  end.

(** The impls of the file, macros expanded; [feature] is the one that the next item needs
    (key.rs:1-182). *)
Fixpoint rows (fuel : nat) (ms : macros) (feature : option string) (l : list tt) : option (list row) :=
  match fuel with
  | 0 => None
  | S f =>
      match l with
      | [] => Some []
      | P "#" :: G "[" a :: r =>
          match whole "cfg ( feature = $str )" a with
          | Some [x] => rows f ms (Some (the_name x)) r
          | _ => None
          end
      | W "use" :: r =>
          match split_at (TP ";") r with Some (_, r) => rows f ms None r | None => None end
      | W "pub" :: r => rows f ms feature r
      | W "trait" :: r =>
          match before_block r with Some (_, _, r) => rows f ms None r | None => None end
      | W "macro_rules" :: P "!" :: W x :: G "{" [G "(" [P "$"; W v; P ":"; W "ty"]; P "=>"; G "{" b; P ";"] :: r =>
          rows f ((x, (v, b)) :: ms) None r
      | W "impl" :: r =>
          match before_block r with
          | Some (h, b, r) =>
              match read_impl feature h b, rows f ms None r with
              | Some i, Some l => Some (i :: l)
              | _, _ => None
              end
          | None => None
          end
      | W x :: P "!" :: G "(" a :: P ";" :: r =>
          match find x ms with
          | Some (v, b) =>
              match rows f ms feature (subst 100 v a b), rows f ms None r with
              | Some l, Some l' => Some (l ++ l')%list
              | _, _ => None
              end
          | None => None
          end
      | _ => None
      end
  end.
(** See [rows] (key.rs:1-182). *)
Definition key_rows : list row :=
  match trees text_key with
  | Some l => match rows 200 [] None l with Some l => l | None => [] end
  | None => []
  end.

(** ** The types *)

(** Equal token trees; none of these is repeated (key.rs:169-182). *)
Fixpoint tt_eqb (a b : tt) {struct a} : bool :=
  match a, b with
  | L t, L u => token_eqb t u
  | G o l, G o' l' =>
      String.eqb o o' &&
      (fix all (l l' : list tt) : bool :=
         match l, l' with
         | [], [] => true
         | x :: l, y :: l' => tt_eqb x y && all l l'
         | _, _ => false
         end) l l'
  | _, _ => false
  end.
(** See [tt_eqb] (key.rs:169-182). *)
Definition tts_eqb (a b : list tt) : bool := tt_eqb (G "" a) (G "" b).

(** How the types of hash table keys are written (key.rs:169-181). *)
Definition prim_tokens (p : prim) : list tt :=
  match p with
  | PChar => [W "char"]
  | PU8 => [W "u8"] | PU32 => [W "u32"] | PU64 => [W "u64"] | PU128 => [W "u128"] | PUsize => [W "usize"]
  | PI8 => [W "i8"] | PI32 => [W "i32"] | PI64 => [W "i64"] | PI128 => [W "i128"] | PIsize => [W "isize"]
  | PStr => [P "&"; L (TLife "static"); W "str"]
  | PBytes => [P "&"; L (TLife "static"); G "[" [W "u8"]]
  end.
(** How a type without parameters is written (key.rs:137, 169-182). *)
Definition type_tokens (t : kty) : option (list tt) :=
  match t with
  | KBool => Some [W "bool"]
  | KUnit => Some [G "(" []]
  | KPrim p => Some (prim_tokens p)
  | _ => None
  end.

(** The impl for a type, if the features it needs are there (key.rs:137-182). *)
Definition available (hashbrown : bool) (r : row) : bool :=
  match rw_feature r with
  | None => true
  | Some x => hashbrown && String.eqb x "hashbrown"
  end.
(** Exactly one impl has to be there (key.rs:137-182). *)
Definition row_for (hashbrown : bool) (ps ty : list tt) : option row :=
  match List.filter (fun r => available hashbrown r && tts_eqb (rw_params r) ps && tts_eqb (rw_ty r) ty) key_rows with
  | [r] => Some r
  | _ => None
  end.

(** ** The storages behind their names *)

(** [MapStorage<V>] of a type, given the tokens; which storage can be used for which type is
    decided by their impls: [BooleanMapStorage] for [bool] (src/map/storage/boolean.rs:194),
    [SingletonMapStorage] for types with [Default] (src/map/storage/singleton.rs:23), of
    which only [()] is considered, and [HashbrownMapStorage] for types with [Eq] and [Hash]
    (src/map/storage/hashbrown.rs:119); see also key.rs:138, 154, 164. *)
Definition map_named (t : kty) (ty : list tt) (l : list tt) : option (forall V, MapStorage (key t) V) :=
  match t return option (forall V, MapStorage (key t) V) with
  | KBool =>
      if tts_eqb l [W "BooleanMapStorage"; P "<"; W "V"; P ">"] then Some bool_map_storage
      else if tts_eqb l ([W "HashbrownMapStorage"; P "<"] ++ ty ++ [P ","; W "V"; P ">"])%list
      then Some (fun V => hash_map_storage Bool.eqb) else None
  | KUnit =>
      if tts_eqb l [W "SingletonMapStorage"; P "<"; W "V"; P ">"] then Some single_map_storage
      else if tts_eqb l ([W "HashbrownMapStorage"; P "<"] ++ ty ++ [P ","; W "V"; P ">"])%list
      then Some (fun V => hash_map_storage (fun _ _ => true)) else None
  | KPrim p =>
      if tts_eqb l ([W "HashbrownMapStorage"; P "<"] ++ ty ++ [P ","; W "V"; P ">"])%list
      then Some (fun V => hash_map_storage (prim_eqb p)) else None
  | _ => None
  end.
(** See [map_named] (key.rs:139, 155, 165). *)
Definition set_named (t : kty) (ty : list tt) (l : list tt) : option (SetStorage (key t)) :=
  match t return option (SetStorage (key t)) with
  | KBool =>
      if tts_eqb l [W "BooleanSetStorage"] then Some bool_set_storage
      else if tts_eqb l ([W "HashbrownSetStorage"; P "<"] ++ ty ++ [P ">"])%list
      then Some (hash_set_storage Bool.eqb) else None
  | KUnit =>
      if tts_eqb l [W "SingletonSetStorage"] then Some single_set_storage
      else if tts_eqb l ([W "HashbrownSetStorage"; P "<"] ++ ty ++ [P ">"])%list
      then Some (hash_set_storage (fun _ _ => true)) else None
  | KPrim p =>
      if tts_eqb l ([W "HashbrownSetStorage"; P "<"] ++ ty ++ [P ">"])%list
      then Some (hash_set_storage (prim_eqb p)) else None
  | _ => None
  end.
(** A type without parameters (key.rs:137, 169-182). *)
Definition plain_key (hashbrown : bool) (t : kty) : option (KeyImpl (key t)) :=
  match type_tokens t with
  | Some ty =>
      match row_for hashbrown [] ty with
      | Some r =>
          match map_named t ty (rw_map r), set_named t ty (rw_set r) with
          | Some m, Some s => Some (MkKeyImpl m s)
          | _, _ => None
          end
      | None => None
      end
  | None => None
  end.
(** [Option<K>] (key.rs:142-148). *)
Definition option_key (hashbrown : bool) {K} (ki : KeyImpl K) : option (KeyImpl (option K)) :=
  match row_for hashbrown [W "K"] [W "Option"; P "<"; W "K"; P ">"] with
  | Some r =>
      if tts_eqb (rw_map r) [W "OptionMapStorage"; P "<"; W "K"; P ","; W "V"; P ">"] &&
         tts_eqb (rw_set r) [W "OptionSetStorage"; P "<"; W "K"; P ">"]
      then Some (MkKeyImpl (fun V => opt_map_storage (ki_map ki V)) (opt_set_storage (ki_set ki)))
      else None
  | None => None
  end.

(** Every key type, by the text; generated storages are those of C69
    (key.rs:137-182, fixed-map-derive/src/lib.rs:50-63). *)
Fixpoint text_derive (hashbrown : bool) (t : kty) : option (KeyImpl (key t)) :=
  match t return option (KeyImpl (key t)) with
  | KOption t =>
      match text_derive hashbrown t with Some ki => option_key hashbrown ki | None => None end
  | KEnum bitset vs =>
      match as_units vs with
      | Some u => derive_unit bitset u
      | None => option_map derive_any (text_derive_fields hashbrown vs)
      end
  | KBool => plain_key hashbrown KBool
  | KUnit => plain_key hashbrown KUnit
  | KPrim p => plain_key hashbrown (KPrim p)
  end
with text_derive_fields (hashbrown : bool) (vs : variants) : option (fields (keys vs)) :=
  match vs return option (fields (keys vs)) with
  | VNil => Some FNil
  | VUnit r => option_map FUnit (text_derive_fields hashbrown r)
  | VTuple t r =>
      match text_derive hashbrown t, text_derive_fields hashbrown r with
      | Some ki, Some fs => Some (FTuple ki fs)
      | _, _ => None
      end
  end.
