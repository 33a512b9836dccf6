(** Which of the hand-written storages a key type has, as source text; the statements of
    programs over one map, or one set, as requests to it (C68). *)
Require Import List Bool String.
Import ListNotations.
From Verif Require Import Std Traits SrcParse SrcRun SrcSpec SrcFiles
  MapStorages SetStorages Hashbrown Key Spec Reach Program SetProgram.

(** Key types whose storages are written by hand (src/key.rs:137-182), not generated. *)
Definition by_hand (t : kty) : bool := match t with KEnum _ _ => false | _ => true end.

Section Texts.
  Context {V S : Type}.

  (** The map storage of a key type, run as source text: what it answers to requests,
      and what becomes of the surroundings (src/key.rs:137-182).  The storage inside
      [OptionMapStorage] is the one of the model. *)
  Definition text_map (t : kty) :
    user_fns (key t) V S -> world -> list (req (key t) V) -> S -> option (list (ans (key t) V) * S) :=
    match t return user_fns (key t) V S -> world -> list (req (key t) V) -> S ->
                   option (list (ans (key t) V) * S) with
    | KBool => fun U => let F := bool_map_file V S (program bool_map_text) in told_by F U (src_req F U)
    | KUnit => fun U => let F := single_map_file V S (program single_map_text) in told_by F U (src_req F U)
    | KPrim p => fun U =>
        let F := hash_map_file (hash_map_storage (prim_eqb p)) S (program hash_map_text) in
        told_by F U (src_req F U)
    | KOption t => fun U w l s =>
        match derive t with
        | Some ki =>
            let F := option_map_file (ki_map ki V) S (program option_map_text) in
            told_by F U (src_req F U) w l s
        | None => None
        end
    | KEnum _ _ => fun _ _ _ _ => None
    end.
  (** Two such storages, compared with [==]. *)
  Definition text_map_eq (t : kty) :
    user_fns (key t) V S -> world -> world -> list (req (key t) V) -> list (req (key t) V) -> S ->
    option (S * ans (key t) V) :=
    match t return user_fns (key t) V S -> world -> world -> list (req (key t) V) ->
                   list (req (key t) V) -> S -> option (S * ans (key t) V) with
    | KBool => fun U => let F := bool_map_file V S (program bool_map_text) in compare_new F U (src_req F U)
    | KUnit => fun U => let F := single_map_file V S (program single_map_text) in compare_new F U (src_req F U)
    | KPrim p => fun U =>
        let F := hash_map_file (hash_map_storage (prim_eqb p)) S (program hash_map_text) in
        compare_new F U (src_req F U)
    | KOption t => fun U w1 w2 l1 l2 s =>
        match derive t with
        | Some ki =>
            let F := option_map_file (ki_map ki V) S (program option_map_text) in
            compare_new F U (src_req F U) w1 w2 l1 l2 s
        | None => None
        end
    | KEnum _ _ => fun _ _ _ _ _ _ => None
    end.

  (** The same for sets. *)
  Definition text_set (t : kty) :
    user_fns (key t) V S -> world -> list (sreq (key t)) -> S -> option (list (ans (key t) V) * S) :=
    match t return user_fns (key t) V S -> world -> list (sreq (key t)) -> S ->
                   option (list (ans (key t) V) * S) with
    | KBool => fun U => let F := bool_set_file V S (program bool_set_text) in told_by F U (src_sreq F U)
    | KUnit => fun U => let F := single_set_file V S (program single_set_text) in told_by F U (src_sreq F U)
    | KPrim p => fun U =>
        let F := hash_set_file (hash_set_storage (prim_eqb p)) V S (program hash_set_text) in
        told_by F U (src_sreq F U)
    | KOption t => fun U w l s =>
        match derive t with
        | Some ki =>
            let F := option_set_file (ki_set ki) V S (program option_set_text) in
            told_by F U (src_sreq F U) w l s
        | None => None
        end
    | KEnum _ _ => fun _ _ _ _ => None
    end.
  Definition text_set_eq (t : kty) :
    user_fns (key t) V S -> world -> world -> list (sreq (key t)) -> list (sreq (key t)) -> S ->
    option (S * ans (key t) V) :=
    match t return user_fns (key t) V S -> world -> world -> list (sreq (key t)) ->
                   list (sreq (key t)) -> S -> option (S * ans (key t) V) with
    | KBool => fun U => let F := bool_set_file V S (program bool_set_text) in compare_new F U (src_sreq F U)
    | KUnit => fun U => let F := single_set_file V S (program single_set_text) in compare_new F U (src_sreq F U)
    | KPrim p => fun U =>
        let F := hash_set_file (hash_set_storage (prim_eqb p)) V S (program hash_set_text) in
        compare_new F U (src_sreq F U)
    | KOption t => fun U w1 w2 l1 l2 s =>
        match derive t with
        | Some ki =>
            let F := option_set_file (ki_set ki) V S (program option_set_text) in
            compare_new F U (src_sreq F U) w1 w2 l1 l2 s
        | None => None
        end
    | KEnum _ _ => fun _ _ _ _ _ _ => None
    end.
End Texts.

(** * Programs over one map, or one set *)

Definition asked (ds : list dir) : list ask :=
  map (fun d => match d with Front => ANext | Back => ABack end) ds.

(** Statements about the first variable, as requests. *)
Definition request {K V} (q : stmt K V) : option (req K V) :=
  match q with
  | SLen 0 => Some MLen
  | SIsEmpty 0 => Some MIsEmpty
  | SContains 0 k => Some (MContains k)
  | SGet 0 k => Some (MGet k)
  | SInsert 0 k v => Some (MInsert k v)
  | SRemove 0 k => Some (MRemove k)
  | SRetain 0 => Some MRetain
  | SIter 0 ds => Some (MIter ByIter (asked ds))
  | _ => None
  end.
Definition heard {K V} (x : said K V) : ans K V :=
  match x with
  | Fine => Nothing
  | Program.Num n => SrcSpec.Num n
  | Truth b => Yes b
  | Value o => Opt o
  | Program.Items l =>
      SrcSpec.Items (map (fun o => Item (option_map (fun e => (Some (fst e), Some (snd e))) o)) l)
  | Panicked => Unwinds
  | _ => Bad
  end.
(** The user's code of a program; the predicate of sets is not used. *)
Definition user_of {K V S} (H : helpers S K V) : user_fns K V S :=
  MkUser (h_keep H) (fun s _ => (s, None)) (h_clone H) (h_eq H) (h_drop H).

Definition set_request {K} (q : pstmt K) : option (sreq K) :=
  match q with
  | PLen 0 => Some NLen
  | PIsEmpty 0 => Some NIsEmpty
  | PContains 0 k => Some (NContains k)
  | PInsert 0 k => Some (NInsert k)
  | PRemove 0 k => Some (NRemove k)
  | PRetain 0 => Some NRetain
  | PClear 0 => Some NClear
  | PClone 0 0 => Some NClone
  | PIter 0 ds => Some (NIter false (asked ds))
  | _ => None
  end.
Definition set_heard {K} (x : SetProgram.told K) : ans K Empty_set :=
  match x with
  | TFine => Nothing
  | TNum n => SrcSpec.Num n
  | TTruth b => Yes b
  | TItems l => SrcSpec.Items (map (fun o => Item (option_map (fun k => (Some k, None)) o)) l)
  | TPanicked => Unwinds
  | _ => Bad
  end.
(** A predicate; there are no values. *)
Definition asking {K S} (keep : S -> K -> S * option bool) : user_fns K Empty_set S :=
  MkUser (fun s _ v => (s, v, None)) keep (fun s v => (s, Some v)) (fun s _ _ => (s, None))
    (fun s _ => (s, false)).
