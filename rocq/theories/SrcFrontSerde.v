(** The serde and [Debug] impls of src/map.rs, src/set.rs and src/set/intersection.rs, run as
    text: how the program is called, with any serializer, deserializer or formatter. *)
Require Import List Arith Bool String.
Import ListNotations.
From Verif Require Import Std Traits Api Fmt SrcText SrcStd SrcParse SrcRun SrcSpec SrcFiles SrcFront SrcFrontSetSpec.
Open Scope string_scope.

(** Items inside of functions (src/map.rs:1418-1454, src/set.rs:1036-1062).  Simplification:
    they are added to those of the file; no name occurs twice. *)
Definition inner_items (f : fn) : list item :=
  match f with
  | Fn _ _ _ (EBlock l) => flat_map (fun s => match s with SItem i => [i] | _ => [] end) l
  | _ => []
  end.
Definition with_inner (p : list item) : list item :=
  (p ++ flat_map (fun i => match i with IImpl _ _ l => flat_map inner_items l | _ => [] end) p)%list.

(** [Result]; what the error is is part of the surroundings. *)
Definition ok_ {V X} (v : val V X) : val V X := VData "Result" "Ok" [("0", v)].
Definition err_ {V X} : val V X := VData "Result" "Err" [("0", unit_)].

(** A serializer that is being used: not yet, for a map or sequence that has been started, or
    no more, because it has failed or the end was reached. *)
Inductive ser_state {A Out Err} (z : serializer A Out Err) : Type :=
| SerNew
| SerOpen (s : ser_st z)
| SerFailed (e : Err)
| SerEnded (o : Out).
Arguments SerNew {A Out Err z}.
Arguments SerOpen {A Out Err z}.
Arguments SerFailed {A Out Err z}.
Arguments SerEnded {A Out Err z}.

(** What [serialize] comes to. *)
Definition ser_result {A Out Err} {z : serializer A Out Err} {V X} (r : ctl V X (val V X) * list (val V X) * ser_state z)
  : option (Out + Err) :=
  match r with
  | (CVal (VData "Result" "Ok" _), _, SerEnded o) => Some (inl o)
  | (CVal (VData "Result" "Err" _), _, SerFailed e) => Some (inr e)
  | _ => None
  end.
(** What [visit_map] comes to. *)
Definition visit_result {D Err V X} (r : ctl V X (val V X) * (D * option Err)) : option (val V X + Err) :=
  match r with
  | (CVal (VData "Result" "Ok" [("0", v)]), (_, None)) => Some (inl v)
  | (CVal (VData "Result" "Err" _), (_, Some e)) => Some (inr e)
  | _ => None
  end.

Section SerdeMap.
  Context {K V : Type} (m : MapStorage K V) (p : list item).
  Notation X := (foreign_map m).
  Notation val := (val V X).
  Notation reply := (reply V X).

  Section Serialize.
    Context {Out Err : Type} (z : serializer (K * V) Out Err) (U : user_fns K V (ser_state z)).
    Notation F := (map_file (S := ser_state z) m None p).
    (** The serializer is [XUsers 0]; the map that it has started [XUsers 1]. *)
    Definition ser_reply {A} (r : A + Err) (f : A -> ser_state z) (v : val) : ser_state z * reply :=
      match r with
      | inl a => (f a, says m (CVal (ok_ v)))
      | inr e => (SerFailed e, says m (CVal err_))
      end.
    Definition ser_answer (q : question V X) (s : ser_state z) : ser_state z * reply :=
      match q with
      | QMethod (XUsers _ n) _ f args _ =>
          match n, f, args, s with
          | 0, "serialize_map", [(VData "Option" "Some" [("0", VNum k)], None)], SerNew =>
              ser_reply (ser_start z (Some k)) SerOpen (VForeign (XUsers m 1))
          | 1, "serialize_entry", [(VRef _, Some (VForeign (XKey _ k))); (VUser v, None)], SerOpen s =>
              ser_reply (ser_elem z s (k, v)) SerOpen unit_
          | 1, "end", [], SerOpen s => ser_reply (ser_end z s) SerEnded unit_
          | _, _, _, _ => (s, wrong m)
          end
      | _ => answer F U old q s
      end.
    (** [map.serialize(serializer)], if the program ends within a number of steps and questions. *)
    Definition text_serialize (n : nat) (st : ms_St m) : option (Out + Err) :=
      match function_of F "Serialize" "Map" "serialize" with
      | Some f => ser_result (drive ser_answer (call_fn p n "Map" f [VRef (At 0 []); VForeign (XUsers m 0)]) [map_val m st] n [] SerNew)
      | None => None
      end.
  End Serialize.

  Section Deserialize.
    Context {D Err : Type} (acc : access D (K * V) Err) (U : user_fns K V (D * option Err)).
    Notation S := (D * option Err)%type.
    Notation F := (map_file (S := S) m None p).
    (** What [visit_map] is given is [XUsers 2].  It is not asked again after an error. *)
    Definition visit_answer (w : world) (q : question V X) (s : S) : S * reply :=
      match q with
      | QMethod (XUsers _ n) _ f args _ =>
          match n, f, args, s with
          | 2, "next_entry", [], (d, None) =>
              match acc d with
              | (inl (Some (k, v)), d') =>
                  ((d', None), says m (CVal (ok_ (some_ (VData "()" "" [("0", key_val m k); ("1", VUser v)])))))
              | (inl None, d') => ((d', None), says m (CVal (ok_ none_)))
              | (inr e, d') => ((d', Some e), says m (CVal err_))
              end
          | _, _, _, _ => (s, wrong m)
          end
      | _ => answer F U w q s
      end.
    (** [visitor.visit_map(access)]. *)
    Definition text_visit (n : nat) (w : world) (visitor : val) (s : S) : ctl V X val * S :=
      match visitor with
      | VData ty _ _ =>
          match function_of F "Visitor" ty "visit_map" with
          | Some f =>
              match drive (visit_answer w) (call_fn p n ty f [visitor; VForeign (XUsers m 2)]) [] n [] s with
              | (c, _, s') => (c, s')
              end
          | None => (CStuck, s)
          end
      | _ => (CStuck, s)
      end.
    (** The deserializer is [XUsers 3]: asked for a map, it uses the visitor. *)
    Definition de_answer (n : nat) (w : world) (q : question V X) (s : S) : S * reply :=
      match q with
      | QMethod (XUsers _ 3) _ "deserialize_map" [(v, None)] _ => let '(c, s') := text_visit n w v s in (s', says m c)
      | _ => (s, wrong m)
      end.
    (** [Map::deserialize(deserializer)]. *)
    Definition text_deserialize (n : nat) (w : world) (d : D) : option (val + Err) :=
      match function_of F "Deserialize" "Map" "deserialize" with
      | Some f => let '(c, _, s) := drive (de_answer n w) (call_fn p n "Map" f [VForeign (XUsers m 3)]) [] n [] (d, None) in visit_result (c, s)
      | None => None
      end.
  End Deserialize.

  Section Debug.
    (** The builders of [core::fmt] are [XUsers 5], the formatter [XUsers 4]. *)
    Context {W D O : Type} (alternate : O -> bool) (wr : out W) (o : O) (fk : fmt_fn O D K) (fv : fmt_fn O D V).
    Notation S := (W * D + dmap * (W * D))%type.
    Variable U : user_fns K V S.
    Notation F := (map_file (S := S) m None p).
    Definition fmt_answer (n : nat) (q : question V X) (s : S) : S * reply :=
      let builder (r : dmap * (W * D) * bool) : S * reply :=
        let '(b, u) := r in (inr b, says m (if u : bool then CUnwound else CVal (VForeign (XUsers m 5)))) in
      match q with
      | QMethod (XUsers _ k) _ f args _ =>
          match k, f, args, s with
          | 4, "debug_map", [], inl (w, d) => builder (dm_new wr w d)
          | 5, "entries", [(VForeign (XIter _ it), None)], inr b =>
              match each_entry (ms_Iter m) (dm_entry alternate wr o fk fv) n b it with
              | Some r => builder r
              | None => (s, says m CFuel)
              end
          | 5, "finish", [], inr b =>
              let '(w, d, v) := dm_finish wr b in
              (inl (w, d), says m (match v with FOk => CVal (ok_ unit_) | FErr => CVal err_ | FPanic => CUnwound end))
          | _, _, _, _ => (s, wrong m)
          end
      | _ => answer F U old q s
      end.
    Definition written (s : S) : W * D := match s with inl x => x | inr b => snd b end.
    (** [map.fmt(f)]; the iterator may be asked a number of times. *)
    Definition text_debug (n : nat) (st : ms_St m) (w : W) (d : D) : option (W * D * verdict) :=
      match function_of F "Debug" "Map" "fmt" with
      | Some f =>
          match drive (fmt_answer n) (call_fn p fuel "Map" f [VRef (At 0 []); VForeign (XUsers m 4)])
                  [map_val m st] budget [] (inl (w, d)) with
          | (CVal (VData "Result" "Ok" _), _, s) => Some (written s, FOk)
          | (CVal (VData "Result" "Err" _), _, s) => Some (written s, FErr)
          | (CUnwound, _, s) => Some (written s, FPanic)
          | _ => None
          end
      | None => None
      end.
  End Debug.
End SerdeMap.

Section SerdeSet.
  (** [V] is not used. *)
  Context {K V : Type} (m : SetStorage K) (p : list item).
  Notation X := (foreign_set m).
  Notation val := (val V X).
  Notation reply := (reply V X).

  Section Serialize.
    Context {Out Err : Type} (z : serializer K Out Err) (U : user_fns K V (ser_state z)).
    Notation F := (set_file (V := V) (S := ser_state z) m None p).
    Definition set_ser_reply {A} (r : A + Err) (f : A -> ser_state z) (v : val) : ser_state z * reply :=
      match r with
      | inl a => (f a, sets m (CVal (ok_ v)))
      | inr e => (SerFailed e, sets m (CVal err_))
      end.
    Definition set_ser_answer (q : question V X) (s : ser_state z) : ser_state z * reply :=
      match q with
      | QMethod (YUsers _ n) _ f args _ =>
          match n, f, args, s with
          | 0, "serialize_seq", [(VData "Option" "Some" [("0", VNum k)], None)], SerNew =>
              set_ser_reply (ser_start z (Some k)) SerOpen (VForeign (YUsers m 1))
          | 1, "serialize_element", [(VRef _, Some (VForeign (YKey _ k)))], SerOpen s =>
              set_ser_reply (ser_elem z s k) SerOpen unit_
          | 1, "end", [], SerOpen s => set_ser_reply (ser_end z s) SerEnded unit_
          | _, _, _, _ => (s, sets m CStuck)
          end
      | _ => answer F U old q s
      end.
    Definition set_text_serialize (n : nat) (st : ss_St m) : option (Out + Err) :=
      match function_of F "Serialize" "Set" "serialize" with
      | Some f => ser_result (drive set_ser_answer (call_fn p n "Set" f [VRef (At 0 []); VForeign (YUsers m 0)]) [set_val m st] n [] SerNew)
      | None => None
      end.
  End Serialize.

  Section Deserialize.
    Context {D Err : Type} (acc : access D K Err) (U : user_fns K V (D * option Err)).
    Notation S := (D * option Err)%type.
    Notation F := (set_file (V := V) (S := S) m None p).
    Definition set_visit_answer (w : world) (q : question V X) (s : S) : S * reply :=
      match q with
      | QMethod (YUsers _ n) _ f args _ =>
          match n, f, args, s with
          | 2, "next_element", [], (d, None) =>
              match acc d with
              | (inl (Some k), d') => ((d', None), sets m (CVal (ok_ (some_ (elem_val m k)))))
              | (inl None, d') => ((d', None), sets m (CVal (ok_ none_)))
              | (inr e, d') => ((d', Some e), sets m (CVal err_))
              end
          | _, _, _, _ => (s, sets m CStuck)
          end
      | _ => answer F U w q s
      end.
    Definition set_text_visit (n : nat) (w : world) (visitor : val) (s : S) : ctl V X val * S :=
      match visitor with
      | VData ty _ _ =>
          match function_of F "Visitor" ty "visit_seq" with
          | Some f =>
              match drive (set_visit_answer w) (call_fn p n ty f [visitor; VForeign (YUsers m 2)]) [] n [] s with
              | (c, _, s') => (c, s')
              end
          | None => (CStuck, s)
          end
      | _ => (CStuck, s)
      end.
    Definition set_de_answer (n : nat) (w : world) (q : question V X) (s : S) : S * reply :=
      match q with
      | QMethod (YUsers _ 3) _ "deserialize_seq" [(v, None)] _ => let '(c, s') := set_text_visit n w v s in (s', sets m c)
      | _ => (s, sets m CStuck)
      end.
    Definition set_text_deserialize (n : nat) (w : world) (d : D) : option (val + Err) :=
      match function_of F "Deserialize" "Set" "deserialize" with
      | Some f => let '(c, _, s) := drive (set_de_answer n w) (call_fn p n "Set" f [VForeign (YUsers m 3)]) [] n [] (d, None) in visit_result (c, s)
      | None => None
      end.
  End Deserialize.

  Section Debug.
    Context {W D O : Type} (alternate : O -> bool) (wr : out W) (o : O) (fk : fmt_fn O D K).
    Notation S := (W * D + dinner * (W * D))%type.
    Variable U : user_fns K V S.
    Notation F := (set_file (V := V) (S := S) m None p).
    Definition set_fmt_answer (n : nat) (close : string) (q : question V X) (s : S) : S * reply :=
      let builder (r : dinner * (W * D) * bool) : S * reply :=
        let '(b, u) := r in (inr b, sets m (if u : bool then CUnwound else CVal (VForeign (YUsers m 5)))) in
      let all r := match r with Some r => builder r | None => (s, sets m CFuel) end in
      match q with
      | QMethod (YUsers _ k) _ f args cs =>
          match k, f, args, s with
          | 4, "debug_set", [], inl (w, d) => builder (di_new wr "{" w d)
          | 4, "debug_list", [], inl (w, d) => builder (di_new wr "[" w d)
          | 5, "entries", [(VForeign (YIter _ it), None)], inr b =>
              all (each_entry (ss_Iter m) (di_entry alternate wr o fk) n b it)
          | 5, "entries", [(VData "Intersection" "" [("iter", VForeign (YIter _ it)); ("other", VRef (At 0 []))], None)], inr b =>
              match cs with
              | VData "Set" "" [("storage", VForeign (YSet _ other))] :: _ =>
                  all (each_common alternate wr o fk n b (MkInter it other))
              | _ => (s, sets m CStuck)
              end
          | 5, "finish", [], inr b =>
              let '(w, d, v) := di_finish wr close b in
              (inl (w, d), sets m (match v with FOk => CVal (ok_ unit_) | FErr => CVal err_ | FPanic => CUnwound end))
          | _, _, _, _ => (s, sets m CStuck)
          end
      | _ => answer F U old q s
      end.
    Definition set_written (s : S) : W * D := match s with inl x => x | inr b => snd b end.
    Definition set_formatted (r : ctl V X val * list val * S) : option (W * D * verdict) :=
      match r with
      | (CVal (VData "Result" "Ok" _), _, s) => Some (set_written s, FOk)
      | (CVal (VData "Result" "Err" _), _, s) => Some (set_written s, FErr)
      | (CUnwound, _, s) => Some (set_written s, FPanic)
      | _ => None
      end.
    Definition set_text_debug (n : nat) (st : ss_St m) (w : W) (d : D) : option (W * D * verdict) :=
      match function_of F "Debug" "Set" "fmt" with
      | Some f =>
          set_formatted (drive (set_fmt_answer n "}") (call_fn p fuel "Set" f [VRef (At 0 []); VForeign (YUsers m 4)])
            [set_val m st] budget [] (inl (w, d)))
      | None => None
      end.
    (** An intersection, in the second cell; the set that it looks elements up in is in the first. *)
    Definition inter_text_debug (n : nat) (x : intersection m) (w : W) (d : D) : option (W * D * verdict) :=
      match function_of F "Debug" "Intersection" "fmt" with
      | Some f =>
          set_formatted (drive (set_fmt_answer n "]") (call_fn p fuel "Intersection" f [VRef (At 1 []); VForeign (YUsers m 4)])
            [set_val m (in_other x); VData "Intersection" "" [("iter", VForeign (YIter m (in_iter x))); ("other", VRef (At 0 []))]]
            budget [] (inl (w, d)))
      | None => None
      end.
  End Debug.
End SerdeSet.
