(** The front end of sets as source files: src/set.rs and src/set/intersection.rs, run around
    any storage, and the answers of the model ([Api]). *)
Require Import List Arith NArith ZArith Bool String.
Import ListNotations.
From Verif Require Import Std Traits Api SrcText SrcStd SrcParse SrcRun SrcSpec SrcFiles SrcFront.
Open Scope string_scope.

(** Requests to a [Set]: those of its storage, and loops over [&set]. *)
Inductive gset {K : Type} : Type := GPlain (q : sreq K) | GRefIter (l : list ask).
Arguments gset : clear implicits.

(** What is asked of an [Intersection]: the next element, [size_hint], and going on with its
    clone; what it says. *)
Inductive inter_ask : Type := INext | IHint | IClone.
Inductive inter_said {K : Type} : Type := IsElem (o : option K) | IsBetween (h : nat * option nat).
Arguments inter_said : clear implicits.

Section FrontSet.
  Context {K V S : Type} (m : SetStorage K).
  Notation X := (foreign_set m).
  Notation val := (val V X).
  Notation reply := (reply V X).

  (** Methods of the storage that only the front end calls. *)
  Definition ask_set_order (word : S -> Z -> S) (st : ss_St m) (f : string) (args : list (val * option val)) (s : S)
    : option (S * reply) :=
    let truth (g : option (ss_St m -> ss_St m -> bool)) st2 :=
      option_map (fun g => (s, sets m (CVal (VBool (g st st2))))) g in
    let chosen (g : option (ss_St m -> ss_St m -> ss_St m)) st2 :=
      option_map (fun g => (s, sets m (CVal (VForeign (YSet m (g st st2)))))) g in
    match f, args with
    | "partial_cmp", [(VRef _, Some (VForeign (YSet _ st2)))] =>
        option_map (fun g => (s, sets m (CVal (opt_val (option_map ordering_val (g st st2)))))) (ss_partial_cmp m)
    | "cmp", [(VRef _, Some (VForeign (YSet _ st2)))] =>
        option_map (fun g => (s, sets m (CVal (ordering_val (g st st2))))) (ss_cmp m)
    | "lt", [(VRef _, Some (VForeign (YSet _ st2)))] => truth (set_lt m) st2
    | "le", [(VRef _, Some (VForeign (YSet _ st2)))] => truth (set_le m) st2
    | "gt", [(VRef _, Some (VForeign (YSet _ st2)))] => truth (set_gt m) st2
    | "ge", [(VRef _, Some (VForeign (YSet _ st2)))] => truth (set_ge m) st2
    | "max", [(VForeign (YSet _ st2), None)] => chosen (set_max m) st2
    | "min", [(VForeign (YSet _ st2), None)] => chosen (set_min m) st2
    | "clamp", [(VForeign (YSet _ lo), None); (VForeign (YSet _ hi), None)] =>
        option_map (fun g =>
          (s, sets m (result_val (fun st => VForeign (YSet m st)) (g st lo hi)))) (set_clamp m)
    | "hash", [(VGiven _, None)] =>
        option_map (fun g => (fold_left word (g st) s, sets m (CVal unit_))) (ss_hash m)
    | "as_raw", [] => option_map (fun g => (s, sets m (CVal (VNum (N.to_nat (g st)))))) (option_map raw_as (ss_raw m))
    | _, _ => None
    end.
  (** What src/set.rs uses but does not define. *)
  Definition front_set_foreign (ord : option (S -> Z -> S)) (U : user_fns K V S)
    (call : val -> bool -> val -> option V -> S -> S * option V * Std.answer) (w : world)
    (q : question V X) (s : S) : S * reply :=
    match q with
    | QMethod (YGiven _ l) p "next" [] _ =>
        match l with
        | [] => (s, sets m (CVal none_))
        | k :: r => (s, MkReply (CVal (some_ (elem_val m k))) [(p, VForeign (YGiven m r))] [])
        end
    | QMethod (YGiven _ l) p "into_iter" [] _ => (s, sets m (CVal (VForeign (YGiven m l))))
    | QMethod (YSet _ st) p f args _ =>
        match ord with
        | Some word =>
            match ask_set_order word st f args s with
            | Some r => r
            | None => (s, sets m CStuck)
            end
        | None => ask_set m false call st p f args s
        end
    | QPath ["<>"; "from_raw"] [VNum n] =>
        (s, match ss_raw m with
            | Some r => sets m (CVal (VForeign (YSet m (raw_from r (N.of_nat n)))))
            | None => sets m CStuck
            end)
    | _ => foreign_set_answer m false ["T"; "SetStorage"; "empty"] (fun w => w) U call w q s
    end.
  (** [5] is the function that is given to [fold]. *)
  Definition front_set_answer (fold : V -> K -> V) (other : question V X -> S -> S * reply)
    (q : question V X) (s : S) : S * reply :=
    match q with
    | QGiven 5 [(VUser b, _); (VForeign (YKey _ k), _)] => (s, sets m (CVal (VUser (fold b k))))
    | _ => other q s
    end.

  (** src/set.rs with src/set/intersection.rs. *)
  Definition set_text : list (list string) := [text_core; text_set_intersection; text_set_rs].
  Definition set_file (ord : option (S -> Z -> S)) (p : list item) : file K V X S := MkFile
    p "" "Set" "" "" (elem_val m) (as_elem_val m) (set_both_ends m) no_load no_store
    (front_set_foreign ord) (fun _ => true).

  Section Requests.
    Variables (p : list item) (U : user_fns K V S).
    Notation F := (set_file None p).

    Definition front_sreq (q : gset K) (s : S) (self : val) : S * val * ans K V :=
      match q with
      | GPlain q => src_sreq F U q s self
      | GRefIter l =>
          match invoke F U old "IntoIterator" "&Set" "into_iter" [VRef (At 0 [])] [self] s with
          | (CVal it, t, s1) =>
              match asking_all F U (set_both_ends m "iter") true (item_of F) bounds_of l (self_in t) it s1 with
              | Some (items, s') => (s', self_in t, Items items)
              | None => (s1, self_in t, Bad)
              end
          | (_, t, s1) => (s1, self_in t, Bad)
          end
      end.

    (** A [Set] around a storage. *)
    Definition set_val (st : ss_St m) : val := VData "Set" "" [("storage", VForeign (YSet m st))].

    (** [Set::default]. *)
    Definition front_set_default (w : world) (s : S) : option (val * S) :=
      match invoke F U w "Default" "Set" "default" [] [] s with
      | (CVal v, _, s1) => Some (v, s1)
      | _ => None
      end.
    (** [Set::from_iter] on an iterator that gives these elements: the set, if the program ends
        within a number of steps and questions. *)
    Definition front_set_from_iter (n : nat) (w : world) (l : list K) (s : S) : option (val * S) :=
      match function_of F "FromIterator" "Set" "from_iter" with
      | Some f =>
          match drive (answer F U w) (call_fn p n "Set" f [VForeign (YGiven m l)]) [] n [] s with
          | (CVal v, _, s1) => Some (v, s1)
          | _ => None
          end
      | None => None
      end.
    (** [Set::from([..])] (src/set.rs:1087): the iterator of an array gives its elements. *)
    Definition front_set_from_array (n : nat) (w : world) (l : list K) (s : S) : option (val * S) :=
      match function_of F "From" "Set" "from" with
      | Some f =>
          match drive (answer F U w) (call_fn p n "Set" f [VForeign (YGiven m l)]) [] n [] s with
          | (CVal v, _, s1) => Some (v, s1)
          | _ => None
          end
      | None => None
      end.
    (** [Set::from_raw]. *)
    Definition front_from_raw (n : nat) (s : S) : option val :=
      match invoke F U old "" "Set" "from_raw" [VNum n] [] s with
      | (CVal v, _, _) => Some v
      | _ => None
      end.

    (** ** Intersections *)
    (** [a.intersection(&b)]; the sets are in the first two cells of the store. *)
    Definition front_intersection (s : S) (a b : val) : option val :=
      match invoke F U old "" "Set" "intersection" [VRef (At 0 []); VRef (At 1 [])] [a; b] s with
      | (CVal x, _, _) => Some x
      | _ => None
      end.
    (** A method of the intersection in the third cell, within a number of steps and questions:
        the result and the store then. *)
    Definition inter_call (fold : V -> K -> V) (n : nat) (f : string) (args : list val) (a b x : val) (s : S)
      : option (val * list val) :=
      match drive (front_set_answer fold (answer F U old)) (method p n (At 2 []) f args) [a; b; x] n [] s with
      | (CVal v, t, _) => Some (v, t)
      | _ => None
      end.
    Fixpoint inter_told (n : nat) (l : list inter_ask) (a b x : val) (s : S) : option (list (inter_said K) * val) :=
      match l with
      | [] => Some ([], x)
      | q :: l =>
          match inter_call (fun b _ => b) n
                  (match q with INext => "next" | IHint => "size_hint" | IClone => "clone" end) [] a b x s with
          | Some (v, t) =>
              let x' := match q with IClone => v | _ => nth 2 t unit_ end in
              let said :=
                match q with
                | INext =>
                    match option_of v with
                    | Some o => match o with
                                | Some k => option_map (fun k => [IsElem (Some k)]) (as_elem_val m k)
                                | None => Some [IsElem None]
                                end
                    | None => None
                    end
                | IHint => match bounds_of (K := K) [] v with Some (Bounds lo hi) => Some [IsBetween (lo, hi)] | _ => None end
                | IClone => Some []
                end in
              match said, inter_told n l a b x' s with
              | Some y, Some (r, x) => Some ((y ++ r)%list, x)
              | _, _ => None
              end
          | None => None
          end
      end.
    (** Everything about one intersection, and then its [fold]. *)
    Definition text_inter (n : nat) (l : list inter_ask) (fold : V -> K -> V) (init : V) (s : S) (a b : val)
      : option (list (inter_said K) * V) :=
      match front_intersection s a b with
      | Some x =>
          match inter_told n l a b x s with
          | Some (r, x) =>
              match inter_call fold n "fold" [VUser init; VGiven 5] a b x s with
              | Some (VUser v, _) => Some (r, v)
              | _ => None
              end
          | None => None
          end
      | None => None
      end.

    (** ** Comparing *)
    Variable word : S -> Z -> S.
    Notation G := (set_file (Some word) p).
    Definition front_set_order (q : order_req) (s : S) (a b : val) : option (S * order_ans) :=
      match invoke G U old (order_trait q) "Set" (order_name q) [VRef (At 0 []); VRef (At 1 [])] [a; b] s with
      | (CVal v, _, s1) => option_map (pair s1) (order_said v)
      | _ => None
      end.
    (** [a.max(b)], [a.min(b)]. *)
    Definition front_set_pick (q : pick_req) (s : S) (a b : val) : option val :=
      match invoke G U old "Ord" "Set" (match q with PMax => "max" | PMin => "min" end) [a; b] [] s with
      | (CVal v, _, _) => Some v
      | _ => None
      end.
    (** [a.clamp(b, c)]. *)
    Definition front_set_clamp (s : S) (a b c : val) : option (res val) :=
      match invoke G U old "Ord" "Set" "clamp" [a; b; c] [] s with
      | (CVal v, _, _) => Some (Ok v)
      | (CUnwound, _, _) => Some Panic
      | _ => None
      end.
    (** [a.hash(&mut state)]. *)
    Definition front_set_hash (s : S) (a : val) : option S :=
      match invoke G U old "Hash" "Set" "hash" [VRef (At 0 []); VGiven 4] [a] s with
      | (CVal _, _, s1) => Some s1
      | _ => None
      end.
    (** [a.as_raw()]. *)
    Definition front_as_raw (s : S) (a : val) : option nat :=
      match invoke G U old "" "Set" "as_raw" [VRef (At 0 [])] [a] s with
      | (CVal (VNum n), _, _) => Some n
      | _ => None
      end.
  End Requests.
End FrontSet.

(** ** The answers of the model *)
Section ModelSet.
  Context {K V S : Type} (m : SetStorage K) (U : user_fns K V S).

  Definition gset_req (q : gset K) (s : S) (st : ss_St m) : S * ss_St m * ans K V :=
    match q with
    | GPlain q => set_req U m q s st
    | GRefIter l => (s, st, shown (ss_Iter m) true (fun k => (Some k, None)) l (set_iter m st))
    end.
  Definition set_order (q : order_req) (s : S) (a b : ss_St m) : option (S * order_ans) :=
    let truth (g : option (ss_St m -> ss_St m -> bool)) := option_map (fun g => (s, IsSo (g a b))) g in
    match q with
    | OPartialCmp => option_map (fun g => (s, IsOrdered (g a b))) (set_partial_cmp m)
    | OCmp => option_map (fun g => (s, IsCmp (g a b))) (set_cmp m)
    | OLt => truth (set_lt m)
    | OLe => truth (set_le m)
    | OGt => truth (set_gt m)
    | OGe => truth (set_ge m)
    end.
  Fixpoint inter_says (n : nat) (l : list inter_ask) (x : intersection m) : option (list (inter_said K) * intersection m) :=
    match l with
    | [] => Some ([], x)
    | INext :: l =>
        match inter_next m n x with
        | Some (o, x) => option_map (fun r => (IsElem o :: fst r, snd r)) (inter_says n l x)
        | None => None
        end
    | IHint :: l => option_map (fun r => (IsBetween (inter_hint m x) :: fst r, snd r)) (inter_says n l x)
    | IClone :: l => inter_says n l (MkInter (it_clone (ss_Iter m) (in_iter x)) (in_other x))
    end.
  Definition model_inter (n : nat) (l : list inter_ask) (fold : V -> K -> V) (init : V) (a b : ss_St m)
    : option (list (inter_said K) * V) :=
    match inter_says n l (set_intersection m a b) with
    | Some (r, x) => option_map (fun v => (r, v)) (inter_fold m n x init fold)
    | None => None
    end.
End ModelSet.
