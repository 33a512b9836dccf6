(** What printing with [{:?}] and [{:#?}] amounts to, apart from storages and builders: a
    layout, performed piece by piece until one fails, and the text it makes. *)
Require Import String Ascii List Bool.
Import ListNotations.
From Verif Require Import Fmt.
Local Open Scope string_scope.

Definition newline : string := String "010" "".
Definition line_end : string := "," ++ newline.

(** * Layouts *)

(** A piece is a fixed text or something that prints itself; a block is written as it is
    or indented, beginning on a new line. *)
Inductive piece {A : Type} : Type := Text (s : string) | Item (x : A).
Arguments piece : clear implicits.
Inductive block {A : Type} : Type := Bare (l : list (piece A)) | Indented (l : list (piece A)).
Arguments block : clear implicits.

(** Between any two. *)
Fixpoint between {A} (x : A) (l : list A) : list A :=
  match l with
  | [] => []
  | [a] => [a]
  | a :: r => a :: x :: between x r
  end.

(** [{k: v, k: v}], or with [{:#?}]
    {
        k: v,
        k: v,
    }                                                                            *)
Definition layout {A} (open_ close : string) (alternate : bool) (l : list (list (piece A)))
  : list (block A) :=
  let body :=
    if alternate then
      (match l with [] => [] | _ => [Bare [Text newline]] end ++
       map (fun e => Indented (e ++ [Text line_end])) l)%list
    else between (Bare [Text ", "]) (map (fun e => Bare e) l) in
  ([Bare [Text open_]] ++ body ++ [Bare [Text close]])%list.

Definition map_layout {K V} (alternate : bool) (l : list (K * V)) : list (block (K + V)) :=
  layout "{" "}" alternate
    (map (fun e => [Item (inl (fst e)); Text ": "; Item (inr (snd e))]) l).

Definition set_layout {T} (alternate : bool) (l : list T) : list (block T) :=
  layout "{" "}" alternate (map (fun x => [Item x]) l).

Definition inter_layout {T} (alternate : bool) (l : list T) : list (block T) :=
  layout "[" "]" alternate (map (fun x => [Item x]) l).

(** * Performing a layout *)

(** One after another, until one does not go well. *)
Fixpoint perform {X St} (f : X -> St -> St * verdict) (l : list X) (st : St) : St * verdict :=
  match l with
  | [] => (st, FOk)
  | x :: r =>
      match f x st with
      | (st1, FOk) => perform f r st1
      | other => other
      end
  end.

Section Perform.
  Context {O D A : Type} (f : fmt_fn O D A) (o : O).

  Definition do_piece {W} (wr : out W) (p : piece A) (st : W * D) : W * D * verdict :=
    match p with
    | Text s => let '(w, v) := wr (fst st) s in (w, snd st, v)
    | Item x => run wr (f o (snd st) x) (fst st)
    end.

  Definition do_block {W} (wr : out W) (b : block A) (st : W * D) : W * D * verdict :=
    match b with
    | Bare l => perform (do_piece wr) l st
    | Indented l =>
        let '(w, _, d, v) := perform (do_piece (pad wr)) l ((fst st, true), snd st) in (w, d, v)
    end.

  Definition do_layout {W} (wr : out W) (l : list (block A)) (w : W) (d : D) : W * D * verdict :=
    perform (do_block wr) l (w, d).
End Perform.

(** Printing a key or a value. *)
Definition either {O D A B} (f : fmt_fn O D A) (g : fmt_fn O D B) : fmt_fn O D (A + B) :=
  fun o d x => match x with inl a => f o d a | inr b => g o d b end.

(** * Text *)

(** Four spaces at the beginning of every line; [nl]: a line begins. *)
Fixpoint indent (nl : bool) (s : string) : string :=
  match s with
  | EmptyString => ""
  | String c r => (if nl then "    " else "") ++ String c (indent (Ascii.eqb c "010") r)
  end.

(** The text around entries [l] with texts [txt]. *)
Definition framed (open_ close : string) (alternate : bool) (l : list string) : string :=
  open_ ++
  (if alternate then
     match l with
     | [] => ""
     | _ => newline ++ indent true (String.concat "" (map (fun e => e ++ line_end) l))
     end
   else String.concat ", " l) ++
  close.

Definition entry_text {K V} (tk : K -> string) (tv : V -> string) (e : K * V) : string :=
  tk (fst e) ++ ": " ++ tv (snd e).

(** A run that fails at once. *)
Definition gives_up {D} (c : script D) : Prop := exists d r, c = Stop d r /\ r <> FOk.

(** A run that writes [t], in whatever pieces, and gives up when a write fails. *)
Inductive prints {D} : script D -> string -> Prop :=
| PrStop : forall d, prints (Stop d FOk) ""
| PrWrite : forall d s k t, prints (k true) t -> gives_up (k false) ->
    prints (Write d s k) (s ++ t).

Definition is_prefix (p s : string) : Prop := exists q, s = p ++ q.

(** A sink that collects text: a write that goes well adds all of it, any other some
    beginning of it. *)
Definition collects {W} (text : W -> string) (wr : out W) : Prop :=
  forall w s, let '(w', v) := wr w s in
    exists p, is_prefix p s /\ text w' = text w ++ p /\ (v = FOk -> p = s).

Definition never_fails {W} (wr : out W) : Prop := forall w s, snd (wr w s) = FOk.

(** Printing [t] to the sink [wr], from [w]: what arrives is [t], or a beginning of it
    if something failed, which is reported. *)
Definition prints_to {W D} (text : W -> string) (wr : out W) (w : W) (r : W * D * verdict)
  (t : string) : Prop :=
  let '(w', _, v) := r in
  exists p, is_prefix p t /\ text w' = text w ++ p /\ (v = FOk -> p = t) /\
            (never_fails wr -> v = FOk).

(** The sink [String]. *)
Definition to_string : out string := fun w s => (w ++ s, FOk).

(** A buffer for [n] characters. *)
Definition buffer (n : nat) : out string := fun w s =>
  let r := w ++ s in
  if Nat.leb (String.length r) n then (r, FOk) else (w, FErr).
