(** Clients of the option buckets (src/option_bucket.rs): programs with local
    variables of type [Option<T>] that use the safe functions of the module, run on
    the model and on plain options. *)
Require Import List Arith.
Import ListNotations.
From Verif Require Import Std OptionBucket.

(** One statement of a client.  [i] is a local variable.  A bucket made from
    [&mut x] is remembered under the number of [x]; while it lives the borrow
    checker lets nobody else use [x].  The functions given to [CAsMut], [CIntoMut]
    and [CInsert] are what is written through the [&mut T] that the call returns. *)
Inductive cmd (T : Type) : Type :=
| CSomeNew (i : nat)                       (* SomeBucket::new(&mut x_i) *)
| CNoneNew (i : nat)                       (* NoneBucket::new(&mut x_i) *)
| COptionNew (i : nat)                     (* OptionBucket::new(&mut x_i) *)
| CAsRef (i : nat)                         (* b_i.as_ref() *)
| CAsMut (i : nat) (f : T -> T)            (* let r = b_i.as_mut(); apply f to r *)
| CReplace (i : nat) (v : T)               (* b_i.replace(v) *)
| CIntoMut (i : nat) (f : T -> T)          (* let r = b_i.into_mut(); apply f to r *)
| CTake (i : nat)                          (* b_i.take() *)
| CInsert (i : nat) (v : T) (f : T -> T)   (* let r = b_i.insert(v); apply f to r *)
| CDrop (i : nat)                          (* drop(b_i) *)
| CRead (i : nat)                          (* x_i.clone() *)
| CWrite (i : nat) (o : option T).         (* x_i = o *)
Arguments CSomeNew {T}.
Arguments CNoneNew {T}.
Arguments COptionNew {T}.
Arguments CAsRef {T}.
Arguments CAsMut {T}.
Arguments CReplace {T}.
Arguments CIntoMut {T}.
Arguments CTake {T}.
Arguments CInsert {T}.
Arguments CDrop {T}.
Arguments CRead {T}.
Arguments CWrite {T}.

(** What a statement shows: a bucket was made or not (and of which kind), a value,
    an option; [ORejected] for a statement rustc would not accept at this point (no
    such variable, no such bucket, or variable borrowed), which does nothing. *)
Inductive obs (T : Type) : Type :=
| OMade (some : bool)
| ONotMade
| OValue (v : T)
| OOption (o : option T)
| OUnit
| ORejected.
Arguments OMade {T}.
Arguments ONotMade {T}.
Arguments OValue {T}.
Arguments OOption {T}.
Arguments OUnit {T}.
Arguments ORejected {T}.

(** Assigning an element of a list. *)
Fixpoint put {A} (l : list A) (i : nat) (a : A) : list A :=
  match l, i with
  | [], _ => []
  | _ :: r, 0 => a :: r
  | x :: r, S j => x :: put r j a
  end.

(** * Running a client on the model *)

(** The local variables as places of type [Option<T>]
    (src/option_bucket.rs:124, 319, 412 take [&mut Option<T>]). *)
Definition locals {T} : cells (list (option T)) T :=
  MkCells (fun l r => match r with [i] => nth_error l i | _ => None end)
          (fun l r o => match r with
                        | [i] => match nth_error l i with Some _ => Some (put l i o) | None => None end
                        | _ => None
                        end).

(** The live bucket of each variable. *)
Definition held := list (option option_bucket).

(** Assignment through a [&mut T] just obtained. *)
Definition write_through {T} (l : list (option T)) (r : ref) (f : T -> T)
  : res (T * list (option T)) :=
  match cell_load locals l r with
  | Some v => match cell_store locals l r (f v) with Some l' => Ok (v, l') | None => UB end
  | None => UB
  end.

(** One statement, with the functions of OptionBucket.v
    (src/option_bucket.rs:113-421). *)
Definition exec {T} (c : cmd T) (l : list (option T)) (h : held)
  : res (obs T * list (option T) * held) :=
  match c with
  | CSomeNew i =>
      match nth_error h i with
      | Some None =>
          res_map (fun b => match b with
                            | Some b => (OMade true, l, put h i (Some (OBSome b)))
                            | None => (ONotMade, l, h)
                            end) (some_new locals l [i])
      | _ => Ok (ORejected, l, h)
      end
  | CNoneNew i =>
      match nth_error h i with
      | Some None =>
          res_map (fun b => match b with
                            | Some b => (OMade false, l, put h i (Some (OBNone b)))
                            | None => (ONotMade, l, h)
                            end) (none_new locals l [i])
      | _ => Ok (ORejected, l, h)
      end
  | COptionNew i =>
      match nth_error h i with
      | Some None =>
          res_map (fun b => (OMade (match b with OBSome _ => true | OBNone _ => false end), l,
                             put h i (Some b))) (option_bucket_new locals l [i])
      | _ => Ok (ORejected, l, h)
      end
  | CAsRef i =>
      match nth_error h i with
      | Some (Some (OBSome b)) => res_map (fun v => (OValue v, l, h)) (some_as_ref locals l b)
      | _ => Ok (ORejected, l, h)
      end
  | CAsMut i f =>
      match nth_error h i with
      | Some (Some (OBSome b)) =>
          res_bind (some_as_mut locals l b) (fun r =>
          res_map (fun '(v, l') => (OValue v, l', h)) (write_through l r f))
      | _ => Ok (ORejected, l, h)
      end
  | CReplace i v =>
      match nth_error h i with
      | Some (Some (OBSome b)) =>
          res_map (fun '(old, l') => (OValue old, l', h)) (some_replace locals l b v)
      | _ => Ok (ORejected, l, h)
      end
  | CIntoMut i f =>
      match nth_error h i with
      | Some (Some (OBSome b)) =>
          res_bind (some_into_mut locals l b) (fun r =>
          res_map (fun '(v, l') => (OValue v, l', put h i None)) (write_through l r f))
      | _ => Ok (ORejected, l, h)
      end
  | CTake i =>
      match nth_error h i with
      | Some (Some (OBSome b)) =>
          res_map (fun '(old, l') => (OValue old, l', put h i None)) (some_take locals l b)
      | _ => Ok (ORejected, l, h)
      end
  | CInsert i v f =>
      match nth_error h i with
      | Some (Some (OBNone b)) =>
          res_bind (none_insert locals l b v) (fun '(r, l1) =>
          res_map (fun '(v, l') => (OValue v, l', put h i None)) (write_through l1 r f))
      | _ => Ok (ORejected, l, h)
      end
  | CDrop i =>
      match nth_error h i with
      | Some (Some _) => Ok (OUnit, l, put h i None)
      | _ => Ok (ORejected, l, h)
      end
  | CRead i =>
      match nth_error h i with
      | Some None =>
          match nth_error l i with Some o => Ok (OOption o, l, h) | None => UB end
      | _ => Ok (ORejected, l, h)
      end
  | CWrite i o =>
      match nth_error h i with
      | Some None => Ok (OUnit, put l i o, h)
      | _ => Ok (ORejected, l, h)
      end
  end.

(** A client. *)
Fixpoint execs {T} (cs : list (cmd T)) (l : list (option T)) (h : held)
  : res (list (obs T) * list (option T)) :=
  match cs with
  | [] => Ok ([], l)
  | c :: r =>
      res_bind (exec c l h) (fun '(o, l1, h1) =>
      res_map (fun '(os, l2) => (o :: os, l2)) (execs r l1 h1))
  end.

(** A client starts without buckets. *)
Definition run_client {T} (cs : list (cmd T)) (l : list (option T))
  : res (list (obs T) * list (option T)) :=
  execs cs l (map (fun _ => None) l).

(** * The same client on plain options *)

(** Variables: free, or borrowed by a bucket of the given kind. *)
Inductive status : Type := Free | HasSome | HasNone.

(** The effect of a statement on variable [i] with content [o] and status [s]:
    what is shown, the new content, the new status. *)
Definition effect {T} (c : cmd T) (o : option T) (s : status) : obs T * option T * status :=
  match c, s, o with
  | CSomeNew _, Free, Some _ => (OMade true, o, HasSome)
  | CSomeNew _, Free, None => (ONotMade, o, Free)
  | CNoneNew _, Free, None => (OMade false, o, HasNone)
  | CNoneNew _, Free, Some _ => (ONotMade, o, Free)
  | COptionNew _, Free, Some _ => (OMade true, o, HasSome)
  | COptionNew _, Free, None => (OMade false, o, HasNone)
  | CAsRef _, HasSome, Some v => (OValue v, o, HasSome)
  | CAsMut _ f, HasSome, Some v => (OValue v, Some (f v), HasSome)
  | CReplace _ w, HasSome, Some v => (OValue v, Some w, HasSome)
  | CIntoMut _ f, HasSome, Some v => (OValue v, Some (f v), Free)
  | CTake _, HasSome, Some v => (OValue v, None, Free)
  | CInsert _ v f, HasNone, _ => (OValue v, Some (f v), Free)
  | CDrop _, HasSome, _ => (OUnit, o, Free)
  | CDrop _, HasNone, _ => (OUnit, o, Free)
  | CRead _, Free, _ => (OOption o, o, Free)
  | CWrite _ o', Free, _ => (OUnit, o', Free)
  | _, _, _ => (ORejected, o, s)
  end.

(** The variable a statement is about. *)
Definition var_of {T} (c : cmd T) : nat :=
  match c with
  | CSomeNew i | CNoneNew i | COptionNew i | CAsRef i | CAsMut i _ | CReplace i _
  | CIntoMut i _ | CTake i | CInsert i _ _ | CDrop i | CRead i | CWrite i _ => i
  end.

(** A client on plain options: each variable with its status. *)
Fixpoint plain_client {T} (cs : list (cmd T)) (l : list (option T * status))
  : list (obs T) * list (option T) :=
  match cs with
  | [] => ([], map fst l)
  | c :: r =>
      match nth_error l (var_of c) with
      | Some (o, s) =>
          let '(x, o', s') := effect c o s in
          let '(xs, l') := plain_client r (put l (var_of c) (o', s')) in (x :: xs, l')
      | None => let '(xs, l') := plain_client r l in (ORejected :: xs, l')
      end
  end.
