(** The fragment of Rust in which the code generated by [#[derive(Key)]] is
    written (fixed-map-derive/src/{unit_variants,any_variants}.rs), with an
    interpreter.

    The combinators of DeriveUnit.v and DeriveAny.v model what that code does; here
    the code itself is data, so that the token templates of the macro can be
    instantiated and run.  Types, lifetimes and the borrow checker are left out: a
    program that rustc would refuse is stuck ([CStuck]) or runs as if the check
    were not there.  A value that is moved is not erased at its origin. *)
Require Import List Arith NArith ZArith Bool String.
Import ListNotations.
From Verif Require Import Std.
Open Scope string_scope.

(** One step from a place to a place inside it: a field ([self.data],
    unit_variants.rs:258), an element of an array ([let [..] = &self.data], :258),
    the payload of [Some] ([Option::as_mut], :300), a value inside a storage that the
    code does not define ([get_mut], any_variants.rs:323), which it never looks
    into itself. *)
Inductive step : Type :=
| SField (f : string)
| SIndex (i : nat)
| SPayload
| SInto (r : list nat).

(** Where a place starts: [self] (unit_variants.rs:258), [other] (:191), or another
    value: the one that a [retain] of a nested storage has lent to its closure
    (any_variants.rs:365), or the entry that borrows [self] (unit_variants.rs:61). *)
Inductive base : Type := BSelf | BOther | BLent.

(** A place; a reference is the place it points to (unit_variants.rs:258, 270). *)
Record place : Type := MkPlace { pl_base : base; pl_steps : list step }.

(** The place one step further (unit_variants.rs:258, 300). *)
Definition inside (p : place) (s : step) : place :=
  MkPlace (pl_base p) (pl_steps p ++ [s])%list.

(** Values: [V] is the type of the values of the map, [X] whatever the code obtains
    from storages it does not define itself (any_variants.rs:41-44).  [VEnum] and
    [VEnumOf] are enum variants without and with a payload ([#ident::#variants],
    unit_variants.rs:273; [#ident::#var(k)], any_variants.rs:365); [VIter] is an
    iterator over the listed items (unit_variants.rs:335). *)
Inductive val {V X : Type} : Type :=
| VUnit
| VBool (b : bool)
| VUsize (n : nat)
| VInt (n : N)
| VUser (v : V)
| VNone
| VSome (x : val)
| VPair (x y : val)
| VEnum (name : string)
| VEnumOf (name : string) (x : val)
| VArr (l : list val)
| VStruct (l : list (string * val))
| VRef (p : place)
| VIter (l : list val)
| VForeign (x : X).
Arguments val : clear implicits.

(** Calls into core and into fixed-map, and operators.  References to option places
    are the arguments of the first six (unit_variants.rs:259, 265, 273, 291, 300,
    309). *)
Inductive prim : Type :=
| OptIsSome                    (* unit_variants.rs:259 *)
| OptIsNone                    (* unit_variants.rs:265 *)
| OptAsRef                     (* unit_variants.rs:291 *)
| OptAsMut                     (* unit_variants.rs:300 *)
| OptReplace                   (* unit_variants.rs:273 *)
| OptTake                      (* any_variants.rs:336 *)
| MemReplace                   (* unit_variants.rs:639 *)
| MemTake                      (* unit_variants.rs:309 *)
| UsizeFrom                    (* unit_variants.rs:259 *)
| Not                          (* unit_variants.rs:321 *)
| Deref                        (* unit_variants.rs:625 *)
| Add                          (* unit_variants.rs:259 *)
| BitAnd                       (* unit_variants.rs:469 *)
| BitOr                        (* unit_variants.rs:468 *)
| BitNot (width : N)           (* unit_variants.rs:480 *)
| EqInt                        (* unit_variants.rs:462 *)
| NeInt                        (* unit_variants.rs:474 *)
| CountOnes                    (* unit_variants.rs:457 *)
| Lt                           (* any_variants.rs:1805 *)
| Min                          (* any_variants.rs:1811 *)
| Max                          (* any_variants.rs:1847 *)
| WrappingAdd                  (* any_variants.rs:1811 *)
| WrappingSub                  (* any_variants.rs:1840 *)
| BucketNew                    (* unit_variants.rs:119 *)
| BucketRef                    (* unit_variants.rs:93, 98, 103 *)
| BucketReplace                (* unit_variants.rs:108 *)
| BucketTake                   (* unit_variants.rs:113 *)
| BucketInsert                 (* unit_variants.rs:75 *)
| IntoIter                     (* unit_variants.rs:335 *)
| Flatten                      (* unit_variants.rs:341 *)
| GetField (f : string).       (* entry.key, any_variants.rs:2003 *)

(** Patterns of [match] arms: a variant, a variant with a variable, a number, [_]
    (unit_variants.rs:273, any_variants.rs:46-47, 695, 1808). *)
Inductive pat : Type :=
| PVariant (name : string)
| PVariantOf (name x : string)
| PNum (n : nat)
| PWild.

(** Pattern inside [if let Some(..)]: a variable or a pair of variables
    (unit_variants.rs:320, any_variants.rs:713). *)
Inductive bind : Type :=
| BVar (x : string)
| BPair (x y : string).

(** Expressions and statements.  [Meth] are the methods of other storages
    (any_variants.rs:41-44, 212-340). *)
Inductive expr {Meth : Type} : Type :=
| EVar (x : string)                               (* names, unit_variants.rs:259 *)
| EUnit                                           (* empty body, unit_variants.rs:320 *)
| EBool (b : bool)                                (* unit_variants.rs:265 *)
| EUsize (n : nat)                                (* unit_variants.rs:259 *)
| EInt (n : N)                                    (* #numbers, unit_variants.rs:417 *)
| ENone                                           (* unit_variants.rs:164 *)
| ESome (e : expr)                                (* unit_variants.rs:335 *)
| EPair (e1 e2 : expr)                            (* unit_variants.rs:335 *)
| EVariant (name : string)                        (* unit_variants.rs:321 *)
| EVariantOf (name : string) (e : expr)           (* any_variants.rs:365 *)
| EArr (l : exprs)                                (* unit_variants.rs:252 *)
| EStruct (fs : list string) (l : exprs)          (* unit_variants.rs:251-253 *)
| ERefTo (b : base) (f : string)                  (* &self.f, &mut self.f, unit_variants.rs:258 *)
| EField (b : base) (f : string)                  (* self.f as a value, unit_variants.rs:457 *)
| EBase (b : base)                                (* match self, any_variants.rs:2002 *)
| EPrim (p : prim) (l : exprs)
| EAnd (e1 e2 : expr)                             (* unit_variants.rs:265 *)
| EIf (c t e : expr)                              (* unit_variants.rs:341 *)
| EIfLet (b : bind) (e body : expr)               (* unit_variants.rs:320 *)
| EMatch (e : expr) (l : arms)                    (* unit_variants.rs:272-274 *)
| ELet (x : string) (e body : expr)               (* unit_variants.rs:467 *)
| ELetArr (xs : list string) (e body : expr)      (* unit_variants.rs:258 *)
| EAssign (x : string) (e : expr)                 (* update |= .., unit_variants.rs:493 *)
| EAssignTo (p e : expr)                          (* *name = .., unit_variants.rs:322 *)
| ESeq (e1 e2 : expr)                             (* unit_variants.rs:320 *)
| EReturn (e : expr)                              (* any_variants.rs:696 *)
| EBreak                                          (* any_variants.rs:1808 *)
| EWhile (c body : expr)                          (* any_variants.rs:1805-1812 *)
| EQuestion (e : expr)                            (* .. ?, unit_variants.rs:335 *)
| EFlatMap (e : expr) (x y : string) (body : expr)(* flat_map(.., |(k, v)| ..), unit_variants.rs:335 *)
| ECall (f : string) (l : exprs)                  (* to_bits, option_to_entry, unit_variants.rs:371, 467 *)
| EFunc (e : expr)                                (* f(key), unit_variants.rs:492 *)
| EFunc2 (e p : expr)                             (* func(key, val), unit_variants.rs:321 *)
| EExt (m : Meth) (l : exprs)                     (* any_variants.rs:232 *)
| EExtRetain (m : Meth) (p : expr) (xs : list string) (body : expr) (* any_variants.rs:365, 585 *)
with exprs {Meth : Type} : Type :=
| XNil
| XCons (e : expr) (l : exprs)
with arms {Meth : Type} : Type :=
| ANil
| ACons (p : pat) (e : expr) (l : arms).
Arguments expr : clear implicits.
Arguments exprs : clear implicits.
Arguments arms : clear implicits.

(** A list of expressions as [exprs]: the repetition [#( .. ),*]
    (e.g. unit_variants.rs:252). *)
Fixpoint xs_of {Meth} (l : list (expr Meth)) : exprs Meth :=
  match l with
  | [] => XNil
  | e :: r => XCons e (xs_of r)
  end.

(** The repetition of match arms [#( .. => .., )*] (e.g. unit_variants.rs:273). *)
Fixpoint arms_of {Meth} (l : list (pat * expr Meth)) : arms Meth :=
  match l with
  | [] => ANil
  | (p, e) :: r => ACons p e (arms_of r)
  end.

(** The repetition of statements [#( .. )*] (e.g. unit_variants.rs:320-324). *)
Fixpoint seq_of {Meth} (l : list (expr Meth)) : expr Meth :=
  match l with
  | [] => EUnit
  | e :: r => ESeq e (seq_of r)
  end.

(** How evaluation ends (e.g. unit_variants.rs:321-322, any_variants.rs:696, 1808):
    with a value, by [return], by [break], by unwinding, by being stuck (rustc
    would have refused the program), or by exhausting the bound on loops. *)
Inductive ctl {V X : Type} : Type :=
| CVal (v : val V X)
| CReturn (v : val V X)
| CBreak
| CUnwound
| CStuck
| CFuel.
Arguments ctl : clear implicits.

(** State: local variables, [self], [other], the value lent to a closure, and the
    state [S] of whatever the user supplied (unit_variants.rs:314-324). *)
Record rt {V X S : Type} : Type := MkRt {
  rt_loc : list (string * val V X);
  rt_self : val V X;
  rt_other : val V X;
  rt_lent : val V X;
  rt_user : S
}.
Arguments rt : clear implicits.
Arguments MkRt {V X S}.

(** * Names and places *)

(** The innermost binding of a variable (unit_variants.rs:258-259). *)
Fixpoint lookup {A} (x : string) (l : list (string * A)) : option A :=
  match l with
  | [] => None
  | (y, a) :: r => if String.eqb x y then Some a else lookup x r
  end.

(** Assignment to the innermost binding (unit_variants.rs:493). *)
Fixpoint assign {A} (x : string) (a : A) (l : list (string * A)) : option (list (string * A)) :=
  match l with
  | [] => None
  | (y, b) :: r =>
      if String.eqb x y then Some ((y, a) :: r)
      else option_map (cons (y, b)) (assign x a r)
  end.

(** Replacing an element of an array (unit_variants.rs:322). *)
Fixpoint put {A} (i : nat) (a : A) (l : list A) : option (list A) :=
  match l, i with
  | [], _ => None
  | _ :: r, 0 => Some (a :: r)
  | x :: r, S j => option_map (cons x) (put j a r)
  end.

(** The value at a place inside a value (unit_variants.rs:258-259). *)
Fixpoint read_in {V X} (v : val V X) (p : list step) : option (val V X) :=
  match p with
  | [] => Some v
  | SField f :: q =>
      match v with
      | VStruct l => match lookup f l with Some x => read_in x q | None => None end
      | _ => None
      end
  | SIndex i :: q =>
      match v with
      | VArr l => match nth_error l i with Some x => read_in x q | None => None end
      | _ => None
      end
  | SPayload :: q => match v with VSome x => read_in x q | _ => None end
  | SInto _ :: _ => None
  end.

(** Storing a value there (unit_variants.rs:273, 322). *)
Fixpoint write_in {V X} (v : val V X) (p : list step) (n : val V X) : option (val V X) :=
  match p with
  | [] => Some n
  | SField f :: q =>
      match v with
      | VStruct l =>
          match lookup f l with
          | Some x =>
              match write_in x q n with
              | Some y => option_map VStruct (assign f y l)
              | None => None
              end
          | None => None
          end
      | _ => None
      end
  | SIndex i :: q =>
      match v with
      | VArr l =>
          match nth_error l i with
          | Some x =>
              match write_in x q n with
              | Some y => option_map VArr (put i y l)
              | None => None
              end
          | None => None
          end
      | _ => None
      end
  | SPayload :: q =>
      match v with VSome x => option_map VSome (write_in x q n) | _ => None end
  | SInto _ :: _ => None
  end.

(** The value a place starts from (unit_variants.rs:191, 258, any_variants.rs:365). *)
Definition base_of {V X S} (st : rt V X S) (b : base) : val V X :=
  match b with
  | BSelf => rt_self st
  | BOther => rt_other st
  | BLent => rt_lent st
  end.

(** Reading a place (unit_variants.rs:259). *)
Definition read {V X S} (st : rt V X S) (p : place) : option (val V X) :=
  read_in (base_of st (pl_base p)) (pl_steps p).

(** Overwriting a place (unit_variants.rs:273). *)
Definition write {V X S} (st : rt V X S) (p : place) (n : val V X) : option (rt V X S) :=
  match write_in (base_of st (pl_base p)) (pl_steps p) n with
  | Some v =>
      Some (match pl_base p with
            | BSelf => MkRt (rt_loc st) v (rt_other st) (rt_lent st) (rt_user st)
            | BOther => MkRt (rt_loc st) (rt_self st) v (rt_lent st) (rt_user st)
            | BLent => MkRt (rt_loc st) (rt_self st) (rt_other st) v (rt_user st)
            end)
  | None => None
  end.

(** Replacing the local variables, for a block or a call (unit_variants.rs:258,
    467). *)
Definition with_loc {V X S} (st : rt V X S) (l : list (string * val V X)) : rt V X S :=
  MkRt l (rt_self st) (rt_other st) (rt_lent st) (rt_user st).

(** The user's state after a call of theirs (unit_variants.rs:321). *)
Definition with_user {V X S} (st : rt V X S) (s : S) : rt V X S :=
  MkRt (rt_loc st) (rt_self st) (rt_other st) (rt_lent st) s.

(** A place, and replacing what is there (unit_variants.rs:273, 309, 639). *)
Definition swap {V X S} (st : rt V X S) (p : place) (n : val V X)
  : ctl V X * rt V X S :=
  match read st p, write st p n with
  | Some old, Some st' => (CVal old, st')
  | _, _ => (CStuck, st)
  end.

(** * Calls of core *)

(** [Option::as_ref] and [as_mut] of the place [p] (unit_variants.rs:291, 300). *)
Definition opt_ref {V X S} (st : rt V X S) (p : place) : option (val V X) :=
  match read st p with
  | Some VNone => Some VNone
  | Some (VSome _) => Some (VSome (VRef (inside p SPayload)))
  | _ => None
  end.

(** The items of [flatten]: options, or references to options
    (unit_variants.rs:341, 346). *)
Fixpoint flat_items {V X S} (st : rt V X S) (l : list (val V X)) : option (list (val V X)) :=
  match l with
  | [] => Some []
  | x :: r =>
      let y := match x with
               | VNone => Some VNone
               | VSome v => Some (VSome v)
               | VRef p => opt_ref st p
               | _ => None
               end in
      match y, flat_items st r with
      | Some y, Some r' => Some (y :: r')
      | _, _ => None
      end
  end.

(** A pure answer (unit_variants.rs:259), stuck without one. *)
Definition answer_of {V X S} (st : rt V X S) (o : option (val V X)) : ctl V X * rt V X S :=
  (match o with Some v => CVal v | None => CStuck end, st).

(** The calls and operators of [prim] (unit_variants.rs:75-119, 259-309, 457-493,
    625-670, any_variants.rs:1805-1847).  A bucket (src/option_bucket.rs:107-109,
    263-265) is a reference to its option; a bucket of the wrong kind, which the
    code of that file would use without checking, is stuck.  Simplification: [usize] is unbounded, so
    [wrapping_add] never wraps; [wrapping_sub] is defined for a positive left
    operand, as it is used. *)
Definition run_prim {V X S} (p : prim) (l : list (val V X)) (st : rt V X S)
  : ctl V X * rt V X S :=
  match p, l with
  | OptIsSome, [VRef r] =>
      answer_of st (match read st r with
                    | Some (VSome _) => Some (VBool true)
                    | Some VNone => Some (VBool false)
                    | _ => None end)
  | OptIsNone, [VRef r] =>
      answer_of st (match read st r with
                    | Some (VSome _) => Some (VBool false)
                    | Some VNone => Some (VBool true)
                    | _ => None end)
  | OptAsRef, [VRef r] => answer_of st (opt_ref st r)
  | OptAsMut, [VRef r] => answer_of st (opt_ref st r)
  | OptReplace, [VRef r; v] => swap st r (VSome v)
  | OptTake, [VRef r] => swap st r VNone
  | MemReplace, [VRef r; v] => swap st r v
  | MemTake, [VRef r] =>
      match read st r with
      | Some (VBool _) => swap st r (VBool false)
      | Some VNone | Some (VSome _) => swap st r VNone
      | _ => (CStuck, st)
      end
  | UsizeFrom, [VBool b] => (CVal (VUsize (usize_from b)), st)
  | Not, [VBool b] => (CVal (VBool (negb b)), st)
  | Deref, [VRef r] => answer_of st (read st r)
  | Add, [VUsize a; VUsize b] => (CVal (VUsize (a + b)), st)
  | BitAnd, [VInt a; VInt b] => (CVal (VInt (N.land a b)), st)
  | BitOr, [VInt a; VInt b] => (CVal (VInt (N.lor a b)), st)
  | BitNot w, [VInt a] => (CVal (VInt (not_bits w a)), st)
  | EqInt, [VInt a; VInt b] => (CVal (VBool (N.eqb a b)), st)
  | NeInt, [VInt a; VInt b] => (CVal (VBool (negb (N.eqb a b))), st)
  | CountOnes, [VInt a] => (CVal (VUsize (count_ones a)), st)
  | Lt, [VUsize a; VUsize b] => (CVal (VBool (Nat.ltb a b)), st)
  | Min, [VUsize a; VUsize b] => (CVal (VUsize (Nat.min a b)), st)
  | Max, [VUsize a; VUsize b] => (CVal (VUsize (Nat.max a b)), st)
  | WrappingAdd, [VUsize a; VUsize b] => (CVal (VUsize (a + b)), st)
  | WrappingSub, [VUsize a; VUsize b] =>
      if Nat.leb b a then (CVal (VUsize (a - b)), st) else (CStuck, st)
  | BucketNew, [VRef r] =>
      answer_of st (match read st r with
                    | Some (VSome _) => Some (VEnumOf "Some" (VRef r))
                    | Some VNone => Some (VEnumOf "None" (VRef r))
                    | _ => None end)
  | BucketRef, [VRef r] =>
      answer_of st (match read st r with
                    | Some (VSome _) => Some (VRef (inside r SPayload))
                    | _ => None end)
  | BucketReplace, [VRef r; v] =>
      match read st r with
      | Some (VSome _) => swap st (inside r SPayload) v
      | _ => (CStuck, st)
      end
  | BucketTake, [VRef r] =>
      match read st r, write st r VNone with
      | Some (VSome v), Some st' => (CVal v, st')
      | _, _ => (CStuck, st)
      end
  | BucketInsert, [VRef r; v] =>
      match read st r, write st r (VSome v) with
      | Some VNone, Some st' => (CVal (VRef (inside r SPayload)), st')
      | _, _ => (CStuck, st)
      end
  | IntoIter, [VArr l] => (CVal (VIter l), st)
  | IntoIter, [VRef r] =>
      answer_of st (match read st r with
                    | Some (VArr l) =>
                        Some (VIter (List.map (fun i => VRef (inside r (SIndex i)))
                                              (List.seq 0 (List.length l))))
                    | _ => None end)
  | Flatten, [VIter l] => answer_of st (option_map VIter (flat_items st l))
  | GetField f, [VStruct l] => answer_of st (lookup f l)
  | _, _ => (CStuck, st)
  end.

(** The destructor of a value (of what unit_variants.rs:322, 329 overwrites), [dr]
    being that of [V] and [drx] that of foreign values: parts in order, and after
    one that unwinds the remaining ones still.  Simplification as for [arr_drop]
    (DeriveUnit.v): a second one that unwinds would abort the process. *)
Fixpoint drop_val {V X S} (dr : S -> V -> S * bool) (drx : S -> X -> S * bool)
  (v : val V X) (s : S) {struct v} : S * bool :=
  match v with
  | VUser x => dr s x
  | VForeign x => drx s x
  | VSome x | VEnumOf _ x => drop_val dr drx x s
  | VPair x y =>
      let '(s1, u1) := drop_val dr drx x s in
      let '(s2, u2) := drop_val dr drx y s1 in (s2, u1 || u2)
  | VArr l | VIter l =>
      (fix go (l : list (val V X)) (s : S) : S * bool :=
         match l with
         | [] => (s, false)
         | x :: r =>
             let '(s1, u1) := drop_val dr drx x s in
             let '(s2, u2) := go r s1 in (s2, u1 || u2)
         end) l s
  | VStruct l =>
      (fix go (l : list (string * val V X)) (s : S) : S * bool :=
         match l with
         | [] => (s, false)
         | (_, x) :: r =>
             let '(s1, u1) := drop_val dr drx x s in
             let '(s2, u2) := go r s1 in (s2, u1 || u2)
         end) l s
  | _ => (s, false)
  end.

(** * The interpreter *)

Section Eval.
  Context {V X S Meth : Type}.

  (** The user's closures of sets and of maps (unit_variants.rs:314-316, 485-487):
      the answer, or [None] when they unwind. *)
  Variable func : S -> val V X -> S * option bool.
  (** See [func]; it may assign the value (unit_variants.rs:316). *)
  Variable func2 : S -> val V X -> V -> S * V * option bool.
  (** The destructor of a value that an assignment overwrites
      (unit_variants.rs:322): [true] when it unwinds. *)
  Variable dropped : S -> val V X -> S * bool.
  (** Methods of other storages (any_variants.rs:41-44, 212-340). *)
  Variable ext : Meth -> list (val V X) -> rt V X S -> ctl V X * rt V X S.
  (** [retain] of another storage, with a closure (any_variants.rs:365, 585). *)
  Variable ext_retain : Meth -> val V X ->
    (list (val V X) -> rt V X S -> ctl V X * rt V X S) -> rt V X S -> ctl V X * rt V X S.
  (** The functions defined beside the generated impls ([option_to_entry],
      [to_bits], unit_variants.rs:117-123, 414-419). *)
  Variable call : string -> list (val V X) -> rt V X S -> ctl V X * rt V X S.
  (** Bound on the rounds of a loop (any_variants.rs:1805). *)
  Variable fuel : nat.

  (** Sequencing: what comes after a value (e.g. unit_variants.rs:320-324). *)
  Definition andthen (m : ctl V X * rt V X S)
    (k : val V X -> rt V X S -> ctl V X * rt V X S) : ctl V X * rt V X S :=
    match m with
    | (CVal v, st) => k v st
    | other => other
    end.

  (** Evaluation with variables bound for its duration (unit_variants.rs:258). *)
  Definition scoped (bs : list (string * val V X))
    (m : rt V X S -> ctl V X * rt V X S) (st : rt V X S) : ctl V X * rt V X S :=
    let '(c, st') := m (with_loc st (bs ++ rt_loc st)%list) in
    (c, with_loc st' (List.skipn (List.length bs) (rt_loc st'))).

  (** The body of a closure or function: [return] and [?] leave only it
      (unit_variants.rs:335). *)
  Definition as_body (m : ctl V X * rt V X S) : ctl V X * rt V X S :=
    match m with
    | (CReturn v, st) => (CVal v, st)
    | other => other
    end.

  (** Assignment [*p = n] (unit_variants.rs:322): the old value is dropped; when
      that unwinds the assignment has still been made. *)
  Definition store (p : place) (n : val V X) (st : rt V X S) : ctl V X * rt V X S :=
    match read st p, write st p n with
    | Some old, Some st1 =>
        let '(s, u) := dropped (rt_user st1) old in
        (if u then CUnwound else CVal VUnit, with_user st1 s)
    | _, _ => (CStuck, st)
    end.

  (** The items of [flat_map]: the closure on every item (unit_variants.rs:335).
      Simplification as for [flatten_st] (Std.v): it is run at once; it has no
      effects. *)
  Fixpoint flat_map_items (body : val V X -> val V X -> rt V X S -> ctl V X * rt V X S)
    (l : list (val V X)) (acc : list (val V X)) (st : rt V X S) : ctl V X * rt V X S :=
    match l with
    | [] => (CVal (VIter (List.rev acc)), st)
    | VPair a b :: r =>
        andthen (as_body (body a b st)) (fun v st1 =>
          match v with
          | VNone | VSome _ => flat_map_items body r (v :: acc) st1
          | _ => (CStuck, st1)
          end)
    | _ => (CStuck, st)
    end.

  (** [while] (any_variants.rs:1805-1812). *)
  Fixpoint while_loop (n : nat) (c b : rt V X S -> ctl V X * rt V X S) (st : rt V X S)
    : ctl V X * rt V X S :=
    match n with
    | 0 => (CFuel, st)
    | Datatypes.S n =>
        andthen (c st) (fun v st1 =>
          match v with
          | VBool true =>
              match b st1 with
              | (CVal _, st2) => while_loop n c b st2
              | (CBreak, st2) => (CVal VUnit, st2)
              | other => other
              end
          | VBool false => (CVal VUnit, st1)
          | _ => (CStuck, st1)
          end)
    end.

  (** Whether a pattern matches, and what it binds (unit_variants.rs:273,
      any_variants.rs:46-47, 695, 1808). *)
  Definition match_pat (p : pat) (v : val V X) : option (list (string * val V X)) :=
    match p, v with
    | PVariant n, VEnum m => if String.eqb n m then Some [] else None
    | PVariantOf n x, VEnumOf m y => if String.eqb n m then Some [(x, y)] else None
    | PNum n, VUsize m => if Nat.eqb n m then Some [] else None
    | PWild, _ => Some []
    | _, _ => None
    end.

  (** The variables of [if let Some(..)] (unit_variants.rs:320,
      any_variants.rs:713). *)
  Definition match_bind (b : bind) (v : val V X) : option (list (string * val V X)) :=
    match b, v with
    | BVar x, _ => Some [(x, v)]
    | BPair x y, VPair a b => Some [(x, a); (y, b)]
    | _, _ => None
    end.

  (** Evaluation, left to right (see [expr] for the code that each construct
      comes from, e.g. unit_variants.rs:320-324). *)
  Fixpoint eval (e : expr Meth) (st : rt V X S) {struct e} : ctl V X * rt V X S :=
    match e with
    | EVar x => answer_of st (lookup x (rt_loc st))
    | EUnit => (CVal VUnit, st)
    | EBool b => (CVal (VBool b), st)
    | EUsize n => (CVal (VUsize n), st)
    | EInt n => (CVal (VInt n), st)
    | ENone => (CVal VNone, st)
    | ESome e => andthen (eval e st) (fun v st => (CVal (VSome v), st))
    | EPair e1 e2 =>
        andthen (eval e1 st) (fun v1 st =>
        andthen (eval e2 st) (fun v2 st => (CVal (VPair v1 v2), st)))
    | EVariant n => (CVal (VEnum n), st)
    | EVariantOf n e => andthen (eval e st) (fun v st => (CVal (VEnumOf n v), st))
    | EArr l => eval_list l [] (fun vs st => (CVal (VArr vs), st)) st
    | EStruct fs l =>
        eval_list l [] (fun vs st =>
          if Nat.eqb (List.length fs) (List.length vs)
          then (CVal (VStruct (List.combine fs vs)), st) else (CStuck, st)) st
    | ERefTo b f => (CVal (VRef (MkPlace b [SField f])), st)
    | EField b f => answer_of st (read st (MkPlace b [SField f]))
    | EBase b => (CVal (base_of st b), st)
    | EPrim p l => eval_list l [] (run_prim p) st
    | EAnd e1 e2 =>
        andthen (eval e1 st) (fun v st =>
          match v with
          | VBool true => eval e2 st
          | VBool false => (CVal (VBool false), st)
          | _ => (CStuck, st)
          end)
    | EIf c t e =>
        andthen (eval c st) (fun v st =>
          match v with
          | VBool true => eval t st
          | VBool false => eval e st
          | _ => (CStuck, st)
          end)
    | EIfLet b e body =>
        andthen (eval e st) (fun v st =>
          match v with
          | VSome x =>
              match match_bind b x with
              | Some bs => scoped bs (eval body) st
              | None => (CStuck, st)
              end
          | VNone => (CVal VUnit, st)
          | _ => (CStuck, st)
          end)
    | EMatch e l => andthen (eval e st) (fun v st => eval_arms l v st)
    | ELet x e body =>
        andthen (eval e st) (fun v st => scoped [(x, v)] (eval body) st)
    | ELetArr xs e body =>
        andthen (eval e st) (fun v st =>
          match (match v with
                 | VArr l => Some l
                 | VRef r =>
                     match read st r with
                     | Some (VArr l) =>
                         Some (List.map (fun i => VRef (inside r (SIndex i)))
                                        (List.seq 0 (List.length l)))
                     | _ => None
                     end
                 | _ => None
                 end) with
          | Some vs =>
              if Nat.eqb (List.length xs) (List.length vs)
              then scoped (List.combine xs vs) (eval body) st else (CStuck, st)
          | None => (CStuck, st)
          end)
    | EAssign x e =>
        andthen (eval e st) (fun v st =>
          match assign x v (rt_loc st) with
          | Some l => (CVal VUnit, with_loc st l)
          | None => (CStuck, st)
          end)
    | EAssignTo p e =>
        andthen (eval e st) (fun v st =>
        andthen (eval p st) (fun r st =>
          match r with VRef r => store r v st | _ => (CStuck, st) end))
    | ESeq e1 e2 => andthen (eval e1 st) (fun _ st => eval e2 st)
    | EReturn e => andthen (eval e st) (fun v st => (CReturn v, st))
    | EBreak => (CBreak, st)
    | EWhile c b => while_loop fuel (eval c) (eval b) st
    | EQuestion e =>
        andthen (eval e st) (fun v st =>
          match v with
          | VSome x => (CVal x, st)
          | VNone => (CReturn VNone, st)
          | _ => (CStuck, st)
          end)
    | EFlatMap e x y body =>
        andthen (eval e st) (fun v st =>
          match v with
          | VIter l =>
              flat_map_items (fun a b => scoped [(x, a); (y, b)] (eval body)) l [] st
          | _ => (CStuck, st)
          end)
    | ECall f l => eval_list l [] (call f) st
    | EFunc e =>
        andthen (eval e st) (fun k st =>
          let '(s, r) := func (rt_user st) k in
          (match r with Some b => CVal (VBool b) | None => CUnwound end, with_user st s))
    | EFunc2 e p =>
        andthen (eval e st) (fun k st =>
        andthen (eval p st) (fun r st =>
          match r with
          | VRef r =>
              match read st r with
              | Some (VUser v) =>
                  let '(s, v', a) := func2 (rt_user st) k v in
                  match write st r (VUser v') with
                  | Some st1 =>
                      (match a with Some b => CVal (VBool b) | None => CUnwound end,
                       with_user st1 s)
                  | None => (CStuck, st)
                  end
              | _ => (CStuck, st)
              end
          | _ => (CStuck, st)
          end))
    | EExt m l => eval_list l [] (ext m) st
    | EExtRetain m p xs body =>
        andthen (eval p st) (fun r st =>
          ext_retain m r (fun ks st =>
            if Nat.eqb (List.length xs) (List.length ks)
            then as_body (scoped (List.combine xs ks) (eval body) st)
            else (CStuck, st)) st)
    end
  (** Arguments, left to right, then the call (e.g. unit_variants.rs:273). *)
  with eval_list (l : exprs Meth) (acc : list (val V X))
    (k : list (val V X) -> rt V X S -> ctl V X * rt V X S) (st : rt V X S) {struct l}
    : ctl V X * rt V X S :=
    match l with
    | XNil => k (List.rev acc) st
    | XCons e l => andthen (eval e st) (fun v st => eval_list l (v :: acc) k st)
    end
  (** The first arm that matches (e.g. unit_variants.rs:272-274); none is a
      non-exhaustive [match], which rustc refuses. *)
  with eval_arms (l : arms Meth) (v : val V X) (st : rt V X S) {struct l}
    : ctl V X * rt V X S :=
    match l with
    | ANil => (CStuck, st)
    | ACons p e l =>
        match match_pat p v with
        | Some bs => scoped bs (eval e) st
        | None => eval_arms l v st
        end
    end.
End Eval.

(** A function: parameters and body (e.g. unit_variants.rs:269-275). *)
Definition fn (Meth : Type) : Type := (list string * expr Meth)%type.

(** Calling a function (e.g. unit_variants.rs:371): the body sees the parameters
    only. *)
Definition run_fn {V X S Meth}
  (ev : expr Meth -> rt V X S -> ctl V X * rt V X S)
  (f : fn Meth) (args : list (val V X)) (st : rt V X S) : ctl V X * rt V X S :=
  if Nat.eqb (List.length (fst f)) (List.length args) then
    let '(c, st') := ev (snd f) (with_loc st (List.combine (fst f) args)) in
    as_body (c, with_loc st' (rt_loc st))
  else (CStuck, st).

(** Functions by name (unit_variants.rs:117, 415). *)
Definition by_name {V X S Meth} (ev : expr Meth -> rt V X S -> ctl V X * rt V X S)
  (fns : list (string * fn Meth)) (f : string) (args : list (val V X)) (st : rt V X S)
  : ctl V X * rt V X S :=
  match lookup f fns with
  | Some d => run_fn ev d args st
  | None => (CStuck, st)
  end.

(** The block [const _: () = { .. }] of generated code (unit_variants.rs:32-44): the
    methods of an impl, and the functions they call, which call no others. *)
Record code {Meth : Type} : Type := MkCode {
  cd_helpers : list (string * fn Meth);
  cd_methods : list (string * fn Meth)
}.
Arguments code : clear implicits.
Arguments MkCode {Meth}.

(** Calling a method (e.g. unit_variants.rs:269) on [self], with arguments; [env]
    is what the code is linked with. *)
Record env {V X S Meth : Type} : Type := MkEnv {
  en_func : S -> val V X -> S * option bool;
  en_func2 : S -> val V X -> V -> S * V * option bool;
  en_dropped : S -> val V X -> S * bool;
  en_ext : Meth -> list (val V X) -> rt V X S -> ctl V X * rt V X S;
  en_ext_retain : Meth -> val V X ->
    (list (val V X) -> rt V X S -> ctl V X * rt V X S) -> rt V X S -> ctl V X * rt V X S;
  en_fuel : nat
}.
Arguments env : clear implicits.
Arguments MkEnv {V X S Meth}.

(** See [env] (e.g. unit_variants.rs:269). *)
Definition eval_in {V X S Meth} (E : env V X S Meth) (fns : list (string * fn Meth))
  : expr Meth -> rt V X S -> ctl V X * rt V X S :=
  let ev := eval (en_func E) (en_func2 E) (en_dropped E) (en_ext E) (en_ext_retain E) in
  ev (by_name (ev (fun _ _ st => (CStuck, st)) (en_fuel E)) fns) (en_fuel E).

(** See [env] (e.g. unit_variants.rs:269); [other] is the second operand of [==]. *)
Definition invoke {V X S Meth} (E : env V X S Meth) (C : code Meth) (m : string)
  (args : list (val V X)) (self other : val V X) (s : S)
  : ctl V X * val V X * S :=
  let '(c, st) :=
    by_name (eval_in E (cd_helpers C)) (cd_methods C) m args
            (MkRt [] self other VUnit s) in
  (c, rt_self st, rt_user st).

(** Calling a method of an entry (unit_variants.rs:66-114): the entry is the value
    that is lent, and [self] the storage it borrows from. *)
Definition invoke_entry {V X S Meth} (E : env V X S Meth) (C : code Meth) (m : string)
  (args : list (val V X)) (entry self : val V X) (s : S)
  : ctl V X * val V X * S :=
  let '(c, st) :=
    by_name (eval_in E (cd_helpers C)) (cd_methods C) m args
            (MkRt [] self VUnit entry s) in
  (c, rt_self st, rt_user st).
