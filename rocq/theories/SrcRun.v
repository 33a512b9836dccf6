(** Running the syntax trees of [SrcParse]: a big-step interpreter with a store.

    It is not typed: which method is called is decided by the value it is called on, by
    the name of its type.  References are paths into the store.  What does not concern
    the source text is asked for ([question]): closures, clones, comparisons and
    destructors of the user, and the storages and hash tables that a file uses but does
    not define.  Answers are taken from a list; without one, the program stops with the
    question, and is run again with the answer added ([drive]).

    Simplifications: moving leaves the old place as it is (no program that type-checks
    reads it again); locals are not dropped at the end of their scope (in the functions
    that are run, they own nothing then that has a destructor); closures capture by
    value (they capture references and functions only); [usize] has no upper bound. *)
Require Import List Arith NArith Bool String.
Import ListNotations.
From Verif Require Import Std SrcParse.
Open Scope string_scope.

(** A step into a value: a field (tuples and variants have fields ["0"], ["1"], …), or what
    a foreign storage calls this place (src/map/storage/boolean.rs:75,
    src/map/storage/option.rs:75). *)
Inductive step : Type :=
| Fld (f : string)
| Into (r : ref).

(** A place in the store (boolean.rs:359). *)
Record place : Type := At { p_cell : nat; p_path : list step }.

(** The part [f] of a place (boolean.rs:359). *)
Definition part (p : place) (s : step) : place := At (p_cell p) (p_path p ++ [s]).

(** Looking up a name (boolean.rs:96). *)
Fixpoint find_name {A} (x : string) (l : list (string * A)) : option A :=
  match l with
  | [] => None
  | (y, a) :: r => if String.eqb x y then Some a else find_name x r
  end.
(** Changing what a name stands for (boolean.rs:97). *)
Fixpoint put_name {A} (x : string) (a : A) (l : list (string * A)) : option (list (string * A)) :=
  match l with
  | [] => None
  | (y, b) :: r =>
      if String.eqb x y then Some ((y, a) :: r)
      else option_map (cons (y, b)) (put_name x a r)
  end.
(** Changing an element of a list (boolean.rs:97). *)
Fixpoint put_nth {A} (n : nat) (a : A) (l : list A) : option (list A) :=
  match l, n with
  | [], _ => None
  | _ :: r, 0 => Some (a :: r)
  | x :: r, S n => option_map (cons x) (put_nth n a r)
  end.

(** The names in an expression: what a closure captures is among them
    (src/map/storage/option.rs:313). *)
Fixpoint mentions (n : nat) (e : expr) : list string :=
  match n with
  | 0 => []
  | S n =>
      let all l := flat_map (mentions n) l in
      let in_stmt s :=
        match s with
        | SLet _ e | SSemi e | STail e => mentions n e
        | SItem _ => []
        end in
      match e with
      | EPath [x] => [x]
      | EPath _ | EBool _ | ENum _ | EStr _ => []
      | ETup l => all l
      | EField e _ | EUnary _ e | EQuestion e | EClosure _ e | ELoop e | EReturn (Some e) =>
          mentions n e
      | EReturn None => []
      | ECall f l => mentions n f ++ all l
      | EMethod e _ l => mentions n e ++ all l
      | EMacro _ l => all l
      | EBinary _ a b | EAssign _ a b | EIfLet _ _ a b | EWhileLet _ a b | EFor _ a b =>
          (match e with EIfLet _ c _ _ => mentions n c | _ => [] end)
          ++ mentions n a ++ mentions n b
      | EIf a b c => mentions n a ++ mentions n b ++ mentions n c
      | EMatch e l => mentions n e ++ flat_map (fun a => mentions n (snd a)) l
      | EBlock l => flat_map in_stmt l
      | EStruct _ l o =>
          flat_map (fun a => mentions n (snd a)) l
          ++ match o with Some e => mentions n e | None => [] end
      end
  end.

Section Run.
  Context {V X : Type}.

  (** Values.  [VData] is a struct (no variant), a variant of an enum, or a tuple (type
      ["()"]); [VUser] a value of the user; [VGiven] a closure of the user; [VForeign] what
      the file uses but does not define. *)
  Inductive val : Type :=
  | VBool (b : bool)                                        (* boolean.rs:98 *)
  | VNum (n : nat)                                          (* boolean.rs:11 *)
  | VStr (x : string)                                       (* src/option_bucket.rs:127 *)
  | VUser (v : V)                                           (* boolean.rs:244 *)
  | VData (ty con : string) (l : list (string * val))       (* boolean.rs:112, 360 *)
  | VRef (p : place)                                        (* boolean.rs:359 *)
  | VClos (ps : list pat) (body : expr) (caps : list (string * val)) (self : string)
                                                            (* boolean.rs:313 *)
  | VFn (p : list string)                                   (* src/set/storage/option.rs:171 *)
  | VGiven (k : nat)                                        (* boolean.rs:289 *)
  | VForeign (x : X).                                       (* src/map/storage/option.rs:75 *)

  (** What the surroundings are asked: a closure of the user, with its arguments and what
      references among them point to (boolean.rs:294); to drop a value (boolean.rs:307), to
      clone one or to compare two (boolean.rs:73); a function of a foreign type
      (src/map/storage/hashbrown.rs:169), a method of a foreign value, with its place, the
      arguments and the store (src/map/storage/option.rs:275); what is at a reference into a
      foreign value, or to change it (src/map/entry.rs:103). *)
  Inductive question : Type :=
  | QGiven (k : nat) (args : list (val * option val))
  | QDrop (v : V)
  | QClone (v : V)
  | QEq (a b : V)
  | QPath (p : list string) (args : list val)
  | QMethod (x : X) (p : place) (m : string) (args : list (val * option val)) (cs : list val)
  | QLoad (x : X) (r : ref)
  | QStore (x : X) (r : ref) (v : V).

  (** The ways in which running something ends: a value, [return], a panic that unwinds,
      undefined behaviour, a leak; [CAsk] a question that has no answer yet, [CStuck] an
      error of the program, [CFuel] that it has not ended yet. *)
  Inductive ctl (A : Type) : Type :=
  | CVal (a : A) | CRet (v : val) | CUnwound | CUB | CLeak | CAsk (q : question) | CStuck | CFuel.
  Arguments CVal {A}.
  Arguments CRet {A}.
  Arguments CUnwound {A}.
  Arguments CUB {A}.
  Arguments CLeak {A}.
  Arguments CAsk {A}.
  Arguments CStuck {A}.
  Arguments CFuel {A}.

  (** The answer to a question: what the call ends with, the places that it writes, and new
      cells that its value may refer to (boolean.rs:294). *)
  Record reply : Type := MkReply {
    r_end : ctl val;
    r_writes : list (place * val);
    r_new : list val
  }.

  (** The store, and the answers that have not been used (boolean.rs:289-303). *)
  Record rt : Type := MkRt { cells : list val; script : list reply }.

  (** Something to run (boolean.rs:234-370). *)
  Definition run (A : Type) : Type := rt -> ctl A * rt.

  (** One after the other (boolean.rs:293-302). *)
  Definition seq {A B} (m : run A) (f : A -> run B) : run B := fun t =>
    match m t with
    | (CVal a, t') => f a t'
    | (CRet v, t') => (CRet v, t')
    | (CUnwound, t') => (CUnwound, t')
    | (CUB, t') => (CUB, t')
    | (CLeak, t') => (CLeak, t')
    | (CAsk q, t') => (CAsk q, t')
    | (CStuck, t') => (CStuck, t')
    | (CFuel, t') => (CFuel, t')
    end.
  (** Nothing to run (boolean.rs:98). *)
  Definition done {A} (a : A) : run A := fun t => (CVal a, t).
  (** An end of its own (boolean.rs:98). *)
  Definition end_with {A} (c : ctl A) : run A := fun t => (c, t).
  Local Notation "x <- p ;; q" := (seq p (fun x => q)) (at level 61, p at next level, right associativity).
  Local Notation "p ;; q" := (seq p (fun _ => q)) (at level 61, right associativity).

  (** A value that has to be there (boolean.rs:96). *)
  Definition have {A} (o : option A) : run A :=
    match o with Some a => done a | None => end_with CStuck end.
  (** One after the other for a list (boolean.rs:244). *)
  Fixpoint each {A B} (f : A -> run B) (l : list A) : run (list B) :=
    match l with
    | [] => done []
    | a :: r => b <- f a;; l <- each f r;; done (b :: l)
    end.

  (** Some values of std (boolean.rs:98, 112). *)
  Definition unit_ : val := VData "()" "" [].
  (** See [unit_]. *)
  Definition pair_ (a b : val) : val := VData "()" "" [("0", a); ("1", b)].
  (** See [unit_] (boolean.rs:98). *)
  Definition none_ : val := VData "Option" "None" [].
  (** See [unit_] (boolean.rs:98). *)
  Definition some_ (v : val) : val := VData "Option" "Some" [("0", v)].
  (** See [unit_] (boolean.rs:98). *)
  Definition option_ (o : option val) : val := match o with Some v => some_ v | None => none_ end.

  (** Asking the surroundings (boolean.rs:294). *)
  Definition asking (q : question) : run reply := fun t =>
    match script t with
    | [] => (CAsk q, t)
    | r :: l => (CVal r, MkRt (cells t) l)
    end.

  (** * Places *)

  (** A part of a value: it is there, or it is inside a foreign value, or there is no such
      part (boolean.rs:96). *)
  Inductive found : Type :=
  | Here (v : val)
  | Inside (x : X) (r : ref)
  | Nowhere.
  (** Reading a part of a value (boolean.rs:96). *)
  Fixpoint get_at (v : val) (p : list step) : found :=
    match p with
    | [] => Here v
    | Fld f :: q =>
        match v with
        | VData _ _ l => match find_name f l with Some x => get_at x q | None => Nowhere end
        | _ => Nowhere
        end
    | [Into r] => match v with VForeign x => Inside x r | _ => Nowhere end
    | Into _ :: _ => Nowhere
    end.
  (** Writing a part of a value; a foreign value is replaced as a whole (boolean.rs:97). *)
  Fixpoint set_at (v : val) (p : list step) (n : val) : option val :=
    match p with
    | [] => Some n
    | Fld f :: q =>
        match v with
        | VData ty c l =>
            match find_name f l with
            | Some x =>
                match set_at x q n with
                | Some y => option_map (VData ty c) (put_name f y l)
                | None => None
                end
            | None => None
            end
        | _ => None
        end
    | [Into _] => Some n
    | Into _ :: _ => None
    end.

  (** Reading a place (boolean.rs:96). *)
  Definition load (p : place) : run val := fun t =>
    match nth_error (cells t) (p_cell p) with
    | Some v =>
        match get_at v (p_path p) with
        | Here x => (CVal x, t)
        | Inside x r => (a <- asking (QLoad x r);; end_with (r_end a)) t
        | Nowhere => (CStuck, t)
        end
    | None => (CStuck, t)
    end.
  (** Writing a place as it is (boolean.rs:97). *)
  Definition put_at (p : place) (n : val) : run unit := fun t =>
    match nth_error (cells t) (p_cell p) with
    | Some v =>
        match set_at v (p_path p) n with
        | Some v' =>
            match put_nth (p_cell p) v' (cells t) with
            | Some c => (CVal tt, MkRt c (script t))
            | None => (CStuck, t)
            end
        | None => (CStuck, t)
        end
    | None => (CStuck, t)
    end.
  (** Writing a place (boolean.rs:97). *)
  Definition store (p : place) (n : val) : run unit := fun t =>
    match nth_error (cells t) (p_cell p) with
    | Some v =>
        match get_at v (p_path p), n with
        | Inside x r, VUser w => (a <- asking (QStore x r w);; y <- end_with (r_end a);; put_at p y) t
        | Here _, _ => put_at p n t
        | _, _ => (CStuck, t)
        end
    | None => (CStuck, t)
    end.
  (** A new cell (boolean.rs:313). *)
  Definition alloc (v : val) : run nat := fun t =>
    (CVal (List.length (cells t)), MkRt (cells t ++ [v])%list (script t)).

  (** Following references to what is not one (boolean.rs:96: [self.bits]). *)
  Fixpoint resolve (n : nat) (p : place) : run (place * val) :=
    v <- load p;;
    match v, n with
    | VRef q, S n => resolve n q
    | VRef _, 0 => end_with CStuck
    | _, _ => done (p, v)
    end.
  (** Enough for the references in the files that are run (src/option_bucket.rs:166). *)
  Definition depth : nat := 5.

  (** * Effects on the surroundings *)

  (** An answer: what it writes is stored before the call ends (boolean.rs:294). *)
  Definition take (a : reply) : run val :=
    each alloc (r_new a);; each (fun e => store (fst e) (snd e)) (r_writes a);; end_with (r_end a).

  (** The values of the user that a value owns, in the order of its parts (boolean.rs:74-77).
      Simplification: those of foreign values are left out. *)
  Fixpoint owned (v : val) : list V :=
    match v with
    | VUser x => [x]
    | VData _ _ l =>
        (fix go (l : list (string * val)) : list V :=
           match l with
           | [] => []
           | (_, v) :: r => (owned v ++ go r)%list
           end) l
    | _ => []
    end.
  (** Dropping them, also after one unwinds (boolean.rs:307-308; see [then_drop]). *)
  Fixpoint drop_all (l : list V) (unwound : bool) : run unit :=
    match l with
    | [] => if unwound then end_with CUnwound else done tt
    | v :: r =>
        a <- asking (QDrop v);;
        drop_all r (match r_end a with CVal _ => unwound | _ => true end)
    end.
  (** See [drop_all]. *)
  Definition dropping (v : val) : run unit := drop_all (owned v) false.

  (** Arguments with what references point to (boolean.rs:294). *)
  Definition looked_at (args : list val) : run (list (val * option val)) :=
    each (fun v => match v with
                   | VRef p => x <- load p;; done (v, Some x)
                   | _ => done (v, None)
                   end) args.
  (** A closure of the user (boolean.rs:294). *)
  Definition given (k : nat) (args : list val) : run val :=
    l <- looked_at args;; a <- asking (QGiven k l);; take a.
  (** A method of a foreign value (src/map/storage/option.rs:275). *)
  Definition foreign (x : X) (p : place) (m : string) (args : list val) : run val :=
    l <- looked_at args;;
    fun t => (a <- asking (QMethod x p m l (cells t));; take a) t.

  Variable prog : list item.

  (** * What the program declares *)

  (** Name of a function (boolean.rs:234). *)
  Definition fn_name (f : fn) : string := match f with Fn x _ _ _ => x end.
  (** One of several functions (boolean.rs:194-370). *)
  Definition fn_in (m : string) (l : list fn) : option fn :=
    find (fun f => String.eqb m (fn_name f)) l.
  (** The first result (boolean.rs:194-370). *)
  Fixpoint first_of {A B} (f : A -> option B) (l : list A) : option B :=
    match l with
    | [] => None
    | a :: r => match f a with Some b => Some b | None => first_of f r end
    end.
  (** An associated function: inherent ones come first (src/option_bucket.rs:113-297). *)
  Definition find_fn (ty m : string) : option fn :=
    match first_of (fun i => match i with
                             | IImpl None t l => if String.eqb t ty then fn_in m l else None
                             | _ => None
                             end) prog with
    | Some f => Some f
    | None =>
        first_of (fun i => match i with
                           | IImpl (Some _) t l => if String.eqb t ty then fn_in m l else None
                           | _ => None
                           end) prog
    end.
  (** A function of a trait (src/option_bucket.rs:264-297). *)
  Definition find_in_trait (tr ty m : string) : option fn :=
    first_of (fun i => match i with
                       | IImpl (Some tr') t l =>
                           if String.eqb tr tr' && String.eqb t ty then fn_in m l else None
                       | _ => None
                       end) prog.
  (** A function without a type (src/set/storage/boolean.rs:187). *)
  Definition find_free (m : string) : option fn :=
    first_of (fun i => match i with
                       | IFn f => if String.eqb m (fn_name f) then Some f else None
                       | _ => None
                       end) prog.
  (** A constant (boolean.rs:11). *)
  Definition find_const (x : string) : option expr :=
    first_of (fun i => match i with
                       | IConst y e => if String.eqb x y then Some e else None
                       | _ => None
                       end) prog.
  (** A struct: what it derives, and its fields (boolean.rs:73-77). *)
  Definition find_struct (x : string) : option (list string * list string) :=
    first_of (fun i => match i with
                       | IStruct y ds fs => if String.eqb x y then Some (ds, fs) else None
                       | _ => None
                       end) prog.
  (** A variant of an enum: its type, its name, and whether it holds something
      (boolean.rs:360; [Some], [None], [Ok], [Err] need no type, boolean.rs:98, src/map.rs:1451). *)
  Definition find_variant (p : list string) : option (string * string * bool) :=
    let of ty c :=
      first_of (fun i => match i with
                         | IEnum y l =>
                             if String.eqb y ty then option_map (fun b => (ty, c, b)) (find_name c l)
                             else None
                         | _ => None
                         end) prog in
    match p with
    | [c] => match of "Option" c with Some r => Some r | None => of "Result" c end
    | [ty; c] => of ty c
    | _ => None
    end.
  (** Whether a struct derives a trait; its fields (boolean.rs:73). *)
  Definition derives (tr ty : string) : option (list string) :=
    match find_struct ty with
    | Some (ds, fs) => if existsb (String.eqb tr) ds then Some fs else None
    | None => None
    end.

  (** Names in scope, and what [Self] is (boolean.rs:227). *)
  Record scope : Type := MkScope { sc_names : list (string * nat); sc_self : string }.
  (** A path with [Self] replaced (boolean.rs:227). *)
  Definition with_self (sc : scope) (p : list string) : list string :=
    match p with
    | "Self" :: r => sc_self sc :: r
    | _ => p
    end.

  (** * Patterns *)

  (** Fields of a pattern (boolean.rs:359, src/macro_support.rs:45). *)
  Fixpoint nums (k : nat) (l : list pat) : list (string * pat) :=
    let names := ["0"; "1"; "2"; "3"] in
    match l with
    | [] => []
    | p :: r => (nth k names "", p) :: nums (S k) r
    end.

  (** Matching: the names that are bound, or [None] if the pattern does not match.  What
      is matched through a reference is bound by reference (src/map/storage/option.rs:149). *)
  Fixpoint matches (n : nat) (p : pat) (v : val) : run (option (list (string * val))) :=
    match n with
    | 0 => end_with CFuel
    | S n =>
        let fields (l : list pat) (sub : string -> run val) : run (option (list (string * val))) :=
          (fix go (l : list (string * pat)) : run (option (list (string * val))) :=
             match l with
             | [] => done (Some [])
             | (f, p) :: r =>
                 x <- sub f;; a <- matches n p x;;
                 match a with
                 | None => done None
                 | Some a =>
                     b <- go r;;
                     done (option_map (fun b => a ++ b)%list b)
                 end
             end) (nums 0 l) in
        let data (ty : string) (c : option string) (l : list pat) :=
          let right ty' c' :=
            (String.eqb ty ty' && match c with Some c => String.eqb c c' | None => true end)%bool in
          match v with
          | VRef q =>
              w <- resolve depth q;;
              match w with
              | (q, VData ty' c' _) =>
                  if right ty' c' then fields l (fun f => done (VRef (part q (Fld f)))) else done None
              | _ => end_with CStuck
              end
          | VData ty' c' fs =>
              if right ty' c' then fields l (fun f => have (find_name f fs)) else done None
          | _ => end_with CStuck
          end in
        match p with
        | PWild => done (Some [])
        | PName x => done (Some [(x, v)])
        | PRef p =>
            match v with
            | VRef q => x <- load q;; matches n p x
            | _ => end_with CStuck
            end
        | PTup l => data "()" None l
        | PCtor path l =>
            match find_variant path with
            | Some (ty, c, _) => data ty (Some c) l
            | None => end_with CStuck
            end
        end
    end.
  (** Enough for the patterns in the files that are run (boolean.rs:359). *)
  Definition pattern_depth : nat := 5.

  (** The names get cells (boolean.rs:293). *)
  Fixpoint binding (l : list (string * val)) (sc : scope) : run scope :=
    match l with
    | [] => done sc
    | (x, v) :: r =>
        c <- alloc v;; binding r (MkScope ((x, c) :: sc_names sc) (sc_self sc))
    end.
  (** A pattern that has to match (boolean.rs:313). *)
  Definition bind_pat (p : pat) (v : val) (sc : scope) : run scope :=
    o <- matches pattern_depth p v;;
    match o with
    | Some l => binding l sc
    | None => end_with CStuck
    end.
  (** Several of them (boolean.rs:244). *)
  Fixpoint bind_pats (ps : list pat) (vs : list val) (sc : scope) : run scope :=
    match ps, vs with
    | [], [] => done sc
    | p :: ps, v :: vs => sc <- bind_pat p v sc;; bind_pats ps vs sc
    | _, _ => end_with CStuck
    end.

  (** * Operators *)

  (** On numbers and booleans (boolean.rs:96, 240, src/map/storage/option.rs:263).  [!] is
      the one of [u8]. *)
  Definition bin_op (op : string) (a b : val) : option val :=
    match op, a, b with
    | "&", VNum x, VNum y => Some (VNum (Nat.land x y))
    | "|", VNum x, VNum y => Some (VNum (Nat.lor x y))
    | "+", VNum x, VNum y => Some (VNum (x + y))
    | "<=", VNum x, VNum y => Some (VBool (Nat.leb x y))
    | _, _, _ => None
    end.
  (** See [bin_op] (boolean.rs:97, 294). *)
  Definition not_op (a : val) : option val :=
    match a with
    | VBool b => Some (VBool (negb b))
    | VNum x => Some (VNum (Nat.lxor x 255))
    | _ => None
    end.
  (** Methods of numbers (boolean.rs:111, 235). *)
  Definition num_method (m : string) (x : nat) (l : list val) : option val :=
    match m, l with
    | "count_ones", [] => Some (VNum (count_ones (N.of_nat x)))
    | "saturating_add", [VNum y] => Some (VNum (x + y))
    | "checked_add", [VNum y] => Some (some_ (VNum (x + y)))
    | _, _ => None
    end.

  (** * The interpreter *)

  (** End of a function (boolean.rs:98). *)
  Definition returning (m : run val) : run val := fun t =>
    match m t with
    | (CRet v, t') => (CVal v, t')
    | r => r
    end.

  (** The cells of one round of a loop are gone after it (src/map.rs:1379). *)
  Definition scoped {A} (m : run A) : run A := fun t =>
    match m t with
    | (CVal a, t') => (CVal a, MkRt (firstn (List.length (cells t)) (cells t')) (script t'))
    | r => r
    end.

  Definition as_bool (v : val) : run bool :=
    match v with VBool b => done b | _ => end_with CStuck end.

  Fixpoint eval (n : nat) (sc : scope) (e : expr) : run val :=
    match n with
    | 0 => end_with CFuel
    | S n =>
        match e with
        | EPath p =>
            let p := with_self sc p in
            match p with
            | [x] =>
                match find_name x (sc_names sc), find_const x with
                | Some c, _ => load (At c [])
                | None, Some e => eval n sc e
                | None, None =>
                    match find_variant p with
                    | Some (ty, c, false) => done (VData ty c [])
                    | _ => done (VFn p)
                    end
                end
            | _ =>
                match find_variant p with
                | Some (ty, c, false) => done (VData ty c [])
                | _ => done (VFn p)
                end
            end
        | EBool b => done (VBool b)
        | ENum k => done (VNum (N.to_nat k))
        | EStr x => done (VStr x)
        | ETup l =>
            vs <- each (eval n sc) l;;
            done (VData "()" "" (combine ["0"; "1"; "2"; "3"] vs))
        | EField _ _ => p <- at_place n sc e;; load p
        | ECall f l =>
            match f with
            | EPath p =>
                let p := with_self sc p in
                match p with
                | [x] =>
                    match find_name x (sc_names sc) with
                    | Some c =>
                        v <- load (At c []);; vs <- each (eval n sc) l;; apply n v vs
                    | None => vs <- each (eval n sc) l;; call_path n p vs
                    end
                | _ => vs <- each (eval n sc) l;; call_path n p vs
                end
            | _ => v <- eval n sc f;; vs <- each (eval n sc) l;; apply n v vs
            end
        | EMethod e m l =>
            p <- at_place n sc e;; vs <- each (eval n sc) l;; method n p m vs
        | EMacro "debug_assert" (c :: _) =>
            v <- eval n sc c;; b <- as_bool v;; if b then done unit_ else end_with CUB
        | EMacro _ _ => end_with CStuck
        | EUnary "!" e => v <- eval n sc e;; have (not_op v)
        | EUnary "*" _ => p <- at_place n sc e;; load p
        | EUnary "&" e => p <- at_place n sc e;; done (VRef p)
        | EUnary _ _ => end_with CStuck
        | EBinary "&&" a b =>
            v <- eval n sc a;; x <- as_bool v;; if x then eval n sc b else done (VBool false)
        | EBinary "||" a b =>
            v <- eval n sc a;; x <- as_bool v;; if x then done (VBool true) else eval n sc b
        | EBinary "==" a b =>
            p <- at_place n sc a;; q <- at_place n sc b;; x <- same n p q;; done (VBool x)
        | EBinary "!=" a b =>
            p <- at_place n sc a;; q <- at_place n sc b;; x <- same n p q;; done (VBool (negb x))
        | EBinary op a b => v <- eval n sc a;; w <- eval n sc b;; have (bin_op op v w)
        | EAssign "=" a b =>
            v <- eval n sc b;; p <- at_place n sc a;; old <- load p;;
            store p v;; dropping old;; done unit_
        | EAssign op a b =>
            v <- eval n sc b;; p <- at_place n sc a;; old <- load p;;
            r <- have (bin_op (match op with "&=" => "&" | "|=" => "|" | _ => "" end) old v);;
            store p r;; done unit_
        | EIf c a b =>
            v <- eval n sc c;; x <- as_bool v;; eval n sc (if x then a else b)
        | EIfLet p e a b =>
            v <- eval n sc e;; o <- matches pattern_depth p v;;
            match o with
            | Some l => sc <- binding l sc;; eval n sc a
            | None => eval n sc b
            end
        | EMatch e l =>
            v <- eval n sc e;;
            (fix arms (l : list (pat * expr)) : run val :=
               match l with
               | [] => end_with CStuck
               | (p, e) :: r =>
                   o <- matches pattern_depth p v;;
                   match o with
                   | Some l => sc <- binding l sc;; eval n sc e
                   | None => arms r
                   end
               end) l
        | EBlock l =>
            (fix go (l : list stmt) (sc : scope) : run val :=
               match l with
               | [] => done unit_
               | SLet p e :: r => v <- eval n sc e;; sc <- bind_pat p v sc;; go r sc
               | [STail e] => eval n sc e
               | SSemi e :: r | STail e :: r => eval n sc e;; go r sc
               | SItem _ :: r => go r sc
               end) l sc
        | EClosure ps e =>
            caps <- each (fun x => match find_name x (sc_names sc) with
                                   | Some c => v <- load (At c []);; done [(x, v)]
                                   | None => done []
                                   end) (mentions 20 e);;
            done (VClos ps e (List.concat caps) (sc_self sc))
        | EStruct p l base =>
            let ty := last (with_self sc p) "" in
            vs <- each (fun a => v <- eval n sc (snd a);; done (fst a, v)) l;;
            rest <- match base with
                    | None => done []
                    | Some e =>
                        v <- eval n sc e;;
                        match v with VData _ _ fs => done fs | _ => end_with CStuck end
                    end;;
            match find_struct ty with
            | Some (_, fs) =>
                vs <- each (fun f => v <- have (find_name f (vs ++ rest)%list);; done (f, v)) fs;;
                done (VData ty "" vs)
            | None => end_with CStuck
            end
        | EReturn None => end_with (CRet unit_)
        | EReturn (Some e) => v <- eval n sc e;; end_with (CRet v)
        | ELoop b => scoped (eval n sc b);; eval n sc e
        | EWhileLet p c b =>
            again <- scoped (v <- eval n sc c;; o <- matches pattern_depth p v;;
                             match o with
                             | Some l => sc' <- binding l sc;; eval n sc' b;; done true
                             | None => done false
                             end);;
            if again then eval n sc e else done unit_
        | EFor p i b =>
            q <- at_place n sc i;; it <- looping n q;; c <- alloc it;;
            over n sc p b c
        | EQuestion e =>
            v <- eval n sc e;;
            match v with
            | VData "Option" "Some" [(_, x)] => done x
            | VData "Option" "None" _ => end_with (CRet v)
            | VData "Result" "Ok" [(_, x)] => done x
            | VData "Result" "Err" _ => end_with (CRet v)
            | _ => end_with CStuck
            end
        end
    end
  (** What a [for] loop goes over: references have an impl of their own (src/map.rs:1332, 1399). *)
  with looping (n : nat) (q : place) : run val :=
    match n with
    | 0 => end_with CFuel
    | S n =>
        v <- load q;;
        match v with
        | VRef r =>
            w <- load r;;
            match w with
            | VData ty _ _ =>
                match find_in_trait "IntoIterator" ("&" ++ ty) "into_iter" with
                | Some f => call_fn n ("&" ++ ty) f [v]
                | None => method n q "into_iter" []
                end
            | _ => method n q "into_iter" []
            end
        | _ => method n q "into_iter" []
        end
    end
  (** The rounds of a [for] loop (src/map.rs:1379). *)
  with over (n : nat) (sc : scope) (p : pat) (b : expr) (c : nat) : run val :=
    match n with
    | 0 => end_with CFuel
    | S n =>
        again <- scoped (x <- method n (At c []) "next" [];;
                         match x with
                         | VData "Option" "Some" [(_, x)] => sc' <- bind_pat p x sc;; eval n sc' b;; done true
                         | _ => done false
                         end);;
        if again then over n sc p b c else done unit_
    end
  (** The place of an expression; a temporary one if it has none (boolean.rs:96, 235). *)
  with at_place (n : nat) (sc : scope) (e : expr) : run place :=
    match n with
    | 0 => end_with CFuel
    | S n =>
        let temporary := v <- eval n sc e;; c <- alloc v;; done (At c []) in
        match e with
        | EPath [x] =>
            match find_name x (sc_names sc) with
            | Some c => done (At c [])
            | None => temporary
            end
        | EField e f =>
            p <- at_place n sc e;; q <- resolve depth p;; done (part (fst q) (Fld f))
        | EUnary "*" e =>
            v <- eval n sc e;;
            match v with VRef p => done p | _ => end_with CStuck end
        | _ => temporary
        end
    end
  (** Calling a function of the program (boolean.rs:152, 157, 226). *)
  with call_fn (n : nat) (self : string) (f : fn) (args : list val) : run val :=
    match n with
    | 0 => end_with CFuel
    | S n =>
        match f with
        | Fn _ r ps body =>
            returning
              (match r, args with
               | NoSelf, _ => sc <- bind_pats ps args (MkScope [] self);; eval n sc body
               | _, a :: args =>
                   c <- alloc a;; sc <- bind_pats ps args (MkScope [("self", c)] self);;
                   eval n sc body
               | _, [] => end_with CStuck
               end)
        end
    end
  (** Calling a path (boolean.rs:228, 359-360, src/option_bucket.rs:237); a tuple struct is
      called like a function (src/map.rs:1456); a method of a foreign
      value can be called in this way as well (src/map.rs:833). *)
  with call_path (n : nat) (p : list string) (args : list val) : run val :=
    match n with
    | 0 => end_with CFuel
    | S n =>
        match find_variant p with
        | Some (ty, c, true) => done (VData ty c (combine ["0"; "1"; "2"; "3"] args))
        | _ =>
            match p, args with
            | ["mem"; "replace"], [VRef q; v] => old <- load q;; store q v;; done old
            | ["hint"; "unreachable_unchecked"], [] => end_with CUB
            | [f], _ =>
                match find_free f with
                | Some f => call_fn n "" f args
                | None =>
                    match find_struct f with
                    | Some _ => done (VData f "" (combine ["0"; "1"; "2"; "3"] args))
                    | None => a <- asking (QPath p args);; take a
                    end
                end
            | _, _ =>
                match (match p with [ty; f] => option_map (pair ty) (find_fn ty f) | _ => None end), args with
                | Some (ty, f), _ => call_fn n ty f args
                | None, VRef q :: rest =>
                    r <- resolve depth q;;
                    match r with
                    | (q, VForeign x) => foreign x q (last p "") rest
                    | _ => a <- asking (QPath p args);; take a
                    end
                | None, _ => a <- asking (QPath p args);; take a
                end
            end
        end
    end
  (** Calling a value (boolean.rs:294). *)
  with apply (n : nat) (f : val) (args : list val) : run val :=
    match n with
    | 0 => end_with CFuel
    | S n =>
        match f with
        | VClos ps body caps self =>
            returning
              (sc <- binding caps (MkScope [] self);; sc <- bind_pats ps args sc;; eval n sc body)
        | VFn p => call_path n p args
        | VGiven k => given k args
        | VRef p => v <- load p;; apply n v args
        | _ => end_with CStuck
        end
    end
  (** Calling a method (boolean.rs:235, 246, 313-317). *)
  with method (n : nat) (p : place) (m : string) (args : list val) : run val :=
    match n with
    | 0 => end_with CFuel
    | S n =>
        let call ty (f : fn) q v :=
          match f with
          | Fn _ SelfRef _ _ => call_fn n ty f (VRef q :: args)
          | Fn _ SelfValue _ _ => call_fn n ty f (v :: args)
          | Fn _ NoSelf _ _ => end_with CStuck
          end in
        match m, args with
        | "clone", [] =>
            v <- load p;; copy n (match v with VRef q => q | _ => p end)
        | "eq", [VRef q] => x <- same n p q;; done (VBool x)
        | "write", [x] =>
            v <- load p;;
            match v with
            | VRef q =>
                old <- load q;;
                match owned old with
                | [] => store q x;; done unit_
                | _ => end_with CLeak
                end
            | _ => end_with CStuck
            end
        | _, _ =>
            r <- resolve depth p;;
            let (q, v) := r in
            let other :=
              match find_fn "Any" m with
              | Some f => call "Any" f q v
              | None => end_with CStuck
              end in
            match v with
            | VForeign x =>
                match find_in_trait "Iterator" "Any" m with
                | Some f => call "Any" f q v
                | None => foreign x q m args
                end
            | VNum k => have (num_method m k args)
            | VBool _ => match find_fn "bool" m with Some f => call "bool" f q v | None => end_with CStuck end
            | VData ty _ _ => match find_fn ty m with Some f => call ty f q v | None => other end
            | _ => end_with CStuck
            end
        end
    end
  (** [Clone::clone] of what is at a place (boolean.rs:73, 86). *)
  with copy (n : nat) (p : place) : run val :=
    match n with
    | 0 => end_with CFuel
    | S n =>
        v <- load p;;
        let parts ty c fs :=
          l <- each (fun f => x <- copy n (part p (Fld f));; done (f, x)) fs;; done (VData ty c l) in
        match v with
        | VUser x => a <- asking (QClone x);; take a
        | VForeign x => foreign x p "clone" []
        | VData "()" _ l => parts "()" "" (map fst l)
        | VData ty _ l =>
            match find_fn ty "clone", derives "Clone" ty with
            | Some f, _ => call_fn n ty f [VRef p]
            | None, Some fs => parts ty "" fs
            | None, None => end_with CStuck
            end
        | _ => done v
        end
    end
  (** [PartialEq::eq] of what is at two places (boolean.rs:73, src/map/storage/option.rs:111). *)
  with same (n : nat) (p q : place) : run bool :=
    match n with
    | 0 => end_with CFuel
    | S n =>
        a <- resolve depth p;; b <- resolve depth q;;
        let parts fs :=
          (fix go (fs : list string) : run bool :=
             match fs with
             | [] => done true
             | f :: r =>
                 x <- same n (part (fst a) (Fld f)) (part (fst b) (Fld f));;
                 if x then go r else done false
             end) fs in
        match snd a, snd b with
        | VBool x, VBool y => done (Bool.eqb x y)
        | VNum x, VNum y => done (Nat.eqb x y)
        | VUser x, VUser y => a <- asking (QEq x y);; v <- take a;; as_bool v
        | VForeign x, VForeign _ =>
            v <- foreign x (fst a) "eq" [VRef (fst b)];; as_bool v
        | VData "()" _ l, VData _ _ _ => parts (map fst l)
        | VData ty _ _, VData _ _ _ =>
            match find_fn ty "eq", derives "PartialEq" ty with
            | Some f, _ => v <- call_fn n ty f [VRef (fst a); VRef (fst b)];; as_bool v
            | None, Some fs => parts fs
            | None, None => end_with CStuck
            end
        | _, _ => end_with CStuck
        end
    end.

  (** * Answers *)

  (** Running something with the store [cs], asking the surroundings [s] whenever there is a
      question, up to [m] times: the end, the store and the surroundings then
      (boolean.rs:289-303). *)
  Fixpoint drive {S A} (answer : question -> S -> S * reply) (act : run A) (cs : list val)
    (m : nat) (sofar : list reply) (s : S) : ctl A * list val * S :=
    match act (MkRt cs sofar) with
    | (CAsk q, t) =>
        match m with
        | 0 => (CFuel, cells t, s)
        | Datatypes.S m => let '(s', r) := answer q s in drive answer act cs m (sofar ++ [r])%list s'
        end
    | (c, t) => (c, cells t, s)
    end.
End Run.
Arguments val : clear implicits.
Arguments ctl : clear implicits.
Arguments rt : clear implicits.
Arguments run : clear implicits.
Arguments question : clear implicits.
Arguments reply : clear implicits.
Arguments MkReply {V X}.
Arguments CVal {V X A}.
Arguments CRet {V X A}.
Arguments CUnwound {V X A}.
Arguments CUB {V X A}.
Arguments CLeak {V X A}.
Arguments CAsk {V X A}.
Arguments CStuck {V X A}.
Arguments CFuel {V X A}.
