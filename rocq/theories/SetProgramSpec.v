(** What a program that uses several sets should do, when every set is a list of elements
    (C67).  A bit set may besides have bits that stand for no element: [Set::from_raw]
    takes any integer. *)
Require Import List Arith NArith ZArith Bool Permutation.
Import ListNotations.
From Verif Require Import Std Traits Key Spec OrdSpec Api Reach Program SetProgram.

(** A set: its elements in the order of iteration, and the bits without an element. *)
Record content (T : Type) : Type := MkContent { els : list T; stray : N }.
Arguments MkContent {T}.
Arguments els {T}.
Arguments stray {T}.

(** The bits that are set in an integer of at most 128 bits. *)
Definition bits_in (n : N) : list nat :=
  filter (fun i => N.testbit n (N.of_nat i)) (seq 0 128).

(** The number of variants of an enum, and the position of a variant. *)
Definition declared (t : kty) : nat := match t with KEnum _ vs => variant_count vs | _ => 0 end.
Definition position (t : kty) : key t -> nat :=
  match t return key t -> nat with KEnum _ vs => variant_index vs | _ => fun _ => 0 end.

(** Enums whose sets are bit sets. *)
Definition bits (t : kty) : bool := match t with KEnum b vs => b && all_units vs | _ => false end.

(** The number of bits of the smallest unsigned integer type that has a bit for each
    variant. *)
Definition width (t : kty) (w : N) : Prop :=
  In w [8; 16; 32; 64; 128]%N /\ (N.of_nat (declared t) <= w)%N /\
  forall w', In w' [8; 16; 32; 64; 128]%N -> (N.of_nat (declared t) <= w')%N -> (w <= w')%N.

Section Reference.
  Context {S : Type} (t : kty).
  Notation T := (key t).
  Notation before := (key_before t).
  Variable keep : S -> T -> S * option bool.

  Notation set_t := (content T).
  Notation regs := (list (option set_t)).

  Definition no_stray (l : list T) : set_t := MkContent l 0.

  (** [has l] decides membership in [l]. *)
  Definition decides (has : T -> bool) (l : list T) : Prop := forall k, has k = true <-> In k l.

  (** What [len] says. *)
  Definition size (x : set_t) : nat := length (els x) + length (bits_in (stray x)).

  (** Inserting [k] into [l]; a hash table may put its elements in another order. *)
  Inductive inserted (l : list T) (k : T) : list T -> Prop :=
  | InsOld : In k l -> inserted l k l
  | InsNew l' : ~ In k l -> Permutation l' (k :: l) -> sorted_by before l' -> inserted l k l'.
  Inductive inserts : list T -> list T -> list T -> Prop :=
  | InsNone l : inserts l [] l
  | InsMore l k r l1 l2 : inserted l k l1 -> inserts l1 r l2 -> inserts l (k :: r) l2.

  (** [insert] tells whether the element was there for [bool] and [None], and whether it
      was not there for all others. *)
  Definition insert_tells (k : T) (there : bool) : bool :=
    match leaf_of t k with LBool | LNone => there | _ => negb there end.

  (** [vs] are the elements that the predicate of [retain] is asked about: those of [l],
      and every [()] even if it is absent. *)
  Definition visits (l : list T) (has : T -> bool) (vs : list T) : Prop :=
    NoDup vs /\ sorted_by before vs /\ (forall k, In k vs <-> In k l \/ leaf_of t k = LUnit) /\
    filter has vs = l.

  (** The integer of a bit set: the bits of its elements and the stray ones. *)
  Definition numbered (x : set_t) (n : N) : Prop :=
    forall i, N.testbit n i = true <->
      (exists k, In k (els x) /\ i = N.of_nat (position t k)) \/ N.testbit (stray x) i = true.

  (** The order of two sets: by their elements, or for bit sets by their integers. *)
  Inductive ordered_as (x y : set_t) : comparison -> Prop :=
  | OrdList c vs : t = KEnum false vs -> all_units vs = true ->
      lex (fun a b => Some (Nat.compare (position t a) (position t b))) (els x) (els y) = Some c ->
      ordered_as x y c
  | OrdUnit c : t = KUnit -> Nat.compare (length (els x)) (length (els y)) = c -> ordered_as x y c
  | OrdBits n n' : bits t = true -> numbered x n -> numbered y n' ->
      ordered_as x y (N.compare n n').

  (** Sets have an order and a hash. *)
  Definition orderable : Prop := unit_enum t = true \/ t = KUnit.

  (** What is written to a hasher: a [bool]; the number of variants, then a [bool] for
      each; or the integer. *)
  Inductive hashed (x : set_t) : list Z -> Prop :=
  | HashUnit (b : bool) : t = KUnit -> (b = true <-> els x <> []) ->
      hashed x [if b then 1 else 0]%Z
  | HashList vs : t = KEnum false vs -> all_units vs = true ->
      hashed x (Z.of_nat (declared t) ::
        map (fun i => if existsb (fun k => Nat.eqb (position t k) i) (els x) then 1 else 0)%Z
            (seq 0 (declared t)))
  | HashBits n : bits t = true -> numbered x n -> hashed x [Z.of_N n].

  (** A statement about one set only. *)
  Inductive pdoes_one : pstmt T -> S -> set_t -> S -> set_t -> told T -> Prop :=
  | PdLen a s x : pdoes_one (PLen a) s x s x (TNum (size x))
  | PdIsEmpty a s x b :
      (b = true <-> (forall k, In k (els x) <-> leaf_of t k = LNone) /\ stray x = 0%N) ->
      pdoes_one (PIsEmpty a) s x s x (TTruth b)
  | PdContains a k s x has : decides has (els x) ->
      pdoes_one (PContains a k) s x s x (TTruth (has k))
  | PdInsert a k s x l has : decides has (els x) -> inserted (els x) k l ->
      pdoes_one (PInsert a k) s x s (MkContent l (stray x)) (TTruth (insert_tells k (has k)))
  | PdRemove a k s x l1 l2 : els x = l1 ++ k :: l2 -> ~ In k (l1 ++ l2) ->
      pdoes_one (PRemove a k) s x s (MkContent (l1 ++ l2) (stray x)) (TTruth true)
  | PdRemoveNone a k s x b : ~ In k (els x) ->
      (b = true <-> exists k', sibling t k = Some k' /\ In k' (els x)) ->
      pdoes_one (PRemove a k) s x s x (TTruth b)
  | PdClear a s x : pdoes_one (PClear a) s x s (no_stray []) TFine
  | PdRetain a s x has vs s' l : decides has (els x) -> visits (els x) has vs ->
      retain_undo (asks keep) (one_bitset t) has s vs = (s', l, None) ->
      pdoes_one (PRetain a) s x s' (no_stray l) TFine
  | PdRetainPanic a s x has vs s' l k : decides has (els x) -> visits (els x) has vs ->
      retain_undo (asks keep) (one_bitset t) has s vs = (s', l, Some k) ->
      pdoes_one (PRetain a) s x s' (MkContent l (stray x)) TPanicked
  | PdIter a ds s x : (In Back ds -> hash_free t = true) ->
      pdoes_one (PIter a ds) s x s x (TItems (fst (deque ds (els x))))
  | PdIterInvalid a ds s x : In Back ds -> hash_free t = false ->
      pdoes_one (PIter a ds) s x s x TInvalid
  | PdHash a s x l : hashed x l -> pdoes_one (PHash a) s x s x (TBytes l)
  | PdHashInvalid a s x : ~ orderable -> pdoes_one (PHash a) s x s x TInvalid
  | PdAsRaw a s x n : bits t = true -> numbered x n -> pdoes_one (PAsRaw a) s x s x (TBits n)
  | PdAsRawInvalid a s x : bits t = false -> pdoes_one (PAsRaw a) s x s x TInvalid.

  (** The elements of both sets, in the order of the one that has fewer. *)
  Definition common (x y : set_t) (l : list T) : Prop :=
    exists hx hy, decides hx (els x) /\ decides hy (els y) /\
      l = if size x <=? size y then filter hy (els x) else filter hx (els y).

  (** A statement that reads two sets. *)
  Inductive pdoes_two : pstmt T -> set_t -> set_t -> told T -> Prop :=
  | PdInter a b n x y l : common x y l ->
      pdoes_two (PInter a b n) x y (TItems (fst (deque (repeat Front n) l)))
  | PdEq a b x y c : (c = true <-> (forall k, In k (els x) <-> In k (els y)) /\ stray x = stray y) ->
      pdoes_two (PEq a b) x y (TTruth c)
  | PdCmp a b x y c : ordered_as x y c -> pdoes_two (PCmp a b) x y (TOrder c)
  | PdCmpInvalid a b x y : ~ orderable -> pdoes_two (PCmp a b) x y TInvalid
  | PdLess a b x y c : ordered_as x y c ->
      pdoes_two (PLess a b) x y (TTruth (match c with Lt => true | _ => false end))
  | PdLessInvalid a b x y : ~ orderable -> pdoes_two (PLess a b) x y TInvalid.

  (** The only variable of a statement about one set, and the two of a statement that
      reads two. *)
  Definition about_one (q : pstmt T) : option nat :=
    match q with
    | PLen a | PIsEmpty a | PContains a _ | PInsert a _ | PRemove a _ | PClear a | PRetain a
    | PIter a _ | PHash a | PAsRaw a => Some a
    | _ => None
    end.
  Definition about_two (q : pstmt T) : option (nat * nat) :=
    match q with
    | PInter a b _ | PEq a b | PCmp a b | PLess a b => Some (a, b)
    | _ => None
    end.

  (** The sets that statements put into a variable. *)
  Inductive makes : pstmt T -> regs -> nat -> set_t -> Prop :=
  | MkNew a w R : makes (PNew a w) R a (no_stray [])
  | MkCollect a w l R l' : inserts [] l l' -> makes (PCollect a w l) R a (no_stray l')
  | MkInters c w a b R x y l l' : var a R = Some x -> var b R = Some y -> common x y l ->
      inserts [] l l' -> makes (PCollectInter c w a b) R c (no_stray l')
  | MkRaw a r R w x : bits t = true -> width t w -> (r < 2 ^ w)%N ->
      NoDup (els x) -> sorted_by before (els x) ->
      (forall k, In k (els x) <-> N.testbit r (N.of_nat (position t k)) = true) ->
      (forall i, N.testbit (stray x) i = (N.of_nat (declared t) <=? i)%N && N.testbit r i) ->
      makes (PFromRaw a r) R a x
  | MkClone a b R x : var a R = Some x -> makes (PClone a b) R b x.

  (** A variable whose set is used by value: it can be used again if the set is [Copy],
      which is when no hash table is involved. *)
  Definition used_up (a : nat) (R : regs) : regs := if hash_free t then R else set_var a None R.

  (** What the compiler rejects. *)
  Inductive rejected (R : regs) : pstmt T -> Prop :=
  | RjOne q a : about_one q = Some a -> var a R = None -> rejected R q
  | RjTwo q a b : about_two q = Some (a, b) -> var a R = None \/ var b R = None -> rejected R q
  | RjNew a w : length R <= a -> rejected R (PNew a w)
  | RjCollect a w l : length R <= a -> rejected R (PCollect a w l)
  | RjInters c w a b : length R <= c \/ var a R = None \/ var b R = None ->
      rejected R (PCollectInter c w a b)
  | RjRaw a r : length R <= a \/ bits t = false \/ (exists w, width t w /\ (2 ^ w <= r)%N) ->
      rejected R (PFromRaw a r)
  | RjClone a b : var a R = None \/ length R <= b -> rejected R (PClone a b)
  | RjMove a b : var a R = None \/ length R <= b -> rejected R (PMove a b)
  | RjDrop a : var a R = None -> rejected R (PDrop a)
  | RjIntoIter a ds : var a R = None \/ (In Back ds /\ hash_free t = false) ->
      rejected R (PIntoIter a ds)
  | RjKeepIn a b : a = b \/ var a R = None \/ var b R = None -> rejected R (PKeepIn a b)
  | RjAddAll a b : a = b \/ var a R = None \/ var b R = None -> rejected R (PAddAll a b).

  (** One statement.  Variables it does not name stay what they are. *)
  Inductive pdoes : pstmt T -> S -> regs -> S -> regs -> told T -> Prop :=
  | PdRejected q s R : rejected R q -> pdoes q s R s R TInvalid
  | PdOne q a s R x s' x' y : about_one q = Some a -> var a R = Some x ->
      pdoes_one q s x s' x' y -> pdoes q s R s' (set_var a (Some x') R) y
  | PdTwo q a b s R x x' y : about_two q = Some (a, b) -> var a R = Some x -> var b R = Some x' ->
      pdoes_two q x x' y -> pdoes q s R s R y
  | PdMakes q s R a x : a < length R -> makes q R a x ->
      pdoes q s R s (set_var a (Some x) R) TFine
  | PdMove a b s R x : var a R = Some x -> b < length R ->
      pdoes (PMove a b) s R s (set_var b (Some x) (used_up a R)) TFine
  | PdDrop a s R x : var a R = Some x -> pdoes (PDrop a) s R s (used_up a R) TFine
  | PdIntoIter a ds s R x : var a R = Some x -> (In Back ds -> hash_free t = true) ->
      pdoes (PIntoIter a ds) s R s (used_up a R) (TItems (fst (deque ds (els x))))
  | PdKeepIn a b s R x y hx hy vs : a <> b -> var a R = Some x -> var b R = Some y ->
      decides hx (els x) -> decides hy (els y) -> visits (els x) hx vs ->
      pdoes (PKeepIn a b) s R s (set_var a (Some (no_stray (filter hy vs))) R) TFine
  | PdAddAll a b s R x y l : a <> b -> var a R = Some x -> var b R = Some y ->
      inserts (els x) (els y) l ->
      pdoes (PAddAll a b) s R s (set_var a (Some (MkContent l (stray x))) R) TFine.

  (** A program. *)
  Inductive pdoes_all : list (pstmt T) -> S -> regs -> S -> regs -> list (told T) -> Prop :=
  | PdEnd s R : pdoes_all [] s R s R []
  | PdStep q l s R s1 R1 x s2 R2 xs : pdoes q s R s1 R1 x ->
      pdoes_all l s1 R1 s2 R2 xs -> pdoes_all (q :: l) s R s2 R2 (x :: xs).
End Reference.

(** What a variable of the program holds: what iterating gives, and the bits without an
    element in the integer of a bit set. *)
Definition shows {t} (m : SetStorage (key t)) (st : ss_St m) (x : content (key t)) : Prop :=
  yields (ss_Iter m) (set_iter m st) (els x) /\
  match set_as_raw m with
  | Some f => forall i, N.testbit (stray x) i = (N.of_nat (declared t) <=? i)%N && N.testbit (f st) i
  | None => stray x = 0%N
  end.
Definition oshows {t} (m : SetStorage (key t)) (o : option (ss_St m)) (p : option (content (key t)))
  : Prop :=
  match o, p with
  | None, None => True
  | Some st, Some x => shows m st x
  | _, _ => False
  end.
