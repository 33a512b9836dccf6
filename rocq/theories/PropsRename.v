(** Property theorems: the same program over corresponding key types (C56). *)
Require Import List Arith NArith ZArith Bool Lia.
Import ListNotations.
From Verif Require Import Std Traits MapStorages SetStorages DeriveUnit DeriveAny Key Api Spec Reach
  History SetHistory StateSpec StateProofs FullSpec ComposeSpec ComposeProofs ComposeSets
  RenameSpec RenameProofs Samples.

(** * C56: renaming, reordering and regrouping keys *)

(** For key types with one-to-one values, a program that does not depend on the
    order of entries cannot tell which one it uses. *)
Theorem C56_map : forall t t' a b V (j : key t -> key t') i,
  derive t = Some a -> derive t' = Some b -> inverse j i ->
  forall w w' ops, Forall order_blind ops ->
  exists xs ys sa sb n0,
    (forall n, n0 <= n ->
       run_ops (ki_map a V) n (map_new (ki_map a V) w) ops = Ok (xs, sa) /\
       run_ops (ki_map b V) n (map_new (ki_map b V) w') (map (ren_op j i) ops) = Ok (ys, sb)) /\
    Forall2 same_result (map (ren_obs j) xs) ys /\
    (forall k, map_get (ki_map b V) sb (j k) = map_get (ki_map a V) sa k).
Proof.
  intros t t' a b V j i Da Db Inv.
  exact (renamed_map j i Inv (ki_map a V) (ki_map b V) (key_dec t) (builtin_acts t a V Da) (builtin_acts t' b V Db)).
Qed.
Print Assumptions C56_map.

(** The same for any key types at all whose storages act as maps. *)
Theorem C56_map_any : forall A B V (j : A -> B) i, inverse j i ->
  forall (ma : MapStorage A V) (mb : MapStorage B V), (forall a b : A, a = b \/ a <> b) ->
  acts_as_map ma -> acts_as_map mb ->
  forall w w' ops, Forall order_blind ops ->
  exists xs ys sa sb n0,
    (forall n, n0 <= n -> run_ops ma n (map_new ma w) ops = Ok (xs, sa) /\
                          run_ops mb n (map_new mb w') (map (ren_op j i) ops) = Ok (ys, sb)) /\
    Forall2 same_result (map (ren_obs j) xs) ys /\
    (forall k, map_get mb sb (j k) = map_get ma sa k).
Proof. intros A B V j i Inv. exact (renamed_map j i Inv). Qed.
Print Assumptions C56_map_any.

Theorem C56_set_any : forall A B (j : A -> B) i full (ma : SetStorage A) (mb : SetStorage B),
  inverse j i -> (forall a b : A, a = b \/ a <> b) -> acts_as_set full ma -> acts_as_set full mb ->
  forall w w' ops, Forall order_blind_set ops ->
  exists xs ys sa sb n0,
    (forall n, n0 <= n -> run_sops ma n (set_new ma w) ops = (xs, sa) /\
                          run_sops mb n (set_new mb w') (map (ren_sop j i) ops) = (ys, sb)) /\
    answer_alike full (map (ren_sop j i) ops) (map (ren_sobs j) xs) ys /\
    (forall k, set_contains mb sb (j k) = set_contains ma sa k).
Proof. exact @renamed_set. Qed.
Print Assumptions C56_set_any.

(** Sets of built-in types: contents always (without [()]), results of [insert],
    [remove] and [is_empty] without [bool] and [Option]. *)
Theorem C56_set : forall t t' a b (j : key t -> key t') (i : key t' -> key t) (full : bool),
  derive t = Some a -> derive t' = Some b -> inverse j i ->
  (forall k, if full then leaf_of t k = LHash \/ leaf_of t k = LVariant else leaf_of t k <> LUnit) ->
  (forall k, if full then leaf_of t' k = LHash \/ leaf_of t' k = LVariant else leaf_of t' k <> LUnit) ->
  forall w w' ops, Forall order_blind_set ops ->
  exists xs ys sa sb n0,
    (forall n, n0 <= n -> run_sops (ki_set a) n (set_new (ki_set a) w) ops = (xs, sa) /\
                          run_sops (ki_set b) n (set_new (ki_set b) w') (map (ren_sop j i) ops) = (ys, sb)) /\
    answer_alike full (map (ren_sop j i) ops) (map (ren_sobs j) xs) ys /\
    (forall k, set_contains (ki_set b) sb (j k) = set_contains (ki_set a) sa k).
Proof.
  intros t t' a b j i full Da Db Inv Ha Hb.
  apply (renamed_set j i full (ki_set a) (ki_set b) Inv (key_dec t)); destruct full.
  - exact (builtin_set_acts_full t a Da Ha).
  - exact (builtin_set_acts t a Da Ha).
  - exact (builtin_set_acts_full t' b Db Hb).
  - exact (builtin_set_acts t' b Db Hb).
Qed.
Print Assumptions C56_set.

(** If the keys correspond in order, no program can tell the two apart: all
    results are the same, closures may depend on what they saw before and unwind. *)
Theorem C56_map_ordered : forall t t' a b V j i, derive t = Some a -> derive t' = Some b ->
  hash_free t = true -> hash_free t' = true -> inverse j i -> map j (all_keys t) = all_keys t' ->
  forall w w' ops, exists xs sa sb n0,
    (forall n, n0 <= n ->
       run_ops (ki_map a V) n (map_new (ki_map a V) w) ops = Ok (xs, sa) /\
       run_ops (ki_map b V) n (map_new (ki_map b V) w') (map (ren_op j i) ops) = Ok (map (ren_obs j) xs, sb)) /\
    (forall k, map_get (ki_map b V) sb (j k) = map_get (ki_map a V) sa k).
Proof. exact renamed_map_ordered. Qed.
Print Assumptions C56_map_ordered.

Theorem C56_set_ordered : forall t t' a b j i, derive t = Some a -> derive t' = Some b ->
  hash_free t = true -> hash_free t' = true -> inverse j i -> map j (all_keys t) = all_keys t' ->
  (forall k, leaf_of t' (j k) = leaf_of t k) ->
  (forall k, sibling t' (j k) = option_map j (sibling t k)) ->
  forall w w' ops,
  (forall k k', one_bitset t' (j k) (j k') = one_bitset t k k') \/ Forall returning ops ->
  exists xs sa sb n0,
    (forall n, n0 <= n ->
       run_sops (ki_set a) n (set_new (ki_set a) w) ops = (xs, sa) /\
       run_sops (ki_set b) n (set_new (ki_set b) w') (map (ren_sop j i) ops) = (map (ren_sobs j) xs, sb)) /\
    (forall k, set_contains (ki_set b) sb (j k) = set_contains (ki_set a) sa k).
Proof. exact renamed_set_ordered. Qed.
Print Assumptions C56_set_ordered.

(** [Option<u32>] and [enum Num { Missing, Just(u32) }]. *)
Definition num_t : kty := KEnum false (VUnit (VTuple (KPrim PU32) VNil)).
Definition to_num (k : key (KOption (KPrim PU32))) : key num_t :=
  match k with None => inl tt | Some z => inr (inl z) end.
Definition of_num (k : key num_t) : key (KOption (KPrim PU32)) :=
  match k with inl _ => None | inr (inl z) => Some z | inr (inr e) => match e with end end.

(** [enum Outer { First, In(Dir), Last }] and
    [#[key(bitset)] enum Flat { First, North, East, South, West, Last }]. *)
Definition outer_t : kty := KEnum false (VUnit (VTuple dir_t (VUnit VNil))).
Definition flat_t : kty := KEnum true (VUnit (VUnit (VUnit (VUnit (VUnit (VUnit VNil)))))).
Definition flat_plain_t : kty := KEnum false (VUnit (VUnit (VUnit (VUnit (VUnit (VUnit VNil)))))).
Definition to_flat (k : key outer_t) : key flat_t :=
  match k with
  | inl _ => inl tt
  | inr (inl (inl _)) => inr (inl tt)
  | inr (inl (inr (inl _))) => inr (inr (inl tt))
  | inr (inl (inr (inr (inl _)))) => inr (inr (inr (inl tt)))
  | inr (inl (inr (inr (inr (inl _))))) => inr (inr (inr (inr (inl tt))))
  | inr (inl (inr (inr (inr (inr e))))) => match e with end
  | inr (inr (inl _)) => inr (inr (inr (inr (inr (inl tt)))))
  | inr (inr (inr e)) => match e with end
  end.
Definition of_flat (k : key flat_t) : key outer_t :=
  match k with
  | inl _ => inl tt
  | inr (inl _) => inr (inl north)
  | inr (inr (inl _)) => inr (inl east)
  | inr (inr (inr (inl _))) => inr (inl south)
  | inr (inr (inr (inr (inl _)))) => inr (inl west)
  | inr (inr (inr (inr (inr (inl _))))) => inr (inr (inl tt))
  | inr (inr (inr (inr (inr (inr e))))) => match e with end
  end.

Example C56_example :
  (exists a b, derive (KOption (KPrim PU32)) = Some a /\ derive num_t = Some b /\
     inverse to_num of_num /\
     Forall order_blind [MInsert (Some 3%Z) 1; MRetain (fun _ _ v => (v, if v =? 1 then Keep else Discard)); MIter] /\
     res_map fst (run_ops (ki_map b nat) 9 (map_new (ki_map b nat) w0)
       (map (ren_op to_num of_num)
          [MInsert (Some 3%Z) 1; MInsert None 2; MIter;
           MRetain (fun _ _ v => (v, if v =? 1 then Keep else Discard)); MGet (Some 3%Z)])) =
     Ok [ROption None; ROption None; RList [(inl tt, 2); (inr (inl 3%Z), 1)];
         RRetain [(inl tt, 2); (inr (inl 3%Z), 1)] Done; ROption (Some 1)]) /\
  (exists a b, derive outer_t = Some a /\ derive flat_t = Some b /\
     hash_free outer_t = true /\ hash_free flat_t = true /\ inverse to_flat of_flat /\
     map to_flat (all_keys outer_t) = all_keys flat_t /\
     (forall k, leaf_of flat_t (to_flat k) = leaf_of outer_t k) /\
     (forall k, sibling flat_t (to_flat k) = option_map to_flat (sibling outer_t k)) /\
     fst (run_sops (ki_set b) 9 (set_new (ki_set b) w0)
       (map (ren_sop to_flat of_flat) [SInsert (inr (inl south)); SInsert (inl tt); SInsert (inr (inr (inl tt)));
          SRetain (fun log _ => if length log =? 1 then Discard else Keep); SIter])) =
     map (ren_sobs to_flat)
       [QBool true; QBool true; QBool true; QRetain [inl tt; inr (inl south); inr (inr (inl tt))] Done;
        QList [inl tt; inr (inr (inl tt))]]) /\
  (* without the attribute the two agree even when the closure unwinds *)
  (exists b, derive flat_plain_t = Some b /\
     (forall k k', one_bitset flat_plain_t (to_flat k) (to_flat k') = one_bitset outer_t k k') /\
     fst (run_sops (ki_set b) 9 (set_new (ki_set b) w0)
       (map (ren_sop to_flat of_flat) [SInsert (inr (inl south)); SInsert (inl tt); SInsert (inr (inr (inl tt)));
          SRetain (fun log _ => if length log =? 1 then Discard else if length log =? 2 then Unwind else Keep);
          SIter])) =
     map (ren_sobs to_flat)
       [QBool true; QBool true; QBool true; QRetain [inl tt; inr (inl south); inr (inr (inl tt))] Unwound;
        QList [inl tt; inr (inr (inl tt))]]).
Proof.
  split; [|split].
  - do 2 eexists. split; [reflexivity|]. split; [reflexivity|]. split; [|split].
    + split; [intros [z|]; reflexivity|]. intros [[]|[z|[]]]; reflexivity.
    + repeat constructor. exists (fun _ v => (v, v =? 1)). intros log k v. destruct (v =? 1); reflexivity.
    + vm_compute. reflexivity.
  - do 2 eexists. split; [reflexivity|]. split; [reflexivity|]. split; [reflexivity|]. split; [reflexivity|].
    split; [|split; [reflexivity|split; [|split; [|vm_compute; reflexivity]]]].
    + split; [intros [[]|[[[]|[[]|[[]|[[]|[]]]]]|[[]|[]]]]; reflexivity|].
      intros [[]|[[]|[[]|[[]|[[]|[[]|[]]]]]]]; reflexivity.
    + intros [[]|[[[]|[[]|[[]|[[]|[]]]]]|[[]|[]]]]; reflexivity.
    + intros [[]|[[[]|[[]|[[]|[[]|[]]]]]|[[]|[]]]]; reflexivity.
  - eexists. split; [reflexivity|]. split; [|vm_compute; reflexivity].
    intros [[]|[[[]|[[]|[[]|[[]|[]]]]]|[[]|[]]]] [[]|[[[]|[[]|[[]|[[]|[]]]]]|[[]|[]]]]; reflexivity.
Qed.
