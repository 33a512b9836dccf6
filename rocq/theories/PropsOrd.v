(** Property theorems: orderings and hashes (C21, C22, C33, C42). *)
Require Import List Arith NArith ZArith Bool Lia.
Import ListNotations.
From Verif Require Import Std Traits MapStorages SetStorages DeriveUnit DeriveAny Key Api Spec Reach
  OrdSpec Samples OrdProofs.

(** * C21: ordering of maps *)

(** Ordering exists for exactly the enums of unit variants. *)
Theorem C21_map_ordered_keys : forall t ki V, derive t = Some ki ->
  (unit_enum t = true <-> forall c, map_cmp (ki_map ki V) c <> None) /\
  (unit_enum t = true <-> forall pc, map_partial_cmp (ki_map ki V) pc <> None).
Proof. intros t ki V E. exact (map_ordered_keys t ki V E). Qed.
Print Assumptions C21_map_ordered_keys.

Theorem C21_map_partial_cmp : forall bitset vs ki V pc,
  derive (KEnum bitset vs) = Some ki -> all_units vs = true ->
  exists f, map_partial_cmp (ki_map ki V) pc = Some f /\
    forall a b, map_reachable (ki_map ki V) a -> map_reachable (ki_map ki V) b ->
    exists la lb, yields (ms_Iter (ki_map ki V)) (map_iter (ki_map ki V) a) la /\
      yields (ms_Iter (ki_map ki V)) (map_iter (ki_map ki V) b) lb /\
      f a b = lex (by_entry vs pc) la lb.
Proof. intros bs vs ki V pc E H. exact (map_pc_lists bs vs ki V H E pc). Qed.
Print Assumptions C21_map_partial_cmp.

Theorem C21_map_cmp : forall bitset vs ki V c,
  derive (KEnum bitset vs) = Some ki -> all_units vs = true ->
  exists g, map_cmp (ki_map ki V) c = Some g /\
    forall a b, map_reachable (ki_map ki V) a -> map_reachable (ki_map ki V) b ->
    exists la lb, yields (ms_Iter (ki_map ki V)) (map_iter (ki_map ki V) a) la /\
      yields (ms_Iter (ki_map ki V)) (map_iter (ki_map ki V) b) lb /\
      Some (g a b) = lex (by_entry vs (fun x y => Some (c x y))) la lb.
Proof. intros bs vs ki V c E H. exact (map_cmp_lists bs vs ki V H E c). Qed.
Print Assumptions C21_map_cmp.

Theorem C21_map_partial_order : forall bitset vs ki V veq pc,
  derive (KEnum bitset vs) = Some ki -> all_units vs = true ->
  partial_ord_laws (fun _ => True) veq pc ->
  exists f, map_partial_cmp (ki_map ki V) pc = Some f /\
    partial_ord_laws (map_reachable (ki_map ki V)) (map_eq (ki_map ki V) veq) f.
Proof. intros bs vs ki V veq pc E H L. exact (map_po bs vs ki V H E veq pc L). Qed.
Print Assumptions C21_map_partial_order.

Theorem C21_map_total_order : forall bitset vs ki V veq c,
  derive (KEnum bitset vs) = Some ki -> all_units vs = true ->
  ord_laws (fun _ => True) veq c ->
  exists g, map_cmp (ki_map ki V) c = Some g /\
    ord_laws (map_reachable (ki_map ki V)) (map_eq (ki_map ki V) veq) g.
Proof. intros bs vs ki V veq c E H L. exact (map_ord bs vs ki V H E veq c L). Qed.
Print Assumptions C21_map_total_order.

Theorem C21_map_cmp_agree : forall bitset vs ki V pc c,
  derive (KEnum bitset vs) = Some ki -> all_units vs = true ->
  (forall x y, pc x y = Some (c x y)) ->
  exists f g, map_partial_cmp (ki_map ki V) pc = Some f /\ map_cmp (ki_map ki V) c = Some g /\
    forall a b, map_reachable (ki_map ki V) a -> map_reachable (ki_map ki V) b ->
    f a b = Some (g a b).
Proof. intros bs vs ki V pc c E H A. exact (map_cmp_agree bs vs ki V H E pc c A). Qed.
Print Assumptions C21_map_cmp_agree.

Theorem C21_map_operators : forall bitset vs ki V pc,
  derive (KEnum bitset vs) = Some ki -> all_units vs = true ->
  exists f lt le gt ge, map_partial_cmp (ki_map ki V) pc = Some f /\
    map_lt (ki_map ki V) pc = Some lt /\ map_le (ki_map ki V) pc = Some le /\
    map_gt (ki_map ki V) pc = Some gt /\ map_ge (ki_map ki V) pc = Some ge /\
    operators (map_reachable (ki_map ki V)) f lt le gt ge.
Proof. intros bs vs ki V pc E H. exact (map_operators bs vs ki V H E pc). Qed.
Print Assumptions C21_map_operators.

Theorem C21_map_selectors : forall bitset vs ki V veq pc c,
  derive (KEnum bitset vs) = Some ki -> all_units vs = true ->
  ord_laws (fun _ => True) veq c -> (forall x y, pc x y = Some (c x y)) ->
  exists g mx mn cl, map_cmp (ki_map ki V) c = Some g /\
    map_max (ki_map ki V) c = Some mx /\ map_min (ki_map ki V) c = Some mn /\
    map_clamp (ki_map ki V) pc = Some cl /\
    selectors (map_reachable (ki_map ki V)) g mx mn cl.
Proof. intros bs vs ki V veq pc c E H L A. exact (map_selectors bs vs ki V H E veq pc c L A). Qed.
Print Assumptions C21_map_selectors.

(** {North: 9} < {East: 1}; {North: 1} < {North: 1, West: 0}; values that do not
    compare. *)
Example C21_example :
  let m := ki_map dir_ki nat in
  let a := build m [(north, 9)] in
  let b := build m [(east, 1)] in
  let c := build m [(north, 1)] in
  let d := build m [(west, 0); (north, 1)] in
  derive dir_t = Some dir_ki /\ all_units dir_vs = true /\
  ord_laws (fun _ : nat => True) Nat.eqb Nat.compare /\
  partial_ord_laws (fun _ : nat => True) Nat.eqb (fun x y => Some (Nat.compare x y)) /\
  map_reachable m a /\ map_reachable m b /\ map_reachable m c /\ map_reachable m d /\
  option_map (fun g => (g a b, g c d, g a c, g d d)) (map_cmp m Nat.compare) =
    Some (Lt, Lt, Gt, Eq) /\
  option_map (fun f => f a a) (map_partial_cmp m (fun _ _ => None)) = Some None /\
  option_map (fun lt => lt a b) (map_lt m (fun x y => Some (Nat.compare x y))) = Some true /\
  option_map (fun cl => cl a b c) (map_clamp m (fun x y => Some (Nat.compare x y))) = Some Panic /\
  option_map (fun cl => cl a c b) (map_clamp m (fun x y => Some (Nat.compare x y))) = Some (Ok a) /\
  map_cmp (ki_map thing_ki nat) Nat.compare = None.
Proof.
  split; [reflexivity|]. split; [reflexivity|]. split; [exact nat_ord|].
  split; [exact (po_of_ord _ _ _ nat_ord)|].
  repeat (split; [apply build_reachable|]). repeat split.
Qed.

(** * C22: hashing *)

Theorem C22_map_hash : forall t ki V h veq f,
  derive t = Some ki -> map_hash (ki_map ki V) h = Some f ->
  (forall x y, veq x y = true -> h x = h y) ->
  forall a b, map_reachable (ki_map ki V) a -> map_reachable (ki_map ki V) b ->
  map_eq (ki_map ki V) veq a b = true -> f a = f b.
Proof. intros t ki V h veq f E Ef H a b _ _. exact (map_hash_eq t ki V h veq f E Ef H a b). Qed.
Print Assumptions C22_map_hash.

Theorem C22_set_hash : forall t ki f,
  derive t = Some ki -> set_hash (ki_set ki) = Some f ->
  forall a b, set_reachable (ki_set ki) a -> set_reachable (ki_set ki) b ->
  set_eq (ki_set ki) a b = true -> f a = f b.
Proof. intros t ki f E Ef a b _ _. exact (set_hash_eq t ki f E Ef a b). Qed.
Print Assumptions C22_set_hash.

(** Hashing exists for exactly the enums of unit variants, and for sets also for
    [()]. *)
Theorem C22_hash_keys : forall t ki V, derive t = Some ki ->
  (unit_enum t = true <-> forall h, map_hash (ki_map ki V) h <> None) /\
  (unit_enum t = true \/ t = KUnit <-> set_hash (ki_set ki) <> None).
Proof. intros t ki V E. exact (hash_keys t ki V E). Qed.
Print Assumptions C22_hash_keys.

(** Two histories; values equal up to parity, hashed by parity. *)
Example C22_example :
  let m := ki_map dir_ki nat in
  let a := build m [(north, 9); (south, 2)] in
  let b := snd (map_remove m (build m [(south, 4); (west, 1); (north, 3)]) west) in
  let veq := fun x y => Bool.eqb (Nat.even x) (Nat.even y) in
  let h := fun x => [if Nat.even x then 0%Z else 1%Z] in
  (forall x y, veq x y = true -> h x = h y) /\
  map_reachable m a /\ map_reachable m b /\ map_eq m veq a b = true /\
  option_map (fun f => f a) (map_hash m h) = Some [4; 1; 1; 0; 1; 0; 0]%Z /\
  option_map (fun f => f b) (map_hash m h) = Some [4; 1; 1; 0; 1; 0; 0]%Z /\
  option_map (fun f => f (build_set (ki_set dir_ki) [west; east])) (set_hash (ki_set dir_ki)) =
    Some [4; 0; 1; 0; 1]%Z /\
  option_map (fun f => f (build_set (ki_set bit_ki) [west; east])) (set_hash (ki_set bit_ki)) =
    Some [10%Z] /\
  map_hash (ki_map thing_ki nat) h = None.
Proof.
  split.
  - intros x y. destruct (Nat.even x), (Nat.even y); simpl; congruence.
  - split; [apply build_reachable|]. split; [constructor; apply build_reachable|]. repeat split.
Qed.

(** * C33: ordering of sets *)

(** Ordering exists for exactly the enums of unit variants and [()]. *)
Theorem C33_set_ordered_keys : forall t ki, derive t = Some ki ->
  (unit_enum t = true \/ t = KUnit <-> set_cmp (ki_set ki) <> None) /\
  (unit_enum t = true \/ t = KUnit <-> set_partial_cmp (ki_set ki) <> None).
Proof. intros t ki E. exact (set_ordered_keys t ki E). Qed.
Print Assumptions C33_set_ordered_keys.

(** For every ordered set type: a total order consistent with [==], on which
    [partial_cmp] agrees, with the derived operations. *)
Theorem C33_set_total_order : forall t ki g,
  derive t = Some ki -> set_cmp (ki_set ki) = Some g ->
  exists f lt le gt ge mx mn cl,
    set_partial_cmp (ki_set ki) = Some f /\
    (forall a b, set_reachable (ki_set ki) a -> set_reachable (ki_set ki) b ->
       f a b = Some (g a b)) /\
    ord_laws (set_reachable (ki_set ki)) (set_eq (ki_set ki)) g /\
    set_lt (ki_set ki) = Some lt /\ set_le (ki_set ki) = Some le /\
    set_gt (ki_set ki) = Some gt /\ set_ge (ki_set ki) = Some ge /\
    set_max (ki_set ki) = Some mx /\ set_min (ki_set ki) = Some mn /\
    set_clamp (ki_set ki) = Some cl /\
    operators (set_reachable (ki_set ki)) f lt le gt ge /\
    selectors (set_reachable (ki_set ki)) g mx mn cl.
Proof. intros t ki g E Eg. exact (set_order_full t ki g E Eg). Qed.
Print Assumptions C33_set_total_order.

(** The full claim, that sets compare lexicographically in declaration order,
    fails for bitsets: {North, West} < {East} as documented, but not for the
    bitset. *)
Theorem C33_set_cmp_refuted : exists bitset vs ki g a b la lb,
  derive (KEnum bitset vs) = Some ki /\ all_units vs = true /\
  set_cmp (ki_set ki) = Some g /\
  set_reachable (ki_set ki) a /\ set_reachable (ki_set ki) b /\
  yields (ss_Iter (ki_set ki)) (set_iter (ki_set ki) a) la /\
  yields (ss_Iter (ki_set ki)) (set_iter (ki_set ki) b) lb /\
  lex (by_variant vs) la lb = Some Lt /\ g a b = Gt.
Proof.
  exists true, dir_vs, bit_ki. eexists.
  exists (build_set (ki_set bit_ki) [north; west]), (build_set (ki_set bit_ki) [east]).
  exists [north; west], [east].
  split; [reflexivity|]. split; [reflexivity|]. split; [reflexivity|].
  split; [apply build_set_reachable|]. split; [apply build_set_reachable|].
  split; [exists 3; intros [|[|[|n]]] H; try lia; reflexivity|].
  split; [exists 2; intros [|[|n]] H; try lia; reflexivity|].
  split; reflexivity.
Qed.
Print Assumptions C33_set_cmp_refuted.

(** It holds for enums without [#[key(bitset)]]. *)
Theorem C33_set_cmp_partial : forall vs ki,
  derive (KEnum false vs) = Some ki -> all_units vs = true ->
  exists f g, set_partial_cmp (ki_set ki) = Some f /\ set_cmp (ki_set ki) = Some g /\
    forall a b, set_reachable (ki_set ki) a -> set_reachable (ki_set ki) b ->
    exists la lb, yields (ss_Iter (ki_set ki)) (set_iter (ki_set ki) a) la /\
      yields (ss_Iter (ki_set ki)) (set_iter (ki_set ki) b) lb /\
      f a b = lex (by_variant vs) la lb /\ Some (g a b) = lex (by_variant vs) la lb.
Proof. intros vs ki E H. exact (array_cmp_lists vs ki H E). Qed.
Print Assumptions C33_set_cmp_partial.

(** Bitsets compare their elements lexicographically from the last declared one
    down. *)
Theorem C33_set_cmp_exact : forall vs ki,
  derive (KEnum true vs) = Some ki -> all_units vs = true ->
  exists f g, set_partial_cmp (ki_set ki) = Some f /\ set_cmp (ki_set ki) = Some g /\
    forall a b, set_reachable (ki_set ki) a -> set_reachable (ki_set ki) b ->
    exists la lb, yields (ss_Iter (ki_set ki)) (set_iter (ki_set ki) a) la /\
      yields (ss_Iter (ki_set ki)) (set_iter (ki_set ki) b) lb /\
      f a b = lex (by_variant vs) (rev la) (rev lb) /\
      Some (g a b) = lex (by_variant vs) (rev la) (rev lb).
Proof. intros vs ki E H. exact (bit_cmp_lists vs ki H E). Qed.
Print Assumptions C33_set_cmp_exact.

(** The example of the documentation (src/key.rs), for both kinds of storage. *)
Example C33_example :
  let m := ki_set dir_ki in
  let n := ki_set bit_ki in
  let sets := [[]; [north]; [north; west]; [west]] in
  derive dir_t = Some dir_ki /\ derive bit_t = Some bit_ki /\ all_units dir_vs = true /\
  (forall l, set_reachable m (build_set m l)) /\ (forall l, set_reachable n (build_set n l)) /\
  option_map (fun g => map (fun l => map (fun r => g (build_set m l) (build_set m r)) sets) sets)
             (set_cmp m) =
    Some [[Eq; Lt; Lt; Lt]; [Gt; Eq; Lt; Lt]; [Gt; Gt; Eq; Lt]; [Gt; Gt; Gt; Eq]] /\
  option_map (fun g => map (fun l => map (fun r => g (build_set n l) (build_set n r)) sets) sets)
             (set_cmp n) =
    Some [[Eq; Lt; Lt; Lt]; [Gt; Eq; Lt; Lt]; [Gt; Gt; Eq; Gt]; [Gt; Gt; Lt; Eq]] /\
  set_cmp (ki_set thing_ki) = None.
Proof.
  split; [reflexivity|]. split; [reflexivity|]. split; [reflexivity|].
  split; [apply build_set_reachable|]. split; [apply build_set_reachable|]. repeat split.
Qed.

(** * C42: ordering of sets over () *)

Theorem C42_unit_set_order : forall ki,
  derive KUnit = Some ki ->
  exists f g, set_partial_cmp (ki_set ki) = Some f /\ set_cmp (ki_set ki) = Some g /\
    forall a b, set_reachable (ki_set ki) a -> set_reachable (ki_set ki) b ->
    exists la lb, yields (ss_Iter (ki_set ki)) (set_iter (ki_set ki) a) la /\
      yields (ss_Iter (ki_set ki)) (set_iter (ki_set ki) b) lb /\
      f a b = lex (fun _ _ => Some Eq) la lb /\ Some (g a b) = lex (fun _ _ => Some Eq) la lb.
Proof. intros ki E. exact (single_cmp_lists ki E). Qed.
Print Assumptions C42_unit_set_order.

Example C42_example :
  let m := single_set_storage in
  let a := set_new m w0 in
  let b := snd (set_insert m a tt) in
  derive KUnit = Some (MkKeyImpl single_map_storage single_set_storage) /\
  set_reachable m a /\ set_reachable m b /\
  option_map (fun g => (g a b, g b a, g a a, g b b)) (set_cmp m) = Some (Lt, Gt, Eq, Eq).
Proof.
  split; [reflexivity|]. split; [constructor|]. split; [constructor; constructor|]. reflexivity.
Qed.
