(** Concrete key types, maps and sets for the examples. *)
Require Import List Arith NArith ZArith Bool.
Import ListNotations.
From Verif Require Import Std Traits Hashbrown MapStorages SetStorages DeriveUnit DeriveAny Key
  Api Spec Reach.

(** enum Dir { North, East, South, West } *)
Definition dir_vs : variants := VUnit (VUnit (VUnit (VUnit VNil))).
Definition dir_t : kty := KEnum false dir_vs.
Definition dir_units : units (keys dir_vs) := UCons (UCons (UCons (UCons UNil))).
Definition dir_ki : KeyImpl (key dir_t) :=
  MkKeyImpl (unit_map_storage dir_units) (unit_set_storage dir_units).
Definition north : key dir_t := inl tt.
Definition east : key dir_t := inr (inl tt).
Definition south : key dir_t := inr (inr (inl tt)).
Definition west : key dir_t := inr (inr (inr (inl tt))).

(** #[key(bitset)] enum BitDir { North, East, South, West } *)
Definition bit_t : kty := KEnum true dir_vs.
Definition bit_ki : KeyImpl (key bit_t) :=
  MkKeyImpl (unit_map_storage dir_units) (bit_set_storage dir_units 8).

(** enum Thing { Unit, Flag(bool), Num(Option<u8>), Sub(Dir) } *)
Definition thing_t : kty :=
  KEnum false (VUnit (VTuple KBool (VTuple (KOption (KPrim PU8)) (VTuple dir_t VNil)))).
Definition bool_ki : KeyImpl bool := MkKeyImpl bool_map_storage bool_set_storage.
Definition u8_ki : KeyImpl Z :=
  MkKeyImpl (fun V => hash_map_storage Z.eqb) (hash_set_storage Z.eqb).
Definition opt_ki : KeyImpl (option Z) :=
  MkKeyImpl (fun V => opt_map_storage (ki_map u8_ki V)) (opt_set_storage (ki_set u8_ki)).
Definition thing_ki : KeyImpl (key thing_t) :=
  derive_any (FUnit (FTuple bool_ki (FTuple opt_ki (FTuple dir_ki FNil)))).
Definition k_unit : key thing_t := inl tt.
Definition k_flag (b : bool) : key thing_t := inr (inl b).
Definition k_num (o : option Z) : key thing_t := inr (inr (inl o)).
Definition k_sub (d : key dir_t) : key thing_t := inr (inr (inr (inl d))).

Lemma dir_derive : derive dir_t = Some dir_ki. Proof. reflexivity. Qed.
Lemma bit_derive : derive bit_t = Some bit_ki. Proof. reflexivity. Qed.
Lemma thing_derive : derive thing_t = Some thing_ki. Proof. reflexivity. Qed.

(** Hash tables put every new entry first, except that the second insertion into
    a table swaps the first two. *)
Definition w0 : world := fun _ n => match n with 1 => [1] | _ => [] end.

Notation thing_m := (ki_map thing_ki nat).
Notation thing_s := (ki_set thing_ki).

Definition build {K V} (m : MapStorage K V) (l : list (K * V)) : ms_St m :=
  fold_left (fun st e => snd (map_insert m st (fst e) (snd e))) l (map_new m w0).
Definition build_set {T} (m : SetStorage T) (l : list T) : ss_St m :=
  fold_left (fun st x => snd (set_insert m st x)) l (set_new m w0).

Lemma build_reachable {K V} (m : MapStorage K V) l : map_reachable m (build m l).
Proof.
  unfold build. assert (H : forall st, map_reachable m st -> map_reachable m
    (fold_left (fun st e => snd (map_insert m st (fst e) (snd e))) l st)).
  { induction l as [|e l IH]; intros st H; simpl; auto. apply IH. constructor; auto. }
  apply H. constructor.
Qed.

Lemma build_set_reachable {T} (m : SetStorage T) l : set_reachable m (build_set m l).
Proof.
  unfold build_set. assert (H : forall st, set_reachable m st -> set_reachable m
    (fold_left (fun st x => snd (set_insert m st x)) l st)).
  { induction l as [|e l IH]; intros st H; simpl; auto. apply IH. constructor; auto. }
  apply H. constructor.
Qed.

(** A map with five entries, over all kinds of storages. *)
Definition things : ms_St thing_m :=
  build thing_m [(k_num (Some 7%Z), 1); (k_sub south, 2); (k_flag true, 3); (k_num None, 4);
                 (k_num (Some 9%Z), 5)].

Definition thing_set : ss_St thing_s :=
  build_set thing_s [k_num (Some 7%Z); k_sub south; k_flag true; k_num (Some 9%Z)].

Lemma things_reachable : map_reachable thing_m things.
Proof. apply build_reachable. Qed.
Lemma thing_set_reachable : set_reachable thing_s thing_set.
Proof. apply build_set_reachable. Qed.

(** The entries of [things] in iteration order. *)
Lemma things_entries : drain (ms_Iter thing_m) 9 (map_iter thing_m things) =
  Some [(k_flag true, 3); (k_num (Some 7%Z), 1); (k_num (Some 9%Z), 5); (k_num None, 4);
        (k_sub south, 2)].
Proof. reflexivity. Qed.
