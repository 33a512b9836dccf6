(** The code that the derive writes for enums with tuple variants is a map: property
    theorems. *)
Require Import List Arith NArith ZArith Bool String Permutation Sorted.
Import ListNotations.
From Verif Require Import Std Traits DeriveAny Key Spec Rust AnyCode AnyRun CodeSpec AnyCodeSpec
  AnyRefSpec AnyRefMain AnyRefSet Samples.
Open Scope string_scope.
Open Scope list_scope.

(** * C62: the generated code of an enum with tuple variants is a map *)

(** Run on any requests, the code of the map gives the answers of a list of entries
    that is in the order of the variants. *)
Theorem C62_map : forall (T : Type) (T_dec : forall a b : T, {a = b} + {a <> b})
    (ty : T -> kty) (impl : forall t, KeyImpl (key (ty t))) (V S : Type)
    (U : auser (fun t => key (ty t)) V S) (flds : vfields T) w l s,
  (forall t, derive (ty t) = Some (impl t)) -> NoDup (map fst flds) ->
  (exists x t, In (x, Some t) flds) ->
  exists rs s' self es,
    work T_dec impl U flds (do_task T_dec impl U flds) (any_map_code flds) w l s =
      Some (rs, s', self) /\
    ref_tasks (written flds) (earlier ty flds) (fun k => leaf_in ty flds k = LUnit)
      (a_keep2_fn U flds) (vf_clone (a_values U)) (vf_drop (a_values U)) (together_in ty flds)
      (hash_free_variants (variants_in ty flds)) l s [] rs s' es.
Proof. intros. now apply is_a_map. Qed.
Print Assumptions C62_map.

(** The code of the set gives the answers of a list of elements that is in the order of
    the variants, save for what is wrong with sets of [bool], [()] and [Option]. *)
Theorem C62_set : forall (T : Type) (T_dec : forall a b : T, {a = b} + {a <> b})
    (ty : T -> kty) (impl : forall t, KeyImpl (key (ty t))) (V S : Type)
    (U : auser (fun t => key (ty t)) V S) (flds : vfields T) w l s,
  (forall t, derive (ty t) = Some (impl t)) -> NoDup (map fst flds) ->
  (exists x t, In (x, Some t) flds) ->
  exists rs s' self es,
    work T_dec impl U flds (do_set_task T_dec impl U flds) (any_set_code flds) w l s =
      Some (rs, s', self) /\
    ref_set_tasks (written flds) (earlier ty flds) (leaf_in ty flds) (other_in ty flds) (stays_in ty flds)
      (a_keep_fn U flds) (hash_free_variants (variants_in ty flds)) l s [] rs s' es.
Proof. intros. now apply is_a_set. Qed.
Print Assumptions C62_set.

(** * Examples *)

(** enum Thing { Off, Flag(bool), Num(u8), On } *)
Definition ty (t : bool) : kty := if t then KBool else KPrim PU8.
Definition ty_impl (t : bool) : KeyImpl (key (ty t)) :=
  match t return KeyImpl (key (ty t)) with true => bool_ki | false => u8_ki end.
Definition thing : vfields bool :=
  [("Off", None); ("Flag", Some true); ("Num", Some false); ("On", None)].
Definition Ks (t : bool) : Type := key (ty t).

Notation Thing := (R_of (K := Ks) thing).
Definition off : Thing := inl tt.
Definition flag (b : bool) : Thing := inr (inl b).
Definition num (n : Z) : Thing := inr (inr (inl n)).
Definition on : Thing := inr (inr (inr (inl tt))).

(** A user who writes down the values that are seen, and keeps the odd ones. *)
Definition noter : auser Ks nat (list nat) := MkAUser
  (fun s k => (s, Some true))
  (fun s k v => (s ++ [v], v, Some (Nat.odd v)))
  (MkValueFns (fun s v => (s ++ [v], Some v))
              (fun s a b => (s ++ [a; b], Some (Nat.eqb a b)))
              (fun s v => (s ++ [100 + v], false))).

Definition requests : list (task Thing (skey Ks) nat) :=
  [TInsert on 1; TInsert (num 4) 2; TInsert (flag false) 3; TInsert (num 4) 5; TRemove off;
   TIter OfIter [Front; Front; Front; Front]; TRetain; TLen; TClear].

Example C62_map_example :
  (forall t, derive (ty t) = Some (ty_impl t)) /\ NoDup (map fst thing) /\
  (exists x t, In (x, Some t) thing) /\
  option_map fst (work Bool.bool_dec ty_impl noter thing
    (do_task Bool.bool_dec ty_impl noter thing) (any_map_code thing) w0 requests []) =
  Some ([ROpt None; ROpt None; ROpt None; ROpt (Some 2); ROpt None;
         RItems [Some (Some (Holding "Flag" true false), Some 3);
                 Some (Some (Holding "Num" false 4%Z), Some 5);
                 Some (Some (Plain "On"), Some 1); None];
         RUnit; RNat 3; RUnit],
        [3; 5; 1; 103; 105; 101]).
Proof.
  split; [now intros []|]. split; [repeat constructor; cbn; intuition discriminate|].
  split; [exists "Flag", true; cbn; auto|]. vm_compute. reflexivity.
Qed.

(** Other answers are not those of a map. *)
Example C62_map_refuses :
  let may := ref_tasks (written (K := Ks) thing) (earlier ty thing)
    (fun k => leaf_in ty thing k = LUnit)
    (a_keep2_fn noter thing) (vf_clone (a_values noter)) (vf_drop (a_values noter)) (together_in ty thing)
    (hash_free_variants (variants_in ty thing)) in
  (forall s' es, ~ may [TInsert on 1; TGet on] [] [] [ROpt None; ROpt None] s' es) /\
  (forall s' es, ~ may [TInsert on 1; TInsert off 2; TIter OfValues [Front]] [] []
     [ROpt None; ROpt None; RItems [Some (None, Some 1)]] s' es).
Proof.
  intros may. subst may. split; intros s' es H.
  - inversion H as [|? ? ? ? ? ? ? ? ? ? Xa Xb]; subst; clear H.
    inversion Xa; subst; clear Xa.
    match goal with Y : added _ _ _ _ _ |- _ => destruct Y as [P _] end.
    inversion Xb as [|? ? ? ? ? ? ? ? ? ? Xc _]; subst; clear Xb.
    inversion Xc; subst; clear Xc.
    match goal with Y : holds [] _ None |- _ => clear Y end.
    match goal with Y : holds _ _ None |- _ => rename Y into Hn end.
    apply Hn. apply Permutation_sym, Permutation_length_1_inv in P. subst. now left.
  - inversion H as [|? ? ? ? ? ? ? ? ? ? Xa Xb]; subst; clear H.
    inversion Xa; subst; clear Xa.
    match goal with Y : added _ _ _ _ _ |- _ => destruct Y as [P _] end.
    apply Permutation_sym, Permutation_length_1_inv in P. subst.
    inversion Xb as [|? ? ? ? ? ? ? ? ? ? Xc Xd]; subst; clear Xb.
    inversion Xc; subst; clear Xc.
    match goal with Y : added _ _ _ _ _ |- _ => destruct Y as [P Q] end.
    inversion Xd as [|? ? ? ? ? ? ? ? ? ? Xe _]; subst; clear Xd.
    apply Permutation_sym, Permutation_length_2_inv in P. destruct P as [-> | ->]; [inversion Xe|].
    inversion Q as [|? ? _ F]; subst. inversion F as [|? ? Hn _]; subst. now apply Hn.
Qed.

Definition set_requests : list (set_task Thing) :=
  [UInsert on; UInsert (num 4); UInsert (flag false); UInsert on; URemove (flag true); ULen;
   UIter false [Front; Front; Front; Front]; URetain; UIsEmpty; UClear; UIsEmpty].

(** [remove(Flag(true))] answers [true] though only [Flag(false)] is there (C27). *)
Example C62_set_example :
  (forall t, derive (ty t) = Some (ty_impl t)) /\ NoDup (map fst thing) /\
  (exists x t, In (x, Some t) thing) /\
  option_map fst (work Bool.bool_dec ty_impl noter thing
    (do_set_task Bool.bool_dec ty_impl noter thing) (any_set_code thing) w0 set_requests []) =
  Some ([RBool true; RBool true; RBool false; RBool false; RBool true; RNat 3;
         RItems [Some (Some (Holding "Flag" true false), None);
                 Some (Some (Holding "Num" false 4%Z), None);
                 Some (Some (Plain "On"), None); None];
         RUnit; RBool false; RUnit; RBool true], []).
Proof.
  split; [now intros []|]. split; [repeat constructor; cbn; intuition discriminate|].
  split; [exists "Flag", true; cbn; auto|]. vm_compute. reflexivity.
Qed.

(** Other answers are not those of the set. *)
Example C62_set_refuses :
  let may := ref_set_tasks (V := nat) (written (K := Ks) thing) (earlier ty thing) (leaf_in ty thing)
    (other_in ty thing) (stays_in ty thing) (a_keep_fn noter thing) (hash_free_variants (variants_in ty thing)) in
  forall s' es, ~ may [UInsert on; UContains on] [] [] [RBool true; RBool false] s' es.
Proof.
  intros may s' es H. subst may.
  inversion H as [|? ? ? ? ? s1 es1 ? ? ? H1 H2]; subst; clear H.
  assert (P : es1 = [on]).
  { inversion H1; subst. now apply Permutation_length_1_inv, Permutation_sym. }
  subst.
  inversion H2 as [|? ? ? ? ? ? ? ? ? ? H3 _]; subst; clear H2.
  inversion H3 as [| |? ? ? ? Hc| | | | | | | |]; subst; clear H3.
  discriminate (proj2 Hc (or_introl eq_refl)).
Qed.
