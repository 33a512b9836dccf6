(** A storage that is not among those of the crate: a hash table that iterates
    in the opposite order.  It stands for storages written by hand by users of
    the traits of src/map/storage.rs:23-146. *)
Require Import List Arith NArith ZArith Bool Lia.
Import ListNotations.
From Verif Require Import Std Traits MapStorages SetStorages DeriveAny Api Spec History Hashbrown
  ComposeSpec MapCore MapLaws HashLaws ComposeProofs.

Definition rev_map_storage (V : Type) : MapStorage nat V :=
  let m := hash_map_storage (V := V) Nat.eqb in {|
  ms_St := ms_St m;
  ms_Iter := hash_it (nat * V);
  ms_Keys := hash_it nat;
  ms_Values := hash_it V;
  ms_IterMut := ms_IterMut m;
  ms_ValuesMut := ms_ValuesMut m;
  ms_IntoIter := hash_it (nat * V);
  ms_empty := ms_empty m;
  ms_len := ms_len m;
  ms_is_empty := ms_is_empty m;
  ms_insert := ms_insert m;
  ms_contains_key := ms_contains_key m;
  ms_get := ms_get m;
  ms_get_mut := ms_get_mut m;
  ms_remove := ms_remove m;
  ms_retain := fun S f s st => ms_retain m f s st;
  ms_clear := ms_clear m;
  ms_clear_drop := fun D dr d st => ms_clear_drop m dr d st;
  ms_iter := fun t => rev (ht_entries t);
  ms_keys := fun t => rev (map fst (ht_entries t));
  ms_values := fun t => rev (map snd (ht_entries t));
  ms_iter_mut := ms_iter_mut m;
  ms_values_mut := ms_values_mut m;
  ms_into_iter := fun t => rev (ht_entries t);
  ms_load := ms_load m;
  ms_store := ms_store m;
  ms_Occ := ms_Occ m;
  ms_Vac := ms_Vac m;
  ms_entry := ms_entry m;
  ms_occ_key := ms_occ_key m;
  ms_occ_get := ms_occ_get m;
  ms_occ_get_mut := ms_occ_get_mut m;
  ms_occ_into_mut := ms_occ_into_mut m;
  ms_occ_insert := ms_occ_insert m;
  ms_occ_remove := ms_occ_remove m;
  ms_vac_key := ms_vac_key m;
  ms_vac_insert := ms_vac_insert m;
  ms_clone_with := fun S f s st => ms_clone_with m f s st;
  ms_clone_undo := fun S f dr s st => ms_clone_undo m f dr s st;
  ms_drop := fun D dr d st => ms_drop m dr d st;
  ms_clone := ms_clone m;
  ms_eq_with := fun S f s a b => ms_eq_with m f s a b;
  ms_eq := ms_eq m;
  ms_hash_with := None;
  ms_partial_cmp_with := None;
  ms_cmp_with := None;
  ms_hash := None;
  ms_partial_cmp := None;
  ms_cmp := None
|}.

(** The key type with that storage for maps. *)
Definition rev_ki : KeyImpl nat := MkKeyImpl rev_map_storage (hash_set_storage Nat.eqb).

Lemma list_gives {A} (l : list A) : gives (hash_it A) l l.
Proof.
  induction l as [|x l IH].
  - apply (gv_nil (hash_it A) [] []). reflexivity.
  - apply (gv_cons (hash_it A) (x :: l) x l l); [reflexivity|exact IH].
Qed.

Lemma rev_acts V : acts_as_map (rev_map_storage V).
Proof.
  destruct (laws_act (hash_laws_ (V := V) Nat.eqb Nat.eqb_eq)) as (I & N & S & R).
  apply (acts_intro (rev_map_storage V) I).
  - exact N.
  - intros st Hi.
    assert (W : whole (hash_map_storage (V := V) Nat.eqb) I st).
    { apply steps_whole; [intros o; apply S; exact Hi|intros; apply R; exact Hi]. }
    constructor; try apply W.
    exists (rev (ht_entries st)). split; [|apply list_gives].
    destruct (wh_iter _ _ _ W) as (l & [L1 L2] & G).
    apply gives_yields in G as [n G].
    destruct (gives_yields _ _ _ (list_gives (ht_entries st))) as [n' G'].
    assert (El : l = ht_entries st).
    { specialize (G (n + n') ltac:(lia)). specialize (G' (n + n') ltac:(lia)).
      unfold ms_Iter, ms_iter, hash_map_storage in G. rewrite G in G'. congruence. }
    rewrite El in L1, L2. split.
    + rewrite map_rev. apply NoDup_rev. exact L1.
    + intros k v. rewrite <- in_rev. apply L2.
  - intros st o Hi Ho. specialize (S st o Hi). destruct o; try discriminate; exact S.
Qed.
