(** C50: which traits maps and sets implement, and that copying is cloning. *)
Require Import List Bool ZArith.
Import ListNotations.
From Verif Require Import Std Traits Key Avail Api Spec AvailSpec Reach Samples AvailProofs.

(** A map implements a trait exactly if its values do and its key type permits
    it. *)
Theorem C50_map_traits : forall t (v : impls) tr,
  map_impls t v tr = v tr && map_allows t tr.
Proof. exact (proj1 map_impls_closed). Qed.
Print Assumptions C50_map_traits.

Theorem C50_set_traits : forall t tr, set_impls t tr = set_allows t tr.
Proof. exact (proj1 set_impls_closed). Qed.
Print Assumptions C50_set_traits.

(** The documented case: keys with only unit variants give [Copy] maps and
    sets. *)
Theorem C50_unit_copy : forall t (v : impls), unit_enum t = true ->
  map_impls t v TCopy = v TCopy /\ set_impls t TCopy = true.
Proof.
  intros t v H. destruct t as [| | | |b vs]; try discriminate.
  unfold map_impls, set_impls. rewrite (proj1 map_impls_closed), (proj1 set_impls_closed).
  unfold map_allows, set_allows. simpl. rewrite (KeyFacts.hash_free_units vs H), andb_true_r.
  auto.
Qed.
Print Assumptions C50_unit_copy.

(** Whenever the [where] clause of a generated [impl] holds, the field storages
    implement the trait its body uses. *)
Theorem C50_bodies_typed : forall vs (v : impls) tr,
  In tr [TClone; TPartialEq; TEq] -> v tr = true -> fields_impl vs v tr = true.
Proof.
  intros vs v tr H Hv. apply fields_bounded; auto;
    destruct H as [<-|[<-|[<-|[]]]]; discriminate || reflexivity.
Qed.
Print Assumptions C50_bodies_typed.

(** The supertraits are implemented too. *)
Theorem C50_supertraits : forall t (v : impls),
  (lawful_impls v -> lawful_impls (map_impls t v)) /\ lawful_impls (set_impls t).
Proof. intros t v. exact (conj (map_supertraits t v) (set_supertraits t)). Qed.
Print Assumptions C50_supertraits.

(** Owning iterators can be cloned exactly if no hash table is involved. *)
Theorem C50_into_iter_clone : forall t v,
  map_into_iter_clones t v = v && hash_free t /\ set_into_iter_clones t = hash_free t.
Proof. exact (proj1 into_iter_closed). Qed.
Print Assumptions C50_into_iter_clone.

(** The operations the other properties speak of exist exactly for those types. *)
Theorem C50_operations : forall t ki, derive t = Some ki ->
  (forall V, present (ms_hash (ki_map ki V)) = map_allows t THash /\
             present (ms_partial_cmp (ki_map ki V)) = map_allows t TPartialOrd /\
             present (ms_cmp (ki_map ki V)) = map_allows t TOrd) /\
  present (ss_hash (ki_set ki)) = set_allows t THash /\
  present (ss_partial_cmp (ki_set ki)) = set_allows t TPartialOrd /\
  present (ss_cmp (ki_set ki)) = set_allows t TOrd.
Proof. exact ops_present. Qed.
Print Assumptions C50_operations.

(** A bitwise copy is a clone: with values whose [clone] copies them, cloning a
    map gives the same value; cloning a set always does. *)
Theorem C50_copy_is_clone : forall t ki (v : impls), derive t = Some ki ->
  (map_impls t v TCopy = true -> forall V (st : ms_St (ki_map ki V)),
     map_clone (ki_map ki V) (fun x => x) st = st) /\
  (set_impls t TCopy = true -> forall st, set_clone (ki_set ki) st = st).
Proof.
  intros t ki v E. destruct (proj1 derive_clone_id t ki E) as [H1 H2].
  split; intros _; [exact H1|exact H2].
Qed.
Print Assumptions C50_copy_is_clone.

(** An enum with a hash table inside, and one of unit variants, with values that
    are everything but [Eq], [Hash] and [Ord] (like floating point numbers). *)
Example C50_example :
  let v := fun tr => match tr with TEq | THash | TOrd => false | _ => true end in
  lawful_impls v /\
  map (map_impls thing_t v) [TClone; TCopy; TPartialEq; TEq; THash; TPartialOrd; TOrd] =
    [true; false; true; false; false; false; false] /\
  map (map_impls dir_t v) [TClone; TCopy; TPartialEq; TEq; THash; TPartialOrd; TOrd] =
    [true; true; true; false; false; true; false] /\
  map (set_impls thing_t) [TClone; TCopy; TPartialEq; TEq; THash; TPartialOrd; TOrd] =
    [true; false; true; true; false; false; false] /\
  map (set_impls KBool) [TClone; TCopy; TPartialEq; TEq; THash; TPartialOrd; TOrd] =
    [true; true; true; true; false; false; false] /\
  derive dir_t = Some dir_ki /\ unit_enum dir_t = true /\
  map_reachable (ki_map dir_ki nat) (build (ki_map dir_ki nat) [(north, 1); (west, 2)]) /\
  map_into_iter_clones thing_t true = false /\ map_into_iter_clones dir_t true = true.
Proof.
  split; [repeat split; intros; auto; discriminate|]. do 6 (split; [reflexivity|]).
  split; [apply build_reachable|]. split; reflexivity.
Qed.
