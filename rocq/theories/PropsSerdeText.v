(** C71: the source text of the serde and [Debug] impls of [Map], [Set] and [Intersection],
    run by an interpreter. *)
Require Import List Bool ZArith NArith String.
Import ListNotations.
From Verif Require Import Std Traits Api Debug Spec Reach Key Fmt FmtSpec PropsMap PropsSet PropsFmt SrcParse SrcRun SrcSpec SrcFiles
  SrcFront SrcFrontSetSpec SrcFrontSerde SrcFrontSerdeProofs Samples.

(** [Serialize]: whatever the serializer answers, a run of the model to its end is a run of
    the text to the same end.  The storage is any. *)
Theorem C71_map_serialize : forall K V Out Err (m : MapStorage K V) (z : serializer (K * V) Out Err) U fuel st r,
  map_serialize m z fuel st = Some r ->
  returns (fun n => text_serialize m (with_inner (program map_text)) z U n st) r.
Proof.
  intros K V Out Err m z U fuel st r H. rewrite smap_read. eexists. intros n Hn.
  exact (serialize_ok m z U fuel st r n H Hn).
Qed.
Print Assumptions C71_map_serialize.
Theorem C71_set_serialize : forall K V Out Err (m : SetStorage K) (z : serializer K Out Err) U fuel st r,
  set_serialize m z fuel st = Some r ->
  returns (fun n => set_text_serialize (V := V) m (with_inner (program set_text)) z U n st) r.
Proof.
  intros K V Out Err m z U fuel st r H. rewrite sset_read. eexists. intros n Hn.
  exact (set_serialize_ok m z U fuel st r n H Hn).
Qed.
Print Assumptions C71_set_serialize.

(** [Deserialize]: the same, whatever the input holds and wherever it fails. *)
Theorem C71_map_deserialize : forall K V D Err (m : MapStorage K V) (acc : access D (K * V) Err) U fuel w d r,
  map_visit m acc fuel w d = Some r ->
  returns (fun n => text_deserialize m (with_inner (program map_text)) acc U n w d)
    (match r with inl st => inl (map_val m st) | inr e => inr e end).
Proof.
  intros K V D Err m acc U fuel w d r H. rewrite smap_read. eexists. intros n Hn.
  exact (deserialize_ok m acc U fuel w d r n H Hn).
Qed.
Print Assumptions C71_map_deserialize.
Theorem C71_set_deserialize : forall K V D Err (m : SetStorage K) (acc : access D K Err) U fuel w d r,
  set_visit m acc fuel w d = Some r ->
  returns (fun n => set_text_deserialize (V := V) m (with_inner (program set_text)) acc U n w d)
    (match r with inl st => inl (set_val m st) | inr e => inr e end).
Proof.
  intros K V D Err m acc U fuel w d r H. rewrite sset_read. eexists. intros n Hn.
  exact (set_deserialize_ok m acc U fuel w d r n H Hn).
Qed.
Print Assumptions C71_set_deserialize.

(** [Debug]: the same characters in the same writes, the same calls of the user's [fmt] and
    the same end, whatever the sink and the user's [fmt] do. *)
Theorem C71_map_debug : forall K V W D O (m : MapStorage K V) (alternate : O -> bool) (wr : out W) o
    (fk : fmt_fn O D K) (fv : fmt_fn O D V) U n st w d,
  text_debug m (with_inner (program map_text)) alternate wr o fk fv U n st w d =
  map_fmt alternate wr o fk fv m n st w d.
Proof. intros K V W D O m alternate wr o fk fv U. rewrite smap_read. exact (debug_ok m alternate wr o fk fv U). Qed.
Print Assumptions C71_map_debug.
Theorem C71_set_debug : forall K V W D O (m : SetStorage K) (alternate : O -> bool) (wr : out W) o
    (fk : fmt_fn O D K) U n st w d,
  set_text_debug (V := V) m (with_inner (program set_text)) alternate wr o fk U n st w d =
  set_fmt alternate wr o fk m n st w d.
Proof. intros K V W D O m alternate wr o fk U. rewrite sset_read. exact (set_debug_ok m alternate wr o fk U). Qed.
Print Assumptions C71_set_debug.
Theorem C71_intersection_debug : forall K V W D O (m : SetStorage K) (alternate : O -> bool) (wr : out W) o
    (fk : fmt_fn O D K) U n x w d,
  inter_text_debug (V := V) m (with_inner (program set_text)) alternate wr o fk U n x w d =
  inter_fmt alternate wr o fk n x w d.
Proof. intros K V W D O m alternate wr o fk U. rewrite sset_read. exact (inter_debug_ok m alternate wr o fk U). Qed.
Print Assumptions C71_intersection_debug.

(** For derived key types: the text hands the serializer the length and the entries in the
    order of [iter], each once, and stops at its first error. *)
Theorem C71_map_writes : forall t ki V Out Err (z : serializer (key t * V) Out Err) U (st : ms_St (ki_map ki V)),
  derive t = Some ki -> map_reachable (ki_map ki V) st ->
  exists l, yields (ms_Iter (ki_map ki V)) (map_iter (ki_map ki V) st) l /\
    map_len (ki_map ki V) st = List.length l /\
    returns (fun n => text_serialize (ki_map ki V) (with_inner (program map_text)) z U n st) (feed_all z l).
Proof.
  intros t ki V Out Err z U st E R.
  destruct (C24_map_serialize t ki V Out Err z st E R) as (l & Y & L & n & H).
  exists l. split; [exact Y|]. split; [exact L|].
  exact (C71_map_serialize _ _ _ _ _ z U n st _ (H n (le_n n))).
Qed.
Print Assumptions C71_map_writes.
Theorem C71_set_writes : forall t ki V Out Err (z : serializer (key t) Out Err) U (st : ss_St (ki_set ki)),
  derive t = Some ki -> set_reachable (ki_set ki) st ->
  exists l, yields (ss_Iter (ki_set ki)) (set_iter (ki_set ki) st) l /\
    set_len (ki_set ki) st = List.length l /\
    returns (fun n => set_text_serialize (V := V) (ki_set ki) (with_inner (program set_text)) z U n st) (feed_all z l).
Proof.
  intros t ki V Out Err z U st E R.
  destruct (C24_set_serialize t ki Out Err z st E R) as (l & Y & L & n & H).
  exists l. split; [exact Y|]. split; [exact L|].
  exact (C71_set_serialize _ _ _ _ _ z U n st _ (H n (le_n n))).
Qed.
Print Assumptions C71_set_writes.

(** Reading back what was written gives an equal map, an equal set. *)
Theorem C71_map_round_trip : forall t ki V D Err (acc : access D (key t * V) Err) U w d l veq
    (st : ms_St (ki_map ki V)),
  derive t = Some ki -> map_reachable (ki_map ki V) st ->
  yields (ms_Iter (ki_map ki V)) (map_iter (ki_map ki V) st) l -> supplies acc d l ->
  exists st', returns (fun n => text_deserialize (ki_map ki V) (with_inner (program map_text)) acc U n w d)
      (inl (map_val (ki_map ki V) st')) /\
    (forall k, map_get (ki_map ki V) st' k = map_get (ki_map ki V) st k) /\
    ((forall v, veq v v = true) -> map_eq (ki_map ki V) veq st' st = true).
Proof.
  intros t ki V D Err acc U w d l veq st E R Y Hs.
  destruct (C24_map_roundtrip t ki V D Err acc w d l veq st E R Y Hs) as (st' & (n & H) & G & Q).
  exists st'. split; [|split; [exact G|exact Q]].
  exact (C71_map_deserialize _ _ _ _ _ acc U n w d _ (H n (le_n n))).
Qed.
Print Assumptions C71_map_round_trip.
Theorem C71_set_round_trip : forall t ki V D Err (acc : access D (key t) Err) U w d l (st : ss_St (ki_set ki)),
  derive t = Some ki -> set_reachable (ki_set ki) st ->
  yields (ss_Iter (ki_set ki)) (set_iter (ki_set ki) st) l -> supplies acc d l ->
  exists st', returns (fun n => set_text_deserialize (V := V) (ki_set ki) (with_inner (program set_text)) acc U n w d)
      (inl (set_val (ki_set ki) st')) /\
    (forall k, set_contains (ki_set ki) st' k = set_contains (ki_set ki) st k) /\
    set_eq (ki_set ki) st' st = true.
Proof.
  intros t ki V D Err acc U w d l st E R Y Hs.
  destruct (C24_set_roundtrip t ki D Err acc w d l st E R Y Hs) as (st' & (n & H) & G & Q).
  exists st'. split; [|split; [exact G|exact Q]].
  exact (C71_set_deserialize _ _ _ _ _ acc U n w d _ (H n (le_n n))).
Qed.
Print Assumptions C71_set_round_trip.
(** An input that fails after some entries: the text returns that error. *)
Theorem C71_map_error : forall t ki V D Err (acc : access D (key t * V) Err) U w d l e,
  derive t = Some ki -> breaks acc d l e ->
  returns (fun n => text_deserialize (ki_map ki V) (with_inner (program map_text)) acc U n w d) (inr e).
Proof.
  intros t ki V D Err acc U w d l e E B.
  destruct (C24_map_deserialize_error t ki V D Err acc w d l e E B) as (n & H).
  exact (C71_map_deserialize _ _ _ _ _ acc U n w d _ (H n (le_n n))).
Qed.
Print Assumptions C71_map_error.
Theorem C71_set_error : forall t ki V D Err (acc : access D (key t) Err) U w d l e,
  derive t = Some ki -> breaks acc d l e ->
  returns (fun n => set_text_deserialize (V := V) (ki_set ki) (with_inner (program set_text)) acc U n w d) (inr e).
Proof.
  intros t ki V D Err acc U w d l e E B.
  destruct (C24_set_deserialize_error t ki D Err acc w d l e E B) as (n & H).
  exact (C71_set_deserialize _ _ _ _ _ acc U n w d _ (H n (le_n n))).
Qed.
Print Assumptions C71_set_error.
(** Printing: the layout of the entries in declaration order. *)
Theorem C71_map_prints : forall (O D W : Type) (alternate : O -> bool) (wr : out W) (o : O)
    t ki V (fk : fmt_fn O D (key t)) (fv : fmt_fn O D V) U (st : ms_St (ki_map ki V)),
  derive t = Some ki -> map_reachable (ki_map ki V) st ->
  exists l, lists (map_get (ki_map ki V) st) l /\ sorted_by (key_before t) (map fst l) /\
    forall w d,
      returns (fun n => text_debug (ki_map ki V) (with_inner (program map_text)) alternate wr o fk fv U n st w d)
              (do_layout (either fk fv) o wr (map_layout (alternate o) l) w d).
Proof.
  intros O D W alternate wr o t ki V fk fv U st E R.
  destruct (C65_map O D W alternate wr o t ki V fk fv st E R) as (l & L & S & _ & H).
  exists l. split; [exact L|]. split; [exact S|]. intros w d. destruct (H w d) as (n0 & Hn).
  exists n0. intros n Ln. rewrite C71_map_debug. exact (Hn n Ln).
Qed.
Print Assumptions C71_map_prints.
Theorem C71_set_prints : forall (O D W : Type) (alternate : O -> bool) (wr : out W) (o : O)
    t ki V (ft : fmt_fn O D (key t)) U (st : ss_St (ki_set ki)),
  derive t = Some ki -> set_reachable (ki_set ki) st ->
  exists l, elements (set_contains (ki_set ki) st) l /\ sorted_by (key_before t) l /\
    forall w d,
      returns (fun n => set_text_debug (V := V) (ki_set ki) (with_inner (program set_text)) alternate wr o ft U n st w d)
              (do_layout ft o wr (set_layout (alternate o) l) w d).
Proof.
  intros O D W alternate wr o t ki V ft U st E R.
  destruct (C65_set O D W alternate wr o t ki ft st E R) as (l & L & S & _ & H).
  exists l. split; [exact L|]. split; [exact S|]. intros w d. destruct (H w d) as (n0 & Hn).
  exists n0. intros n Ln. rewrite C71_set_debug. exact (Hn n Ln).
Qed.
Print Assumptions C71_set_prints.

(** A serializer that writes a list and refuses the value 9; inputs read from lists, that of
    maps failing at the value 9; a sink and the [fmt] of keys and values. *)
Definition list_ser : serializer (key thing_t * nat) (list nat) nat :=
  MkSer (list nat) (fun o => match o with Some n => inl [n] | None => inr 0 end)
    (fun s e => if Nat.eqb (snd e) 9 then inr 17 else inl (s ++ [snd e])%list) (fun s => inl s).
Definition list_set_ser : serializer (key thing_t) (nat * list (key thing_t)) nat :=
  MkSer (nat * list (key thing_t)) (fun o => match o with Some n => inl (n, []) | None => inr 0 end)
    (fun s e => inl (fst s, (snd s ++ [e])%list)) (fun s => inl s).
Definition any_user {K V S} : user_fns K V S :=
  MkUser (fun s _ v => (s, v, Some true)) (fun s _ => (s, Some true)) (fun s v => (s, Some v))
    (fun s a b => (s, Some true)) (fun s v => (s, false)).
Definition list_in : access (list (key thing_t * nat)) (key thing_t * nat) nat := fun l =>
  match l with
  | [] => (inl None, [])
  | (k, v) :: r => if Nat.eqb v 9 then (inr 3, r) else (inl (Some (k, v)), r)
  end.
Definition list_set_in : access (list (key thing_t)) (key thing_t) nat := fun l =>
  match l with [] => (inl None, []) | k :: r => (inl (Some k), r) end.
Definition sink : out string := fun w s => ((w ++ s)%string, FOk).
Definition say_k : fmt_fn unit unit (key thing_t) := fun _ d k => Write d "k" (fun _ => Stop d FOk).
Definition say_v : fmt_fn unit unit nat := fun _ d v => Write d (if Nat.eqb v 3 then "three" else "v") (fun _ => Stop d FOk).
Definition entries_read (r : option (val nat (foreign_map thing_m) + nat)) : option (list (key thing_t * nat) + nat) :=
  match r with
  | Some (inl (VData "Map" "" [("storage"%string, VForeign (XMap _ st))])) =>
      option_map inl (drain (ms_Iter thing_m) 9 (map_iter thing_m st))
  | Some (inr e) => Some (inr e)
  | _ => None
  end.
Definition elements_read (r : option (val nat (foreign_set thing_s) + nat)) : option (list (key thing_t) + nat) :=
  match r with
  | Some (inl (VData "Set" "" [("storage"%string, VForeign (YSet _ st))])) =>
      option_map inl (drain (ss_Iter thing_s) 9 (set_iter thing_s st))
  | Some (inr e) => Some (inr e)
  | _ => None
  end.

(** The model ends on these, so the theorems say that the text does; and here it does. *)
Example C71_serialize_runs :
  map_serialize thing_m list_ser 9 things = Some (inl [5; 3; 1; 5; 4; 2]) /\
  text_serialize thing_m (with_inner (program map_text)) list_ser any_user 80 things = Some (inl [5; 3; 1; 5; 4; 2]) /\
  text_serialize thing_m (with_inner (program map_text)) list_ser any_user 80
    (snd (map_insert thing_m things (k_num None) 9)) = Some (inr 17).
Proof. split; [|split]; vm_compute; reflexivity. Qed.
Example C71_set_serialize_runs :
  set_serialize thing_s list_set_ser 9 thing_set =
    Some (inl (4, [k_flag true; k_num (Some 7%Z); k_num (Some 9%Z); k_sub south])) /\
  set_text_serialize (V := nat) thing_s (with_inner (program set_text)) list_set_ser any_user 80 thing_set =
    Some (inl (4, [k_flag true; k_num (Some 7%Z); k_num (Some 9%Z); k_sub south])).
Proof. split; vm_compute; reflexivity. Qed.
Example C71_deserialize_runs :
  entries_read (text_deserialize thing_m (with_inner (program map_text)) list_in any_user 80 w0
    [(k_flag true, 4); (k_unit, 2); (k_flag true, 5)]) = Some (inl [(k_unit, 2); (k_flag true, 5)]) /\
  entries_read (text_deserialize thing_m (with_inner (program map_text)) list_in any_user 80 w0
    [(k_flag true, 4); (k_unit, 9); (k_flag true, 5)]) = Some (inr 3) /\
  elements_read (set_text_deserialize thing_s (with_inner (program set_text)) list_set_in any_user 80 w0
    [k_flag true; k_unit; k_flag true]) = Some (inl [k_unit; k_flag true]).
Proof. split; [|split]; vm_compute; reflexivity. Qed.
Example C71_deserialize_ends :
  (exists r, map_visit thing_m list_in 9 w0 [(k_flag true, 4); (k_unit, 2)] = Some (inl r)) /\
  (exists r, set_visit thing_s list_set_in 9 w0 [k_flag true; k_unit] = Some (inl r)) /\
  breaks list_in [(k_flag true, 4); (k_unit, 9)] [(k_flag true, 4)] 3 /\
  supplies list_in [(k_flag true, 4); (k_unit, 2)] [(k_flag true, 4); (k_unit, 2)].
Proof.
  split; [eexists; reflexivity|]. split; [eexists; reflexivity|].
  split; repeat (econstructor; [reflexivity|]); econstructor; reflexivity.
Qed.
Example C71_debug_runs :
  text_debug thing_m (with_inner (program map_text)) (fun _ => false) sink tt say_k say_v any_user 20 things "" tt =
    Some ("{k: three, k: v, k: v, k: v, k: v}"%string, tt, FOk) /\
  set_text_debug (V := nat) thing_s (with_inner (program set_text)) (fun _ => false) sink tt say_k any_user 20 thing_set "" tt =
    Some ("{k, k, k, k}"%string, tt, FOk) /\
  inter_text_debug (V := nat) thing_s (with_inner (program set_text)) (fun _ => false) sink tt say_k any_user 20
    (set_intersection thing_s thing_set thing_set) "" tt = Some ("[k, k, k, k]"%string, tt, FOk).
Proof. split; [|split]; vm_compute; reflexivity. Qed.
Example C71_derived : (exists ki, derive thing_t = Some ki /\ ki_map ki nat = thing_m /\ ki_set ki = thing_s) /\
  map_reachable thing_m things /\ set_reachable thing_s thing_set.
Proof. split; [exists thing_ki; split; [|split]; reflexivity|]. split; [exact things_reachable|exact thing_set_reachable]. Qed.
