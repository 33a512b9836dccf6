(** C70: the source text of [Map], [Entry], [Set] and [Intersection], run by an interpreter. *)
Require Import List Bool ZArith NArith String.
Import ListNotations.
From Verif Require Import Std Traits Api Spec Reach Key SrcParse SrcRun SrcSpec SrcFiles
  SrcFront SrcFrontMap SrcFrontWhole SrcFrontLoop SrcFrontSetSpec SrcFrontSet SrcFrontSetLoop SrcFrontMain Samples.

(** Every sequence of requests to a new [Map], those to its entries and loops over [&map] and
    [&mut map] among them, is answered by the text of src/map.rs and src/map/entry.rs as by
    the model; the user's closures, [clone], [default] and destructors are called at the same
    moments, with the same arguments. *)
Theorem C70_map : forall t ki V S (U : user_fns (key t) V S) (E : entry_fns (key t) V S) w l s,
  derive t = Some ki ->
  let m := ki_map ki V in
  told_by (map_file m None (program map_text)) U (front_req m (program map_text) U E) w l s =
  Some (fst (answers (fmap_req m U E) l s (map_new m w))).
Proof. intros t ki V S U E w l s D. exact (c70_map t ki U E D w l s). Qed.
Print Assumptions C70_map.
(** Two maps, each after its own requests, compared with [==]. *)
Theorem C70_map_eq : forall t ki V S (U : user_fns (key t) V S) (E : entry_fns (key t) V S) w1 w2 l1 l2 s,
  derive t = Some ki ->
  let m := ki_map ki V in
  compare_new (map_file m None (program map_text)) U (front_req m (program map_text) U E) w1 w2 l1 l2 s =
  Some (compared (fmap_req m U E) (map_compare U m) (map_new m w1) (map_new m w2) l1 l2 s).
Proof. intros t ki V S U E w1 w2 l1 l2 s D. exact (c70_map_eq t ki U E D w1 w2 l1 l2 s). Qed.
Print Assumptions C70_map_eq.
(** Nothing is answered with undefined behaviour, a leak, or an error of the program. *)
Theorem C70_sound : forall t ki V S (U : user_fns (key t) V S) (E : entry_fns (key t) V S) w l s,
  derive t = Some ki ->
  let m := ki_map ki V in exists xs s',
  told_by (map_file m None (program map_text)) U (front_req m (program map_text) U E) w l s = Some (xs, s') /\
  ~ In Bad xs.
Proof. intros t ki V S U E w l s D. exact (c70_sound t ki U E D w l s). Qed.
Print Assumptions C70_sound.
(** A [Map] around any other storage whose [retain] does nothing with the closure but calling
    it, as long as that storage does not fail. *)
Theorem C70_map_any : forall K V S (m : MapStorage K V) (U : user_fns K V S) (E : entry_fns K V S),
  (forall (f g : retain_fn S K V) s st,
     (forall s k v, f s k v = g s k v) -> ms_retain m f s st = ms_retain m g s st) ->
  forall w l s, Forall (fun a => a <> Bad) (fst (fst (answers (fmap_req m U E) l s (map_new m w)))) ->
  told_by (map_file m None (program map_text)) U (front_req m (program map_text) U E) w l s =
  Some (fst (answers (fmap_req m U E) l s (map_new m w))).
Proof. intros K V S m U E X. rewrite map_read. exact (front_told m U E X). Qed.
Print Assumptions C70_map_any.

(** [Map::default] and [Map::from_iter]; the loop of the latter ends. *)
Theorem C70_map_default : forall K V S (m : MapStorage K V) (U : user_fns K V S) w s,
  front_default m (program map_text) U w s = Some (map_val m (map_default m w), s).
Proof. intros K V S m U. rewrite map_read. exact (default_ok m U). Qed.
Print Assumptions C70_map_default.
Theorem C70_map_from_iter : forall K V S (m : MapStorage K V) (U : user_fns K V S) w l s,
  returns (fun n => front_from_iter m (program map_text) U n w l s) (map_val m (map_from_iter m w l), s).
Proof.
  intros K V S m U w l s. rewrite map_read. eexists. exact (from_iter_ok m U w l s).
Qed.
Print Assumptions C70_map_from_iter.

(** Comparing, choosing and hashing maps; [None] where the storage has no such impl. *)
Theorem C70_map_order : forall K V S (m : MapStorage K V) (U : user_fns K V S) (ord : order_fns V S),
  (forall q s a b, front_order m (program map_text) U ord q s (map_val m a) (map_val m b) = map_order m ord q s a b) /\
  (forall q s a b, front_pick m (program map_text) U ord q s (map_val m a) (map_val m b) =
     option_map (fun g => map_val m (g a b))
       (match q with PMax => map_max m (o_cmp0 ord) | PMin => map_min m (o_cmp0 ord) end)) /\
  (forall s a b c, front_clamp m (program map_text) U ord s (map_val m a) (map_val m b) (map_val m c) =
     option_map (fun g => res_map (map_val m) (g a b c)) (map_clamp m (o_pcmp0 ord))) /\
  (forall s a, front_hash m (program map_text) U ord s (map_val m a) =
     option_map (fun g => g s a) (map_hash_with m (o_word ord) (o_hash ord))).
Proof.
  intros K V S m U ord. rewrite map_read.
  exact (conj (order_ok m U ord) (conj (pick_ok m U ord) (conj (clamp_ok m U ord) (hash_ok m U ord)))).
Qed.
Print Assumptions C70_map_order.

(** Sets, src/set.rs. *)
Theorem C70_set : forall t ki V S (U : user_fns (key t) V S) w l s,
  derive t = Some ki ->
  let m := ki_set ki in
  told_by (set_file m None (program set_text)) U (front_sreq m (program set_text) U) w l s =
  Some (fst (answers (gset_req m U) l s (set_new m w))).
Proof. intros t ki V S U w l s D. cbv zeta. rewrite set_read. exact (front_set_told (ki_set ki) U (derived_set_ext t ki D) w l s). Qed.
Print Assumptions C70_set.
Theorem C70_set_eq : forall t ki V S (U : user_fns (key t) V S) w1 w2 l1 l2 s,
  derive t = Some ki ->
  let m := ki_set ki in
  compare_new (set_file m None (program set_text)) U (front_sreq m (program set_text) U) w1 w2 l1 l2 s =
  Some (compared (gset_req m U) (set_compare m) (set_new m w1) (set_new m w2) l1 l2 s).
Proof.
  intros t ki V S U w1 w2 l1 l2 s D. cbv zeta. rewrite set_read.
  exact (front_set_compared (ki_set ki) U (derived_set_ext t ki D) w1 w2 l1 l2 s).
Qed.
Print Assumptions C70_set_eq.
Theorem C70_set_any : forall K V S (m : SetStorage K) (U : user_fns K V S),
  (forall (f g : set_retain_fn S K) s st,
     (forall s k, f s k = g s k) -> ss_retain m f s st = ss_retain m g s st) ->
  forall w l s,
  told_by (set_file m None (program set_text)) U (front_sreq m (program set_text) U) w l s =
  Some (fst (answers (gset_req m U) l s (set_new m w))).
Proof. intros K V S m U X. rewrite set_read. exact (front_set_told m U X). Qed.
Print Assumptions C70_set_any.
Theorem C70_set_default : forall K V S (m : SetStorage K) (U : user_fns K V S) w s,
  front_set_default m (program set_text) U w s = Some (set_val m (set_default m w), s).
Proof. intros K V S m U. rewrite set_read. exact (set_default_ok m U). Qed.
Print Assumptions C70_set_default.
Theorem C70_set_from_iter : forall K V S (m : SetStorage K) (U : user_fns K V S) w l s,
  returns (fun n => front_set_from_iter m (program set_text) U n w l s) (set_val m (set_from_iter m w l), s).
Proof.
  intros K V S m U w l s. rewrite set_read. eexists. exact (set_from_iter_ok m U w l s).
Qed.
Print Assumptions C70_set_from_iter.
Theorem C70_set_from_array : forall K V S (m : SetStorage K) (U : user_fns K V S) w l s,
  returns (fun n => front_set_from_array m (program set_text) U n w l s) (set_val m (set_from_iter m w l), s).
Proof.
  intros K V S m U w l s. rewrite set_read. eexists. exact (set_from_array_ok m U w l s).
Qed.
Print Assumptions C70_set_from_array.
Theorem C70_set_order : forall K V S (m : SetStorage K) (U : user_fns K V S) (word : S -> Z -> S),
  (forall q s a b, front_set_order m (program set_text) U word q s (set_val m a) (set_val m b) = set_order m q s a b) /\
  (forall q s a b, front_set_pick m (program set_text) U word q s (set_val m a) (set_val m b) =
     option_map (fun g => set_val m (g a b)) (match q with PMax => set_max m | PMin => set_min m end)) /\
  (forall s a b c, front_set_clamp m (program set_text) U word s (set_val m a) (set_val m b) (set_val m c) =
     option_map (fun g => res_map (set_val m) (g a b c)) (set_clamp m)) /\
  (forall s a, front_set_hash m (program set_text) U word s (set_val m a) =
     option_map (fun g => fold_left word (g a) s) (set_hash m)).
Proof.
  intros K V S m U word. rewrite set_read.
  exact (conj (set_order_ok m U word) (conj (set_pick_ok m U word) (conj (set_clamp_ok m U word) (set_hash_ok m U word)))).
Qed.
Print Assumptions C70_set_order.
Theorem C70_set_raw : forall K V S (m : SetStorage K) (U : user_fns K V S) (word : S -> Z -> S) s,
  (forall a, front_as_raw m (program set_text) U word s (set_val m a) =
     option_map (fun g => N.to_nat (g a)) (set_as_raw m)) /\
  (forall n, front_from_raw m (program set_text) U n s =
     option_map (fun g => set_val m (g (N.of_nat n))) (set_from_raw m)).
Proof.
  intros K V S m U word s. rewrite set_read.
  exact (conj (as_raw_ok m U word s) (fun n => from_raw_ok m U n s)).
Qed.
Print Assumptions C70_set_raw.

(** [a.intersection(&b)], what is asked of it, and then its [fold]: the text ends whenever the
    model does and with the same answers. *)
Theorem C70_intersection : forall K V S (m : SetStorage K) (U : user_fns K V S) fuel l (g : V -> K -> V) init s a b r,
  model_inter m fuel l g init a b = Some r ->
  returns (fun n => text_inter m (program set_text) U n l g init s (set_val m a) (set_val m b)) r.
Proof.
  intros K V S m U fuel l g init s a b r H. rewrite set_read. eexists.
  exact (fun n => inter_ok m U fuel l g init s a b r n H).
Qed.
Print Assumptions C70_intersection.
(** So it hands out exactly the common elements, each once, in order. *)
Theorem C70_intersection_elements : forall t ki (a b : ss_St (ki_set ki)), derive t = Some ki ->
  set_reachable (ki_set ki) a -> set_reachable (ki_set ki) b ->
  exists l,
    elements (fun k => set_contains (ki_set ki) a k && set_contains (ki_set ki) b k) l /\
    sorted_by (key_before t) l /\
    forall V S (U : user_fns (key t) V S) (g : V -> key t -> V) init s k,
    returns (fun n => text_inter (ki_set ki) (program set_text) U n (repeat INext k) g init s
                        (set_val (ki_set ki) a) (set_val (ki_set ki) b))
      (map (@IsElem (key t)) (fst (deque (repeat Spec.Front k) l)),
       fold_left g (snd (deque (repeat Spec.Front k) l)) init).
Proof. exact c70_inter_elements. Qed.
Print Assumptions C70_intersection_elements.

(** Non-vacuity. A user whose [clone] unwinds at 13 and whose destructor unwinds at 99. *)
Definition front_user {K} : user_fns K nat nat :=
  MkUser (fun s _ v => (s + 1, v + 5, Some (Nat.even v))) (fun s _ => (s + 1, Some (Nat.even s)))
    (fun s v => (s + 10, if Nat.eqb v 13 then None else Some v)) (fun s a b => (s, Some (Nat.eqb a b)))
    (fun s v => (s + 100, Nat.eqb v 99)).
(** The closure of [and_modify] unwinds at 9, [V::default] once the state has reached 20. *)
Definition front_entries {K} : entry_fns K nat nat :=
  MkEntryFns (fun s => (s + 1, Some 20)) (fun s _ => (s + 1, Some 30))
    (fun s v => (s + 2, v + 1, if Nat.eqb v 9 then Unwound else Done)) (fun s => (s + 7, if Nat.ltb s 20 then Some 0 else None)).
(** Occupied and vacant entries, one chain that unwinds, both loops over references. *)
Example C70_map_runs :
  told_by (map_file thing_m None (program map_text)) front_user
    (front_req thing_m (program map_text) front_user front_entries) w0
    [FPlain (MInsert k_unit 4); FEntry k_unit 2 (OrInsert 50 (Some 8)); FEntry k_unit 3 ToKey;
     FEntry (k_num None) 1 (OrInsertWithKey (Some 31)); FEntry (k_num None) 1 (OrInsertWith None);
     FEntry (k_flag true) 0 (OrDefault None); FEntry (k_flag false) 0 (OrDefault None);
     FPlain MLen; FRefIter [AHint; ANext; ANext]; FRefIterMut (fun _ v => v + 40) [ANext]; FPlain (MGet k_unit);
     FPlain MRetain; FPlain MLen; FPlain (MEntry k_unit OnRemove); FPlain (MIter ByIntoIter [ANext; ANext; ANext])] 0 =
  Some ([Opt None; Val 6; Unwinds; Val 30; Val 32; Val 0; Val 0; Num 4;
         Items [Bounds 0 None; Item (Some (Some k_unit, Some 10)); Item (Some (Some (k_flag true), Some 0))];
         Items [Item (Some (Some k_unit, Some 10))];
         Opt (Some 50); Nothing; Num 4; Opt (Some 55);
         Items [Item (Some (Some (k_flag true), Some 5)); Item (Some (Some (k_flag false), Some 5));
                Item (Some (Some (k_num None), Some 37))]], 29).
Proof. vm_compute. reflexivity. Qed.
Example C70_map_derived : exists ki, derive thing_t = Some ki /\ ki_map ki nat = thing_m.
Proof. exists thing_ki. split; reflexivity. Qed.
(** The entries of the map in a value of the program. *)
Definition entries_in (v : val nat (foreign_map thing_m)) : option (list (key thing_t * nat)) :=
  match v with
  | VData "Map" "" [("storage"%string, VForeign (XMap _ st))] => drain (ms_Iter thing_m) 9 (map_iter thing_m st)
  | _ => None
  end.
Example C70_map_from_iter_runs :
  match front_from_iter thing_m (program map_text) (front_user (K := key thing_t)) 60 w0
          [(k_unit, 1); (k_num None, 2); (k_unit, 3)] 0 with
  | Some (v, _) => entries_in v
  | None => None
  end = Some [(k_unit, 3); (k_num None, 2)].
Proof. vm_compute. reflexivity. Qed.
Example C70_set_from_array_runs :
  match front_set_from_array thing_s (program set_text) (V := nat) (front_user (K := key thing_t)) 60 w0
          [k_unit; k_num None; k_unit] 0 with
  | Some (VData "Set" "" [("storage"%string, VForeign (YSet _ st))], _) => drain (ss_Iter thing_s) 9 (set_iter thing_s st)
  | _ => None
  end = Some [k_unit; k_num None].
Proof. vm_compute. reflexivity. Qed.
Example C70_set_runs :
  told_by (set_file thing_s None (program set_text)) (V := nat) front_user
    (front_sreq thing_s (program set_text) front_user) w0
    [GPlain (NInsert k_unit); GPlain (NInsert (k_num None)); GPlain (NInsert k_unit);
     GRefIter [AHint; ANext; AClone; ANext; ANext]; GPlain NRetain; GPlain NLen] 0 =
  Some ([Yes true; Yes false; Yes false;
         Items [Bounds 0 None; Item (Some (Some k_unit, None)); Item (Some (Some (k_num None), None)); Item None];
         Nothing; Num 1], 2).
Proof. vm_compute. reflexivity. Qed.
(** Two sets with two common elements. *)
Definition front_common : ss_St thing_s := build_set thing_s [k_unit; k_num (Some 9%Z); k_flag false; k_sub south; k_num None].
Example C70_intersection_runs :
  text_inter thing_s (program set_text) (front_user (K := key thing_t)) 80 [IHint; INext; IClone] (fun b _ => b + 1) 0 0
    (set_val thing_s thing_set) (set_val thing_s front_common) =
  Some ([IsBetween (0, None); IsElem (Some (k_num (Some 9%Z)))], 1).
Proof. vm_compute. reflexivity. Qed.
Example C70_intersection_model :
  model_inter thing_s 10 [IHint; INext; IClone] (fun b _ => b + 1) 0 thing_set front_common =
  Some ([IsBetween (0, None); IsElem (Some (k_num (Some 9%Z)))], 1).
Proof. vm_compute. reflexivity. Qed.
Example C70_intersection_reachable : set_reachable thing_s thing_set /\ set_reachable thing_s front_common.
Proof. split; [exact thing_set_reachable|]. unfold front_common. exact (build_set_reachable thing_s _). Qed.
(** Orders, choices and hashes exist and unwind; comparing and hashing log what they see. *)
Definition dir_m : MapStorage (key dir_t) nat := ki_map dir_ki nat.
Definition log_user {K} : user_fns K nat (list Z) :=
  MkUser (fun s _ v => (s, v, Some true)) (fun s _ => (s, Some true)) (fun s v => (s, Some v))
    (fun s a b => (s, Some (Nat.eqb a b))) (fun s v => (s, false)).
Definition front_orders : order_fns nat (list Z) :=
  MkOrderFns (fun s a b => ((s ++ [Z.of_nat a; Z.of_nat b])%list, if Nat.eqb a 13 then None else Some (Some (Nat.compare a b))))
    (fun s a b => ((s ++ [Z.of_nat a])%list, if Nat.eqb a 13 then None else Some (Nat.compare a b)))
    (fun s z => ((s ++ [z])%list, false)) (fun s v => ((s ++ [Z.of_nat v])%list, Nat.eqb v 13))
    (fun a b => Some (Nat.compare a b)) Nat.compare.
Definition dir_a : ms_St dir_m := build dir_m [(north, 1); (south, 13)].
Definition dir_b : ms_St dir_m := build dir_m [(north, 1); (south, 14)].
Definition got_dir (v : val nat (foreign_map dir_m)) : option (option nat) :=
  match v with
  | VData "Map" "" [("storage"%string, VForeign (XMap _ st))] => Some (map_get dir_m st south)
  | _ => None
  end.
Example C70_map_order_runs :
  front_order dir_m (program map_text) log_user front_orders OPartialCmp [] (map_val dir_m dir_a) (map_val dir_m dir_b) =
    Some ([1; 1; 13; 14]%Z, OrderUnwinds) /\
  front_order dir_m (program map_text) log_user front_orders OCmp [] (map_val dir_m dir_b) (map_val dir_m dir_a) =
    Some ([1; 14]%Z, IsCmp Gt) /\
  front_order dir_m (program map_text) log_user front_orders OGe [] (map_val dir_m dir_b) (map_val dir_m dir_a) =
    Some ([], IsSo true) /\
  front_hash dir_m (program map_text) log_user front_orders [] (map_val dir_m dir_b) =
    Some ([4; 1; 1; 0; 1; 14; 0]%Z, false) /\
  front_hash dir_m (program map_text) log_user front_orders [] (map_val dir_m dir_a) =
    Some ([4; 1; 1; 0; 1; 13]%Z, true) /\
  match front_pick dir_m (program map_text) log_user front_orders PMin [] (map_val dir_m dir_b) (map_val dir_m dir_a) with
  | Some v => got_dir v | None => None
  end = Some (Some 13) /\
  match front_clamp dir_m (program map_text) log_user front_orders [] (map_val dir_m dir_b) (map_val dir_m dir_b) (map_val dir_m dir_a) with
  | Some Panic => true | _ => false
  end = true.
Proof. repeat split; vm_compute; reflexivity. Qed.
(** A hash table has neither. *)
Example C70_map_order_none :
  front_order thing_m (program map_text) log_user front_orders OCmp [] (map_val thing_m things) (map_val thing_m things) = None /\
  map_order thing_m front_orders OCmp [] things things = None.
Proof. repeat split; vm_compute; reflexivity. Qed.
Notation bit_s := (ki_set bit_ki).
Definition bit_a : ss_St bit_s := build_set bit_s [north; south].
Definition say (s : list Z) (z : Z) : list Z := (s ++ [z])%list.
Definition got_bits (v : val nat (foreign_set bit_s)) : option (list (key bit_t)) :=
  match v with
  | VData "Set" "" [("storage"%string, VForeign (YSet _ st))] => drain (ss_Iter bit_s) 9 (set_iter bit_s st)
  | _ => None
  end.
Example C70_set_order_runs :
  front_set_order bit_s (program set_text) log_user say OCmp [] (set_val bit_s bit_a) (set_val bit_s bit_a) = Some ([], IsCmp Eq) /\
  front_set_order bit_s (program set_text) log_user say OLt [] (set_val bit_s (set_new bit_s w0)) (set_val bit_s bit_a) =
    Some ([], IsSo true) /\
  front_set_hash bit_s (program set_text) log_user say [] (set_val bit_s bit_a) = Some [5%Z] /\
  match front_set_clamp bit_s (program set_text) log_user say [] (set_val bit_s bit_a)
          (set_val bit_s bit_a) (set_val bit_s (set_new bit_s w0)) with
  | Some Panic => true | _ => false
  end = true.
Proof. repeat split; vm_compute; reflexivity. Qed.
Example C70_set_raw_runs :
  front_as_raw bit_s (program set_text) log_user say [] (set_val bit_s bit_a) = Some 5 /\
  match front_from_raw bit_s (program set_text) (V := nat) log_user 12 [] with
  | Some v => got_bits v | None => None
  end = Some [south; west] /\
  front_as_raw thing_s (program set_text) log_user say [] (set_val thing_s thing_set) = None.
Proof. repeat split; vm_compute; reflexivity. Qed.
(** Two maps and two sets, compared. *)
Example C70_eq_runs :
  compare_new (map_file thing_m None (program map_text)) front_user (front_req thing_m (program map_text) front_user front_entries)
    w0 w0 [FPlain (MInsert k_unit 4)] [FEntry k_unit 0 (OrInsert 3 (Some 4))] 0 = Some (0, Yes true) /\
  compare_new (set_file thing_s None (program set_text)) (V := nat) front_user (front_sreq thing_s (program set_text) front_user)
    w0 w0 [GPlain (NInsert k_unit)] [GPlain (NInsert (k_flag true))] 0 = Some (0, Yes false).
Proof. split; vm_compute; reflexivity. Qed.
