(** Properties of the entry API.  Closures may unwind.  Each theorem is followed
    by a concrete instance of its hypotheses. *)
Require Import List Arith NArith ZArith Bool Lia.
Import ListNotations.
From Verif Require Import Std Traits Key Api Spec Reach History KeyLaws MapFacts MapProofs Samples.

(** * C15: entry *)

Theorem C15_entry : forall t ki V (st : ms_St (ki_map ki V)) k,
  derive t = Some ki -> map_reachable (ki_map ki V) st ->
  (map_contains_key (ki_map ki V) st k = true ->
     exists o, map_entry (ki_map ki V) st k = Ok (Occupied o) /\
       ms_occ_key (ki_map ki V) st o = Ok k /\ entry_key (ki_map ki V) st (Occupied o) = Ok k) /\
  (map_contains_key (ki_map ki V) st k = false ->
     exists x, map_entry (ki_map ki V) st k = Ok (Vacant x) /\
       ms_vac_key (ki_map ki V) st x = k /\ entry_key (ki_map ki V) st (Vacant x) = Ok k).
Proof. intros t ki V st k E R. exact (c15 (derive_map_laws t ki V E) st k R). Qed.
Print Assumptions C15_entry.

Example C15_example : map_reachable thing_m things /\
  map_contains_key thing_m things (k_num (Some 9%Z)) = true /\
  map_contains_key thing_m things (k_num (Some 8%Z)) = false /\
  match map_entry thing_m things (k_num (Some 9%Z)) with Ok (Occupied _) => True | _ => False end /\
  match map_entry thing_m things (k_num (Some 8%Z)) with Ok (Vacant _) => True | _ => False end.
Proof. split; [exact things_reachable|]. repeat split. Qed.

(** * C16: the or_insert family *)

Theorem C16_or_insert : forall t ki V (st : ms_St (ki_map ki V)) k d,
  derive t = Some ki -> map_reachable (ki_map ki V) st ->
  exists e r st', map_entry (ki_map ki V) st k = Ok e /\
    entry_or_insert (ki_map ki V) st e d = Ok (r, st') /\
    or_inserts (ki_map ki V) st k d r st' /\ map_reachable (ki_map ki V) st'.
Proof. intros t ki V st k d E R. exact (c16_or_insert (derive_map_laws t ki V E) st k d R). Qed.
Print Assumptions C16_or_insert.

(** The closure runs exactly when the entry is vacant; if it unwinds the map is
    unchanged. *)
Theorem C16_or_insert_with : forall t ki V S (st : ms_St (ki_map ki V)) k (f : S -> S * option V) s,
  derive t = Some ki -> map_reachable (ki_map ki V) st ->
  exists e r st', map_entry (ki_map ki V) st k = Ok e /\
    entry_or_insert_with (ki_map ki V) st e f s =
      Ok (match map_get (ki_map ki V) st k with Some _ => s | None => fst (f s) end, r, st') /\
    map_reachable (ki_map ki V) st' /\
    match map_get (ki_map ki V) st k, snd (f s) with
    | None, None => r = None /\ st' = st
    | None, Some d => exists r', r = Some r' /\ or_inserts (ki_map ki V) st k d r' st'
    | Some v, _ => exists r', r = Some r' /\ or_inserts (ki_map ki V) st k v r' st' /\ st' = st
    end.
Proof. intros t ki V S st k f s E R. exact (c16_or_insert_with (derive_map_laws t ki V E) S st k f s R). Qed.
Print Assumptions C16_or_insert_with.

Theorem C16_or_insert_with_key : forall t ki V S (st : ms_St (ki_map ki V)) k
    (f : S -> key t -> S * option V) s,
  derive t = Some ki -> map_reachable (ki_map ki V) st ->
  exists e r st', map_entry (ki_map ki V) st k = Ok e /\
    entry_or_insert_with_key (ki_map ki V) st e f s =
      Ok (match map_get (ki_map ki V) st k with Some _ => s | None => fst (f s k) end, r, st') /\
    map_reachable (ki_map ki V) st' /\
    match map_get (ki_map ki V) st k, snd (f s k) with
    | None, None => r = None /\ st' = st
    | None, Some d => exists r', r = Some r' /\ or_inserts (ki_map ki V) st k d r' st'
    | Some v, _ => exists r', r = Some r' /\ or_inserts (ki_map ki V) st k v r' st' /\ st' = st
    end.
Proof.
  intros t ki V S st k f s E R. exact (c16_or_insert_with_key (derive_map_laws t ki V E) S st k f s R).
Qed.
Print Assumptions C16_or_insert_with_key.

(** [d]: what [V::default()] gives, [None] if it unwinds. *)
Theorem C16_or_default : forall t ki V (st : ms_St (ki_map ki V)) k d,
  derive t = Some ki -> map_reachable (ki_map ki V) st ->
  exists e r st', map_entry (ki_map ki V) st k = Ok e /\
    entry_or_default (ki_map ki V) st e d = Ok (r, st') /\ map_reachable (ki_map ki V) st' /\
    match map_get (ki_map ki V) st k, d with
    | None, None => r = None /\ st' = st
    | None, Some d => exists r', r = Some r' /\ or_inserts (ki_map ki V) st k d r' st'
    | Some v, _ => exists r', r = Some r' /\ or_inserts (ki_map ki V) st k v r' st' /\ st' = st
    end.
Proof. intros t ki V st k d E R. exact (c16_or_default (derive_map_laws t ki V E) st k d R). Qed.
Print Assumptions C16_or_default.

(** The closure runs exactly when the entry is occupied; what it left behind is
    stored even if it unwinds. *)
Theorem C16_and_modify : forall t ki V S (st : ms_St (ki_map ki V)) k (f : S -> V -> S * V * outcome) s,
  derive t = Some ki -> map_reachable (ki_map ki V) st ->
  exists e s' e' st', map_entry (ki_map ki V) st k = Ok e /\
    entry_and_modify (ki_map ki V) st e f s = Ok (s', e', st') /\ map_reachable (ki_map ki V) st' /\
    match map_get (ki_map ki V) st k with
    | None => s' = s /\ st' = st /\ e' = Some e
    | Some v =>
        let '(s1, v1, oc) := f s v in
        s' = s1 /\ map_get (ki_map ki V) st' k = Some v1 /\
        (forall k', k' <> k -> map_get (ki_map ki V) st' k' = map_get (ki_map ki V) st k') /\
        match oc with
        | Done => exists o, e = Occupied o /\ e' = Some e /\ occ_live (ki_map ki V) st' k o
        | Unwound => e' = None
        end
    end.
Proof. intros t ki V S st k f s E R. exact (c16_and_modify (derive_map_laws t ki V E) S st k f s R). Qed.
Print Assumptions C16_and_modify.

Example C16_example : map_reachable thing_m things /\
  map_get thing_m things (k_sub south) = Some 2 /\ map_get thing_m things (k_sub north) = None /\
  match map_entry thing_m things (k_sub south) with
  | Ok e => match entry_or_insert_with thing_m things e (fun n => (S n, Some 8)) 0 with
            | Ok (calls, Some r, st') => calls = 0 /\ deref thing_m st' r = Ok 2
            | _ => False
            end
  | _ => False
  end /\
  match map_entry thing_m things (k_sub north) with
  | Ok e => match entry_or_insert_with thing_m things e (fun n => (S n, Some 8)) 0 with
            | Ok (calls, Some r, st') =>
                calls = 1 /\ deref thing_m st' r = Ok 8 /\ map_get thing_m st' (k_sub north) = Some 8
            | _ => False
            end
  | _ => False
  end /\
  match map_entry thing_m things (k_sub south) with
  | Ok e => match entry_and_modify thing_m things e (fun n v => (S n, v + 7, Unwound)) 0 with
            | Ok (calls, None, st') => calls = 1 /\ map_get thing_m st' (k_sub south) = Some 9
            | _ => False
            end
  | _ => False
  end.
Proof. split; [exact things_reachable|]. repeat split. Qed.

(** * C17: operations of occupied and vacant entries *)

Theorem C17_occupied : forall t ki V (st : ms_St (ki_map ki V)) k o,
  derive t = Some ki -> occ_live (ki_map ki V) st k o ->
  exists v r, map_get (ki_map ki V) st k = Some v /\ ms_occ_key (ki_map ki V) st o = Ok k /\
    ms_occ_get (ki_map ki V) st o = Ok v /\
    ms_occ_get_mut (ki_map ki V) st o = Ok r /\ ms_occ_into_mut (ki_map ki V) st o = Ok r /\
    map_get_mut (ki_map ki V) st k = Some r /\ deref (ki_map ki V) st r = Ok v /\
    (forall w, exists st', ms_occ_insert (ki_map ki V) st o w = Ok (v, st') /\
       assign (ki_map ki V) st r w = Ok st' /\ map_get (ki_map ki V) st' k = Some w /\
       (forall k', k' <> k -> map_get (ki_map ki V) st' k' = map_get (ki_map ki V) st k') /\
       occ_live (ki_map ki V) st' k o) /\
    (exists st', ms_occ_remove (ki_map ki V) st o = Ok (v, st') /\
       map_get (ki_map ki V) st' k = None /\
       (forall k', k' <> k -> map_get (ki_map ki V) st' k' = map_get (ki_map ki V) st k') /\
       map_reachable (ki_map ki V) st').
Proof. intros t ki V st k o E H. exact (c17_occupied (derive_map_laws t ki V E) st k o H). Qed.
Print Assumptions C17_occupied.

Theorem C17_vacant : forall t ki V (st : ms_St (ki_map ki V)) k x v,
  derive t = Some ki -> map_reachable (ki_map ki V) st ->
  map_entry (ki_map ki V) st k = Ok (Vacant x) ->
  map_get (ki_map ki V) st k = None /\ ms_vac_key (ki_map ki V) st x = k /\
  exists r st', ms_vac_insert (ki_map ki V) st x v = Ok (r, st') /\
    map_get (ki_map ki V) st' k = Some v /\
    map_get_mut (ki_map ki V) st' k = Some r /\ deref (ki_map ki V) st' r = Ok v /\
    (forall k', k' <> k -> map_get (ki_map ki V) st' k' = map_get (ki_map ki V) st k') /\
    map_reachable (ki_map ki V) st'.
Proof.
  intros t ki V st k x v E R H. exact (c17_vacant (derive_map_laws t ki V E) st k x v R H).
Qed.
Print Assumptions C17_vacant.

Example C17_example : map_reachable thing_m things /\
  (exists o, occ_live thing_m things (k_num (Some 9%Z)) o /\
     ms_occ_get thing_m things o = Ok 5 /\
     match ms_occ_remove thing_m things o with
     | Ok (v, st') => v = 5 /\ map_len thing_m st' = 4
     | _ => False
     end) /\
  exists x, map_entry thing_m things (k_num (Some 8%Z)) = Ok (Vacant x) /\
     match ms_vac_insert thing_m things x 6 with
     | Ok (r, st') => deref thing_m st' r = Ok 6 /\ map_len thing_m st' = 6
     | _ => False
     end.
Proof.
  split; [exact things_reachable|]. split.
  - eexists. split; [apply ol_entry; [exact things_reachable|reflexivity]|]. repeat split.
  - eexists. split; [reflexivity|]. split; reflexivity.
Qed.

(** * C18: no undefined behaviour and no leak *)

(** Any program holding an entry runs without undefined behaviour, without
    leaking a stored value and without panic ([Ok]), and behaves as on a plain
    value. *)
Theorem C18_entry_programs : forall t ki V (st : ms_St (ki_map ki V)) k p,
  derive t = Some ki -> map_reachable (ki_map ki V) st ->
  exists st', run_entry (ki_map ki V) st k p =
      Ok (fst (spec_entry k (map_get (ki_map ki V) st k) p), st') /\
    map_reachable (ki_map ki V) st' /\
    map_get (ki_map ki V) st' k = snd (spec_entry k (map_get (ki_map ki V) st k) p) /\
    forall k', k' <> k -> map_get (ki_map ki V) st' k' = map_get (ki_map ki V) st k'.
Proof. intros t ki V st k p E R. exact (c18 (derive_map_laws t ki V E) st k p R). Qed.
Print Assumptions C18_entry_programs.

Example C18_example : map_reachable thing_m things /\
  match run_entry thing_m things (k_num None)
          (MkEprog [EGet; EInsert 10; EKey; EWrite 11; EGet] ERemove None) with
  | Ok (xs, st') =>
      xs = [SValue 4; SValue 4; SKey (k_num None); SUnit; SValue 11; SValue 11] /\
      map_len thing_m st' = 4
  | _ => False
  end /\
  match run_entry thing_m things k_unit (MkEprog [] EDrop (Some (1, 2))) with
  | Ok (xs, st') => xs = [] /\ map_get thing_m st' k_unit = Some 2
  | _ => False
  end.
Proof. split; [exact things_reachable|]. repeat split. Qed.

(** * C43: closures of the entry API that unwind *)

(** [or_insert_with], [or_insert_with_key] and [or_default] leave the map as it
    was; [and_modify] leaves the value as the closure left it and nothing else
    changed.  The map stays usable ([map_reachable]). *)
Theorem C43_entry_unwind : forall t ki V S (st : ms_St (ki_map ki V)) k,
  derive t = Some ki -> map_reachable (ki_map ki V) st ->
  exists e, map_entry (ki_map ki V) st k = Ok e /\
  (map_get (ki_map ki V) st k = None ->
     (forall (f : S -> S * option V) s s', f s = (s', None) ->
        entry_or_insert_with (ki_map ki V) st e f s = Ok (s', None, st)) /\
     (forall (f : S -> key t -> S * option V) s s', f s k = (s', None) ->
        entry_or_insert_with_key (ki_map ki V) st e f s = Ok (s', None, st)) /\
     entry_or_default (ki_map ki V) st e None = Ok (None, st)) /\
  (forall v (f : S -> V -> S * V * outcome) s s' v',
     map_get (ki_map ki V) st k = Some v -> f s v = (s', v', Unwound) ->
     exists st', entry_and_modify (ki_map ki V) st e f s = Ok (s', None, st') /\
       map_reachable (ki_map ki V) st' /\ map_get (ki_map ki V) st' k = Some v' /\
       forall k', k' <> k -> map_get (ki_map ki V) st' k' = map_get (ki_map ki V) st k').
Proof.
  intros t ki V S st k E R. set (L := derive_map_laws t ki V E).
  destruct (c16_or_default L st k None R) as (e & r0 & st0 & Ee & D & _ & Hd).
  exists e. split; [exact Ee|]. split.
  - intros N. split; [|split].
    + intros f s s' Hf. destruct (c16_or_insert_with L S st k f s R) as (e' & r & st' & Ee' & X & _ & H).
      rewrite Ee in Ee'. injection Ee' as <-. rewrite N, Hf in X, H. destruct H as [-> ->]. exact X.
    + intros f s s' Hf. destruct (c16_or_insert_with_key L S st k f s R) as (e' & r & st' & Ee' & X & _ & H).
      rewrite Ee in Ee'. injection Ee' as <-. rewrite N, Hf in X, H. destruct H as [-> ->]. exact X.
    + rewrite N in Hd. destruct Hd as [-> ->]. exact D.
  - intros v f s s' v' G Hf.
    destruct (c16_and_modify L S st k f s R) as (e' & s1 & e1 & st' & Ee' & X & R' & H).
    rewrite Ee in Ee'. injection Ee' as <-. rewrite G, Hf in H. destruct H as (-> & G' & O & ->).
    exists st'. auto.
Qed.
Print Assumptions C43_entry_unwind.

Example C43_example : map_reachable thing_m things /\
  map_get thing_m things k_unit = None /\ map_get thing_m things (k_num None) = Some 4 /\
  match map_entry thing_m things (k_num None) with
  | Ok e => match entry_and_modify thing_m things e (fun s v => (s + 1, v + 10, Unwound)) 0 with
            | Ok (s, e', st') => s = 1 /\ e' = None /\ map_get thing_m st' (k_num None) = Some 14
            | _ => False
            end
  | _ => False
  end.
Proof. split; [exact things_reachable|]. repeat split. Qed.
