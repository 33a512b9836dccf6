(** A [Map] around a storage that obeys the laws never answers a request with [Bad]. *)
Require Import List Bool.
Import ListNotations.
From Verif Require Import Std Traits Api Spec MapCore IterLaws MapLaws ClearSpec ClearProofs EffectProofs SrcSpec
  SrcFront SrcSound.

Section Map.
  Context {K V S : Type} (m : MapStorage K V) {sp : KeySpec K} (L : MapLaws sp m) (U : user_fns K V S)
    (E : entry_fns K V S).
  Context (pl : K -> K -> spot).
  Hypothesis clears : forall D (dr : drop_fn D V),
    clears_at pl dr (fun k => k) (fun d st => ms_clear_drop m dr d st) (fun f s st => ms_retain m f s st).
  Hypothesis cloned : forall X (f : clone_fn X V),
    clones f (fun x st => ms_clone_with m f x st) (fun g x st => ms_retain m g x st) (ms_clone m).
  Notation C := (ml_core L).
  Notation inv := (c_inv C).
  Notation ents := (c_ents C).
  Notation fine := (fine (S := S) m L).

  Definition valid (st : ms_St m) (k : K) (e : map_entry_t m) : Prop :=
    match e with
    | Occupied o => exists r, ml_occ_ok L st o k r
    | Vacant x => ml_vac_ok L st x k
    end.

  Lemma through_fine w s st r : inv st -> In r (map eref (ents st)) ->
    let '(st', a) := read_write m w st r in fine (s, st', a).
  Proof.
    intros I H. unfold read_write, deref, assign.
    destruct (load_ok r (ents st) H) as (v & Ev). pose proof (c_load _ _ _ C st r I) as El. cbn in El.
    rewrite El, Ev. cbn. destruct w as [x|]; [|now split].
    destruct (put_ok m L st r x I H) as (st' & Es & I' & _). rewrite Es. cbn. now split.
  Qed.
  Lemma occ_ref st o k r : inv st -> ml_occ_ok L st o k r -> In r (map eref (ents st)).
  Proof.
    intros I Ho. destruct (ml_occ _ _ L st o k r I Ho) as (v & Ev & _). exact (lookup_in _ _ _ _ Ev).
  Qed.
  Lemma vac_ref st x k v : inv st -> ml_vac_ok L st x k -> exists r st',
    ms_vac_insert m st x v = Ok (r, st') /\ inv st' /\ In r (map eref (ents st')).
  Proof.
    intros I Hx. destruct (ml_vac _ _ L st x k I Hx) as (_ & _ & Ei). destruct (Ei v) as (r & Ev & Er).
    exists r, (snd (ms_insert m st k v)). pose proof (insert_inv m L st k v I) as I'.
    split; [exact Ev|]. split; [exact I'|].
    pose proof (c_get_mut _ _ _ C _ k I') as Eg. cbn in Eg. rewrite Er in Eg.
    destruct (lookup (ks_eqb sp) k (ents (snd (ms_insert m st k v)))) as [[z r']|] eqn:El'; [|discriminate].
    injection Eg as ->. exact (lookup_in _ _ _ _ El').
  Qed.

  Lemma modify_fine n k : forall s st e, inv st -> valid st k e ->
    match modify_all m E n s st e with
    | (_, st', inl e') => inv st' /\ valid st' k e'
    | (_, st', inr a) => inv st' /\ a <> Bad
    end.
  Proof.
    induction n as [|n IH]; intros s st e I H; cbn [modify_all]; [now split|].
    destruct e as [o|x]; cbn [entry_and_modify]; [|now apply IH].
    destruct H as (r & Ho). destruct (ml_occ _ _ L st o k r I Ho) as (v & Ev & _ & _ & E3 & _).
    rewrite E3. cbn [res_bind]. pose proof (occ_ref st o k r I Ho) as Hr.
    destruct (load_ok r (ents st) Hr) as (y & Ey). pose proof (c_load _ _ _ C st r I) as El. cbn in El.
    unfold deref, assign. rewrite El, Ey. cbn [res_bind].
    destruct (e_modify E s y) as [[s1 y1] oc]. destruct (put_ok m L st r y1 I Hr) as (st1 & Es & I1 & _).
    rewrite Es. cbn. pose proof (ml_occ_stable _ _ L st o k r y1 st1 I Ho Es) as Ho1.
    destruct oc; [|now split]. apply IH; [exact I1|]. now exists r.
  Qed.

  Lemma entry_fine k n e s st : inv st -> fine (entry_req m E k n e s st).
  Proof.
    intros I. unfold entry_req, map_entry.
    assert (H : exists x, ms_entry m st k = Ok x /\ valid st k x).
    { pose proof (ml_entry _ _ L st k I) as H. destruct (lookup (ks_eqb sp) k (ents st)) as [[v r]|].
      - destruct H as (o & Eo & Ho). exists (Occupied o). split; [exact Eo|now exists r].
      - destruct H as (x & Ex & Hx). now exists (Vacant x). }
    destruct H as (x & -> & Hx). pose proof (modify_fine n k s st x I Hx) as M.
    destruct (modify_all m E n s st x) as [[s2 st2] [y|a]]; [|exact M]. destruct M as [I2 Hy]. clear I Hx st x s.
    destruct y as [o|x].
    - destruct Hy as (r & Ho). pose proof (occ_ref st2 o k r I2 Ho) as Hr.
      destruct (ml_occ _ _ L st2 o k r I2 Ho) as (v & _ & E1 & _ & _ & E4 & _).
      destruct e as [|v' w|w|w|w];
        cbn [entry_key entry_or_insert entry_or_insert_with entry_or_insert_with_key entry_or_default];
        unfold occ_into_mut; rewrite ?E1, ?E4; cbn;
        try (now split); pose proof (through_fine w s2 st2 r I2 Hr) as T;
        destruct (read_write m w st2 r) as [st4 a]; exact T.
    - cbn [valid] in Hy.
      assert (T : forall v w s3, fine
        (match ms_vac_insert m st2 x v with
         | Ok (r, st3) => let '(st4, a) := read_write m w st3 r in (s3, st4, a)
         | _ => (s2, st2, Bad)
         end)).
      { intros v w s3. destruct (vac_ref st2 x k v I2 Hy) as (r & st' & -> & I' & Hr).
        pose proof (through_fine w s3 st' r I' Hr) as T. destruct (read_write m w st' r) as [st4 a]. exact T. }
      destruct e as [|v' w|w|w|w];
        cbn [entry_key entry_or_insert entry_or_insert_with entry_or_insert_with_key entry_or_default].
      + now split.
      + specialize (T v' w s2). destruct (ms_vac_insert m st2 x v') as [[r st3]| | |]; exact T.
      + destruct (e_make E s2) as [s3 [v|]]; [|now split].
        specialize (T v w s3). destruct (ms_vac_insert m st2 x v) as [[r st3]| | |]; exact T.
      + destruct (e_make_key E s2 (ms_vac_key m st2 x)) as [s3 [v|]]; [|now split].
        specialize (T v w s3). destruct (ms_vac_insert m st2 x v) as [[r st3]| | |]; exact T.
      + destruct (e_default E s2) as [s3 [v|]]; [|now split].
        specialize (T v w s3). destruct (ms_vac_insert m st2 x v) as [[r st3]| | |]; exact T.
  Qed.

  Lemma freq_fine q s st : inv st -> fine (fmap_req m U E q s st).
  Proof.
    intros I. destruct q as [q|l|g l|k n e]; cbn [fmap_req].
    - exact (req_fine m L U pl clears cloned q s st I).
    - now split.
    - destruct (ml_iter_mut _ _ L st I) as [O R]. apply (items_fine m L (ms_IterMut m) (ml_IterMut L)); auto.
      intros a Ha. unfold map_iter_mut in Ha. rewrite R in Ha. apply in_map_iff in Ha as (y & <- & Hy). cbn.
      now apply in_map.
    - now apply entry_fine.
  Qed.
  Lemma freqs_fine l : forall s st, inv st ->
    let '(r, _, st') := answers (fmap_req m U E) l s st in Forall (fun a => a <> Bad) r /\ inv st'.
  Proof.
    induction l as [|q l IH]; intros s st I; cbn [answers]; [split; [constructor|exact I]|].
    pose proof (freq_fine q s st I) as [I1 N]. destruct (fmap_req m U E q s st) as [[s1 st1] a]. cbn in I1, N.
    specialize (IH s1 st1 I1). destruct (answers (fmap_req m U E) l s1 st1) as [[r s2] st2].
    destruct IH as [Hr I2]. split; [now constructor|exact I2].
  Qed.
  Lemma new_freqs_fine w l s : Forall (fun a => a <> Bad) (fst (fst (answers (fmap_req m U E) l s (map_new m w)))).
  Proof.
    pose proof (freqs_fine l s (map_new m w) (proj1 (ml_empty _ _ L w))) as H.
    destruct (answers (fmap_req m U E) l s (map_new m w)) as [[r s2] st2]. exact (proj1 H).
  Qed.
End Map.
