(** Properties about [Debug] output with arbitrary sinks, modes and implementations of
    [Debug] for keys and values. *)
Require Import String Ascii List Arith NArith ZArith Bool Lia.
Import ListNotations.
From Verif Require Import Std Traits Key Api Debug Spec Reach History StateSpec SetLaws KeyLaws
  IterFacts MapFacts HistProofs MapProofs SetFacts SetProofs KeyFacts StateProofs
  Fmt FmtSpec FmtProofs FmtText Samples.
Local Open Scope string_scope.
Local Open Scope list_scope.

(** * C65: printing *)

(** Whatever the sink does ([wr]), however keys and values print themselves ([fk], [fv]),
    with whatever options ([o]): printing a map performs the layout of its entries in
    declaration order, and stops at the first piece that fails or panics. *)
Theorem C65_map : forall (O D W : Type) (alternate : O -> bool) (wr : out W) (o : O)
    t ki V (fk : fmt_fn O D (key t)) (fv : fmt_fn O D V) (st : ms_St (ki_map ki V)),
  derive t = Some ki -> map_reachable (ki_map ki V) st ->
  exists l, lists (map_get (ki_map ki V) st) l /\ sorted_by (key_before t) (map fst l) /\
    yields (ms_Iter (ki_map ki V)) (map_iter (ki_map ki V) st) l /\
    forall w d,
      returns (fun n => map_fmt alternate wr o fk fv (ki_map ki V) n st w d)
              (do_layout (either fk fv) o wr (map_layout (alternate o) l) w d).
Proof.
  intros O D W alternate wr o t ki V fk fv st E R.
  destruct (c06 (derive_map_laws t ki V E) st R) as (l & Y & Hl & Hs).
  exists l. split; [exact Hl|]. split.
  - exact (sorted_by_ext _ _ _ (fun a b => proj2 (proj1 spec_before t a b)) Hs).
  - split; [exact Y|]. intros w d. now apply map_fmt_does.
Qed.
Print Assumptions C65_map.

(** The same of a set. *)
Theorem C65_set : forall (O D W : Type) (alternate : O -> bool) (wr : out W) (o : O)
    t ki (ft : fmt_fn O D (key t)) (st : ss_St (ki_set ki)),
  derive t = Some ki -> set_reachable (ki_set ki) st ->
  exists l, elements (set_contains (ki_set ki) st) l /\ sorted_by (key_before t) l /\
    yields (ss_Iter (ki_set ki)) (set_iter (ki_set ki) st) l /\
    forall w d,
      returns (fun n => set_fmt alternate wr o ft (ki_set ki) n st w d)
              (do_layout ft o wr (set_layout (alternate o) l) w d).
Proof.
  intros O D W alternate wr o t ki ft st E R.
  destruct (s_c30 (derive_set_laws t ki E) st R) as (l & Y & _ & Hl & Hs & _).
  exists l. split; [exact Hl|]. split.
  - exact (sorted_by_ext _ _ _ (fun a b => proj2 (proj1 spec_before t a b)) Hs).
  - split; [exact Y|]. intros w d. now apply set_fmt_does.
Qed.
Print Assumptions C65_set.

(** And of what an intersection has left after [k] calls of [next]. *)
Theorem C65_intersection : forall (O D W : Type) (alternate : O -> bool) (wr : out W) (o : O)
    t ki (ft : fmt_fn O D (key t)) (a b : ss_St (ki_set ki)),
  derive t = Some ki -> set_reachable (ki_set ki) a -> set_reachable (ki_set ki) b ->
  exists l, elements (fun k => set_contains (ki_set ki) a k && set_contains (ki_set ki) b k) l /\
    forall k, exists x',
      returns (fun n => inter_run (ki_set ki) n k (set_intersection (ki_set ki) a b))
              (fst (deque (repeat Front k) l), x') /\
      forall w d,
        returns (fun n => inter_fmt alternate wr o ft n x' w d)
          (do_layout ft o wr (inter_layout (alternate o) (snd (deque (repeat Front k) l))) w d).
Proof.
  intros O D W alternate wr o t ki ft a b E Ra Rb.
  destruct (s_c31 (derive_set_laws t ki E) a b Ra Rb) as (l & El & _ & _ & _ & H).
  exists l. split; [exact El|]. intros k. destruct (H k) as (x' & R & Dr & _).
  exists x'. split; [exact R|]. intros w d.
  exact (inter_fmt_does alternate wr o ft _ (sl_Iter (derive_set_laws t ki E)) x' _ w d Dr).
Qed.
Print Assumptions C65_intersection.

(** The text: when keys and values print as [tk] and [tv] say, in however many pieces, a
    sink that collects text receives the text of the map, or, when it fails, a beginning
    of it; without failures, printing succeeds. *)
Theorem C65_map_text : forall (O D W : Type) (alternate : O -> bool) (text : W -> string)
    (wr : out W) (o : O) t ki V (fk : fmt_fn O D (key t)) (fv : fmt_fn O D V)
    (tk : key t -> string) (tv : V -> string) (st : ms_St (ki_map ki V)),
  derive t = Some ki -> map_reachable (ki_map ki V) st -> collects text wr ->
  (forall d k, prints (fk o d k) (tk k)) -> (forall d v, prints (fv o d v) (tv v)) ->
  exists l, lists (map_get (ki_map ki V) st) l /\ sorted_by (key_before t) (map fst l) /\
    forall w d, exists r,
      returns (fun n => map_fmt alternate wr o fk fv (ki_map ki V) n st w d) r /\
      prints_to text wr w r (framed "{" "}" (alternate o) (map (entry_text tk tv) l)).
Proof.
  intros O D W alternate text wr o t ki V fk fv tk tv st E R C Fk Fv.
  destruct (C65_map O D W alternate wr o t ki V fk fv st E R) as (l & Hl & Hs & _ & H).
  exists l. split; [exact Hl|]. split; [exact Hs|]. intros w d. eexists. split; [apply H|].
  now apply map_text.
Qed.
Print Assumptions C65_map_text.

Theorem C65_set_text : forall (O D W : Type) (alternate : O -> bool) (text : W -> string)
    (wr : out W) (o : O) t ki (ft : fmt_fn O D (key t)) (txt : key t -> string)
    (st : ss_St (ki_set ki)),
  derive t = Some ki -> set_reachable (ki_set ki) st -> collects text wr ->
  (forall d x, prints (ft o d x) (txt x)) ->
  exists l, elements (set_contains (ki_set ki) st) l /\ sorted_by (key_before t) l /\
    forall w d, exists r,
      returns (fun n => set_fmt alternate wr o ft (ki_set ki) n st w d) r /\
      prints_to text wr w r (framed "{" "}" (alternate o) (map txt l)).
Proof.
  intros O D W alternate text wr o t ki ft txt st E R C F.
  destruct (C65_set O D W alternate wr o t ki ft st E R) as (l & Hl & Hs & _ & H).
  exists l. split; [exact Hl|]. split; [exact Hs|]. intros w d. eexists. split; [apply H|].
  now apply items_text.
Qed.
Print Assumptions C65_set_text.

Theorem C65_intersection_text : forall (O D W : Type) (alternate : O -> bool)
    (text : W -> string) (wr : out W) (o : O) t ki (ft : fmt_fn O D (key t))
    (txt : key t -> string) (a b : ss_St (ki_set ki)),
  derive t = Some ki -> set_reachable (ki_set ki) a -> set_reachable (ki_set ki) b ->
  collects text wr -> (forall d x, prints (ft o d x) (txt x)) ->
  exists l, elements (fun k => set_contains (ki_set ki) a k && set_contains (ki_set ki) b k) l /\
    forall k, exists x',
      returns (fun n => inter_run (ki_set ki) n k (set_intersection (ki_set ki) a b))
              (fst (deque (repeat Front k) l), x') /\
      forall w d, exists r,
        returns (fun n => inter_fmt alternate wr o ft n x' w d) r /\
        prints_to text wr w r
          (framed "[" "]" (alternate o) (map txt (snd (deque (repeat Front k) l)))).
Proof.
  intros O D W alternate text wr o t ki ft txt a b E Ra Rb C F.
  destruct (C65_intersection O D W alternate wr o t ki ft a b E Ra Rb) as (l & El & H).
  exists l. split; [exact El|]. intros k. destruct (H k) as (x' & Rn & H').
  exists x'. split; [exact Rn|]. intros w d. eexists. split; [apply H'|]. now apply items_text.
Qed.
Print Assumptions C65_intersection_text.

(** * Examples *)

(** Keys print in one piece; values in two, on two lines, and count how often they were
    asked; value 1 panics when [boom]. *)
Definition show_key (k : key thing_t) : string :=
  match k with
  | inl _ => "Unit"
  | inr (inl b) => if b then "Flag(true)" else "Flag(false)"
  | inr (inr (inl (Some z))) => if Z.eqb z 7 then "Num(Some(7))" else "Num(Some(_))"
  | inr (inr (inl None)) => "Num(None)"
  | _ => "Sub(_)"
  end.
Definition give_up (d : nat) : script nat := Stop d FErr.
Definition fkey : fmt_fn bool nat (key thing_t) := fun _ d k =>
  Write d (show_key k) (fun ok => if ok then Stop d FOk else give_up d).
Definition fval (boom : bool) : fmt_fn bool nat nat := fun _ d v =>
  if (boom && Nat.eqb v 1)%bool then Stop (S d) FPanic else
  Write (S d) ("<" ++ newline)%string (fun ok => if ok then
    Write (S d) (if Nat.eqb v 1 then "1>" else "_>")%string (fun ok =>
      if ok then Stop (S d) FOk else give_up (S d))
    else give_up (S d)).
Definition show_val (v : nat) : string :=
  ("<" ++ newline ++ (if Nat.eqb v 1 then "1>" else "_>"))%string.

Lemma fkey_prints o d k : prints (fkey o d k) (show_key k).
Proof.
  unfold fkey. rewrite <- (DebugProofs.app_nil_s (show_key k)) at 2.
  apply PrWrite; [constructor|]. exists d, FErr. split; [reflexivity|discriminate].
Qed.
Lemma fval_prints o d v : prints (fval false o d v) (show_val v).
Proof.
  unfold fval, show_val. cbn [andb].
  change ("<" ++ newline ++ (if Nat.eqb v 1 then "1>" else "_>"))%string
    with (("<" ++ newline) ++ (if Nat.eqb v 1 then "1>" else "_>"))%string.
  apply PrWrite; [|exists (S d), FErr; split; [reflexivity|discriminate]].
  destruct (Nat.eqb v 1); [apply (PrWrite (S d) "1>" _ "")|apply (PrWrite (S d) "_>" _ "")];
    try constructor; exists (S d), FErr; (split; [reflexivity|discriminate]).
Qed.
Lemma to_string_collects : collects (fun w => w) to_string.
Proof. intros w s. exists s. repeat split. exists "". now rewrite DebugProofs.app_nil_s. Qed.
Lemma buffer_collects n : collects (fun w => w) (buffer n).
Proof.
  intros w s. unfold buffer. destruct (String.length (w ++ s) <=? n)%nat.
  - exists s. repeat split. exists "". now rewrite DebugProofs.app_nil_s.
  - exists "". split; [now exists s|]. split; [now rewrite DebugProofs.app_nil_s|discriminate].
Qed.

(** In alternate mode, to a string; plain, into a buffer for 40 characters, where it
    fails in the third entry, whose value is never asked; with a value that panics. *)
Example C65_example : map_reachable thing_m things /\ collects (fun w => w) to_string /\
  (forall d k, prints (fkey true d k) (show_key k)) /\
  (forall d v, prints (fval false true d v) (show_val v)) /\
  map_fmt (fun o => o) to_string true fkey (fval false) thing_m 9 things "" 0 =
    Some ("{
    Flag(true): <
    _>,
    Num(Some(7)): <
    1>,
    Num(Some(_)): <
    _>,
    Num(None): <
    _>,
    Sub(_): <
    _>,
}"%string, 5, FOk) /\
  map_fmt (fun o => o) to_string true fkey (fval false) thing_m 9 (map_new thing_m w0) "" 0 =
    Some ("{}"%string, 0, FOk).
Proof.
  split; [exact things_reachable|]. split; [exact to_string_collects|].
  split; [intros; apply fkey_prints|]. split; [intros; apply fval_prints|].
  split; vm_compute; reflexivity.
Qed.

Example C65_fail_example : map_reachable thing_m things /\ collects (fun w => w) (buffer 40) /\
  map_fmt (fun o => o) (buffer 40) false fkey (fval false) thing_m 9 things "" 0 =
    Some ("{Flag(true): <
_>, Num(Some(7)): <
1>, "%string, 2, FErr) /\
  map_fmt (fun o => o) to_string false fkey (fval true) thing_m 9 things "" 0 =
    Some ("{Flag(true): <
_>, Num(Some(7)): "%string, 2, FPanic).
Proof.
  split; [exact things_reachable|]. split; [exact (buffer_collects 40)|].
  split; vm_compute; reflexivity.
Qed.

Example C65_set_example : set_reachable thing_s thing_set /\
  option_map (fun r => snd r) (set_fmt (fun o => o) to_string true fkey thing_s 9 thing_set "" 0) =
    Some FOk /\
  option_map (fun r => fst (fst r))
    (set_fmt (fun o => o) to_string true fkey thing_s 9 thing_set "" 0) =
    option_map (fun l => framed "{" "}" true (map show_key l))
      (drain (ss_Iter thing_s) 9 (set_iter thing_s thing_set)) /\
  inter_fmt (fun o => o) to_string false fkey 9 (set_intersection thing_s thing_set thing_set) "" 0 =
    option_map (fun l => ("[" ++ String.concat ", " (map show_key l) ++ "]", 0, FOk))%string
      (drain (ss_Iter thing_s) 9 (set_iter thing_s thing_set)).
Proof. split; [exact thing_set_reachable|]. repeat split; vm_compute; reflexivity. Qed.
