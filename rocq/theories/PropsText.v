(** C68: the source text of the hand-written storages, run by an interpreter. *)
Require Import List Bool ZArith String.
Import ListNotations.
From Verif Require Import Std Traits SrcParse SrcRun SrcSpec SrcFiles SrcOption2 SrcHash SrcSets2 SrcOption
  Key Spec Reach EffectSpec EqSpec DropSpec ClearSpec Program ProgramSpec SetProgram SetProgramSpec
  MapStorages SetStorages Hashbrown SrcWhole SrcMain Samples.

(** Every sequence of requests to a new map is answered by the text of the file as by the
    model; the user's closures, [clone], [eq] and destructor are called at the same
    moments, with the same arguments. *)
Theorem C68_map : forall t ki V S (U : user_fns (key t) V S) w l s,
  derive t = Some ki -> by_hand t = true ->
  text_map t U w l s = Some (fst (answers (map_req U (ki_map ki V)) l s (ms_empty (ki_map ki V) w))).
Proof. intros t ki V S. exact (@c68_map V S t ki). Qed.
Print Assumptions C68_map.

(** So are two maps, each after its own requests, compared. *)
Theorem C68_map_eq : forall t ki V S (U : user_fns (key t) V S) w1 w2 l1 l2 s,
  derive t = Some ki -> by_hand t = true ->
  text_map_eq t U w1 w2 l1 l2 s =
  Some (SrcSpec.compared (map_req U (ki_map ki V)) (map_compare U (ki_map ki V))
          (ms_empty (ki_map ki V) w1) (ms_empty (ki_map ki V) w2) l1 l2 s).
Proof. intros t ki V S. exact (@c68_map_eq V S t ki). Qed.
Print Assumptions C68_map_eq.

(** Sets. *)
Theorem C68_set : forall t ki V S (U : user_fns (key t) V S) w l s,
  derive t = Some ki -> by_hand t = true ->
  text_set t U w l s = Some (fst (answers (set_req U (ki_set ki)) l s (ss_empty (ki_set ki) w))).
Proof. intros t ki V S. exact (@c68_set V S t ki). Qed.
Print Assumptions C68_set.
Theorem C68_set_eq : forall t ki V S (U : user_fns (key t) V S) w1 w2 l1 l2 s,
  derive t = Some ki -> by_hand t = true ->
  text_set_eq t U w1 w2 l1 l2 s =
  Some (SrcSpec.compared (set_req U (ki_set ki)) (set_compare (ki_set ki))
          (ss_empty (ki_set ki) w1) (ss_empty (ki_set ki) w2) l1 l2 s).
Proof. intros t ki V S. exact (@c68_set_eq V S t ki). Qed.
Print Assumptions C68_set_eq.

(** [OptionMapStorage] and [HashbrownMapStorage] around any other storage whose [retain]
    does nothing with the closure but calling it, for instance one of a user. *)
Theorem C68_option_any : forall K V S (m : MapStorage K V) (U : user_fns (option K) V S),
  (forall (f g : retain_fn S K V) s st,
     (forall s k v, f s k v = g s k v) -> ms_retain m f s st = ms_retain m g s st) ->
  let F := option_map_file m S (program option_map_text) in
  forall w l s, told_by F U (src_req F U) w l s =
    Some (fst (answers (map_req U (opt_map_storage m)) l s (ms_empty (opt_map_storage m) w))).
Proof. intros K V S m U H. cbv zeta. rewrite option_map_read. exact (option_map_told m U H). Qed.
Print Assumptions C68_option_any.
Theorem C68_hash_any : forall K V S (m : MapStorage K V) (U : user_fns K V S),
  (forall (f g : retain_fn S K V) s st,
     (forall s k v, f s k v = g s k v) -> ms_retain m f s st = ms_retain m g s st) ->
  let F := hash_map_file m S (program hash_map_text) in
  forall w l s, told_by F U (src_req F U) w l s = Some (fst (answers (map_req U m) l s (ms_empty m w))).
Proof. intros K V S m U H. cbv zeta. rewrite hash_map_read. exact (hash_map_told m U H). Qed.
Print Assumptions C68_hash_any.

(** Nothing is answered with undefined behaviour, a leak, or an error of the program, and
    the text never fails to be read or run. *)
Theorem C68_sound : forall t ki V S (U : user_fns (key t) V S) w l s,
  derive t = Some ki -> by_hand t = true ->
  exists xs s', text_map t U w l s = Some (xs, s') /\ ~ In Bad xs.
Proof. exact c68_sound. Qed.
Print Assumptions C68_sound.
Theorem C68_set_sound : forall t ki V S (U : user_fns (key t) V S) w l s,
  derive t = Some ki -> by_hand t = true ->
  exists xs s', text_set t U w l s = Some (xs, s') /\ ~ In Bad xs.
Proof. exact c68_set_sound. Qed.
Print Assumptions C68_set_sound.

(** The text does to a map what C64 says that a program does to a list of entries, and to
    a set what C67 says. *)
Theorem C68_lists : forall t ki V S (H : helpers S (key t) V) w l qs s,
  derive t = Some ki -> by_hand t = true -> every request l = Some qs ->
  (forall a ds, In (SIter a ds) l -> In Back ds -> hash_free t = true) ->
  exists xs s' es,
    text_map t (user_of H) w qs s = Some (map heard xs, s') /\
    does_all (key_before t) (placed t) (hash_free t) H l s [Some []] s' [Some es] xs true.
Proof. exact c68_lists. Qed.
Print Assumptions C68_lists.
Theorem C68_set_lists : forall t ki S (keep : S -> key t -> S * option bool) w l qs s,
  derive t = Some ki -> by_hand t = true -> every set_request l = Some qs ->
  (forall a ds, In (PIter a ds) l -> In Back ds -> hash_free t = true) ->
  exists xs s' x,
    text_set t (asking keep) w qs s = Some (map set_heard xs, s') /\
    pdoes_all t keep l s [Some (no_stray t [])] s' [Some x] xs.
Proof. exact c68_set_lists. Qed.
Print Assumptions C68_set_lists.

(** The texts are programs: types, impls and methods. *)
Example C68_texts :
  map (fun t => List.length (program t)) [bool_map_text; single_map_text; option_map_text; hash_map_text] =
    [39; 30; 36; 26] /\
  map (fun t => List.length (program t)) [bool_set_text; single_set_text; option_set_text; hash_set_text] =
    [27; 18; 22; 21].
Proof. vm_compute. split; reflexivity. Qed.

(** A user: [retain] adds 5 and keeps what was even; destructors count in hundreds. *)
Definition text_user {K} : user_fns K nat nat :=
  MkUser (fun s _ v => (s + 1, v + 5, Some (Nat.even v))) (fun s _ => (s + 1, Some (Nat.even s)))
    (fun s v => (s + 10, if Nat.eqb v 13 then None else Some v)) (fun s a b => (s, Some (Nat.eqb a b)))
    (fun s v => (s + 100, Nat.eqb v 99)).
Example C68_map_example :
  text_map (KOption KBool) text_user w0
    [MInsert None 4; MInsert (Some true) 7; MInsert None 6; MEntry (Some false) (OnInsert 9); MLen;
     MIter ByIter [AHint; ABack; AClone; ANext; ANext; ANext];
     MIterMut (fun _ v => v + 30) [ANext; ABack; ABack]; MRetain; MClone; MSet None 99; MClear; MIsEmpty] 0 =
  Some ([Opt None; Opt None; Opt (Some 4); Val 9; SrcSpec.Num 3;
         SrcSpec.Items [Bounds 3 (Some 3); Item (Some (Some None, Some 6)); Item (Some (Some (Some true), Some 7));
                        Item (Some (Some (Some false), Some 9)); Item None];
         SrcSpec.Items [Item (Some (Some (Some true), Some 7)); Item (Some (Some None, Some 6));
                        Item (Some (Some (Some false), Some 9))];
         Nothing; Nothing; Nothing; Unwinds; Yes true], 313).
Proof. vm_compute. reflexivity. Qed.
Example C68_hash_example :
  text_map (KPrim PU8) text_user w0
    [MInsert 1%Z 4; MInsert 2%Z 6; MInsert 1%Z 8; MRemove 7%Z; MEntry 2%Z OnRemove; MIter ByIter [ANext; ABack; ANext]] 0 =
  Some ([Opt None; Opt None; Opt (Some 4); Opt None; Opt (Some 6);
         SrcSpec.Items [Item (Some (Some 1%Z, Some 8)); Item None]], 0).
Proof. vm_compute. reflexivity. Qed.
Example C68_eq_example :
  text_map_eq KBool text_user w0 w0 [MInsert true 4; MInsert false 5; MRemove false] [MInsert true 4] 0
    = Some (0, Yes true) /\
  text_map_eq KUnit text_user w0 w0 [MInsert tt 4] [MInsert tt 5] 0 = Some (0, Yes false) /\
  text_set_eq (KOption KUnit) (V := nat) text_user w0 w0 [NInsert None] [NInsert (Some tt)] 0 = Some (0, Yes false).
Proof. vm_compute. repeat split. Qed.
Example C68_set_example :
  text_set (KOption KBool) (V := nat) text_user w0
    [NInsert None; NInsert (Some true); NInsert None; NLen; NIter false [ANext; ABack; ANext]; NRetain; NRemove None] 0 =
  Some ([Yes false; Yes false; Yes true; SrcSpec.Num 2;
         SrcSpec.Items [Item (Some (Some (Some true), None)); Item (Some (Some None, None)); Item None];
         Nothing; Yes false], 2).
Proof. vm_compute. reflexivity. Qed.
Example C68_lists_example : exists qs,
  every request [SInsert 0 (Some true) 4; SInsert 0 None 7; SRetain 0; SIter 0 [Back; Front]] = Some qs /\
  (forall a ds, In (SIter a ds) [SInsert 0 (Some true) 4; SInsert 0 None 7; SRetain 0; SIter 0 [Back; Front]] ->
     In Back ds -> hash_free (KOption KBool) = true) /\
  text_map (KOption KBool) (user_of (MkHelpers (fun s _ v => (s + 1, v + 5, Some (Nat.even v)))
      (fun s v => (s, Some v)) (fun s a b => (s, Some (Nat.eqb a b))) (fun s v => (s + 100, false)))) w0 qs 0 =
    Some (map heard [Value None; Value None; Fine; Program.Items [Some (Some true, 9); None]], 102).
Proof. eexists. split; [reflexivity|]. split; [intros; reflexivity|]. vm_compute. reflexivity. Qed.
Example C68_set_lists_example : exists qs,
  every set_request [PInsert 0 true; PClone 0 0; PInsert 0 true; PLen 0; PIter 0 [Front]] = Some qs /\
  text_set KBool (asking (fun (s : nat) _ => (s, Some true))) w0 qs 0 =
    Some (map set_heard [TTruth false; TFine; TTruth true; TNum 1; TItems [Some true]], 0).
Proof. eexists. split; [reflexivity|]. vm_compute. reflexivity. Qed.
