(** Running source files that use another storage: tactics. *)
Require Import List Arith NArith Bool String Lia.
Import ListNotations.
From Verif Require Import Std Traits OptionBucket MapStorages SetStorages SrcText SrcStd SrcParse SrcRun SrcSpec SrcFiles SrcProofs.
Open Scope string_scope.

(** What is asked of the user or of the foreign storage. *)
Ltac foreign_step :=
  match goal with
  | |- context [answer ?F ?U ?w ?q ?s] =>
      let a1 := eval cbv beta delta [answer] in (answer F U w q s) in
      let a2 := eval pattern (callback F U) in a1 in
      lazymatch a2 with
      | ?f ?c =>
      let r := eval lazy beta iota zeta delta
        [user_answer call_keep f_as_key f_foreign f_load f_store
         option_map_file hash_map_file option_set_file hash_set_file
         foreign_answer ask_map ask_foreign ask_occ ask_vac says wrong says_new key_in key_out key_val pair_val
         new_ref part map_load map_store as_opt_key_val as_key_val option_of
         foreign_set_answer ask_set ask_set_iter sets sets_new elem_in elem_val as_elem_val
         fst snd option_map result_val ends entry_type opt_val some_ none_ bounds_val]
        in f in
      let r' := eval cbv beta in (r c) in
      change (answer F U w q s) with r'
      end
  end;
  repeat match goal with
  | |- context [list_eq_dec string_dec ?a ?b] => ev (list_eq_dec string_dec a b)
  | |- context [map_at ?m ?a ?b] => ev (map_at m a b)
  end;
  cbn [app fst snd].

(** What a closure that the foreign storage calls asks of the user. *)
Ltac user_step :=
  match goal with
  | |- context [user_answer ?F ?U ?o ?q ?s] =>
      let r := eval lazy beta iota zeta delta
        [user_answer call_keep f_as_key option_map_file hash_map_file option_set_file hash_set_file
         as_opt_key_val as_key_val as_elem_val option_of option_map] in (user_answer F U o q s) in
      change (user_answer F U o q s) with r
  end; cbn [app]; cbn iota beta.
Ltac closure :=
  intros; unfold keep_by, keep1_by, callback, keep_fn, keep1_fn; cbn [f_prog];
  repeat first [drive1; try user_step; cbn [cells]; cbn iota beta | user_call; cbn iota beta]; reflexivity.

(** The functions of the foreign storage. *)
Ltac ms_call :=
  match goal with |- ?g =>
  let l := lazymatch g with ?x = _ => x | exists _, ?x = _ => x | exists _, ?x = _ /\ _ => x end in
  match l with
  | context [ms_insert ?m ?a ?b ?c] => is_var m; destruct (ms_insert m a b c) as [[?|] ?]
  | context [ms_get ?m ?a ?b] => is_var m; destruct (ms_get m a b) as [?|]
  | context [ms_get_mut ?m ?a ?b] => is_var m; destruct (ms_get_mut m a b) as [?|]
  | context [ms_remove ?m ?a ?b] => is_var m; destruct (ms_remove m a b) as [[?|] ?]
  | context [ms_contains_key ?m ?a ?b] => is_var m; destruct (ms_contains_key m a b)
  | context [ms_is_empty ?m ?a] => is_var m; destruct (ms_is_empty m a)
  | context [ms_len ?m ?a] => is_var m; generalize (ms_len m a); intro
  | context [ms_clear_drop ?m ?f ?s ?a] => is_var m; destruct (ms_clear_drop m f s a) as [[? ?] [|]]
  | context [ms_clone_with ?m ?f ?s ?a] => is_var m; destruct (ms_clone_with m f s a) as [? [?|]]
  | context [ms_eq_with ?m ?f ?s ?a ?b] => is_var m; destruct (ms_eq_with m f s a b) as [? [[|]|]]
  | context [ms_entry ?m ?a ?b] => is_var m; destruct (ms_entry m a b) as [[?|?] | | |]
  | context [ms_occ_key ?m ?a ?b] => is_var m; destruct (ms_occ_key m a b) as [? | | |]
  | context [ms_occ_get ?m ?a ?b] => is_var m; destruct (ms_occ_get m a b) as [? | | |]
  | context [ms_occ_get_mut ?m ?a ?b] => is_var m; destruct (ms_occ_get_mut m a b) as [? | | |]
  | context [ms_occ_into_mut ?m ?a ?b] => is_var m; destruct (ms_occ_into_mut m a b) as [? | | |]
  | context [ms_occ_insert ?m ?a ?b ?c] => is_var m; destruct (ms_occ_insert m a b c) as [[? ?] | | |]
  | context [ms_occ_remove ?m ?a ?b] => is_var m; destruct (ms_occ_remove m a b) as [[? ?] | | |]
  | context [ms_vac_key ?m ?a ?b] => is_var m; generalize (ms_vac_key m a b); intro
  | context [ms_vac_insert ?m ?a ?b ?c] => is_var m; destruct (ms_vac_insert m a b c) as [[? ?] | | |]
  | context [ms_iter ?m ?a] => is_var m; generalize (ms_iter m a); intro
  | context [ms_keys ?m ?a] => is_var m; generalize (ms_keys m a); intro
  | context [ms_values ?m ?a] => is_var m; generalize (ms_values m a); intro
  | context [ms_iter_mut ?m ?a] => is_var m; generalize (ms_iter_mut m a); intro
  | context [ms_values_mut ?m ?a] => is_var m; generalize (ms_values_mut m a); intro
  | context [ms_into_iter ?m ?a] => is_var m; generalize (ms_into_iter m a); intro
  | context [@it_next ?A ?I ?x] =>
      repeat match goal with
      | |- context [@it_next ?B I x] =>
          tryif constr_eq A B then fail else change (@it_next B I x) with (@it_next A I x)
      end;
      let e := fresh "e" in
      destruct (@it_next A I x) as [[e|] ?]; [try (lazymatch type of e with (_ * _)%type => destruct e end) |]
  | context [@it_back ?B ?I] =>
      match goal with H : @it_back ?A I = Some ?b |- _ => change (@it_back B I) with (@it_back A I); rewrite H end
  | context [@it_hint ?A ?I ?x] =>
      repeat match goal with
      | |- context [@it_hint ?B I x] =>
          tryif constr_eq A B then fail else change (@it_hint B I x) with (@it_hint A I x)
      end;
      destruct (@it_hint A I x) as [? [?|]]
  | context [it_clone ?I ?x] => generalize (it_clone I x); intro
  | context [ss_len ?m ?a] => is_var m; generalize (ss_len m a); intro
  | context [ss_is_empty ?m ?a] => is_var m; destruct (ss_is_empty m a)
  | context [ss_insert ?m ?a ?b] => is_var m; destruct (ss_insert m a b) as [? ?]
  | context [ss_contains ?m ?a ?b] => is_var m; destruct (ss_contains m a b)
  | context [ss_remove ?m ?a ?b] => is_var m; destruct (ss_remove m a b) as [? ?]
  | context [ss_clear ?m ?a] => is_var m; generalize (ss_clear m a); intro
  | context [ss_clone ?m ?a] => is_var m; generalize (ss_clone m a); intro
  | context [ss_eq ?m ?a ?b] => is_var m; destruct (ss_eq m a b)
  | context [ss_iter ?m ?a] => is_var m; generalize (ss_iter m a); intro
  | context [ss_into_iter ?m ?a] => is_var m; generalize (ss_into_iter m a); intro
  | context [ss_empty ?m ?a] => is_var m; generalize (ss_empty m a); intro
  | context [ms_empty ?m ?a] => is_var m; generalize (ms_empty m a); intro
  end end; cbn iota beta.
Ltac back_call :=
  match goal with H : it_back _ = Some ?b |- ?g =>
    let l := lazymatch g with ?x = _ => x | exists _, ?x = _ => x | exists _, ?x = _ /\ _ => x end in
    match l with
    | context [b ?x] =>
        let e := fresh "e" in
        destruct (b x) as [[e|] ?]; [try (lazymatch type of e with (_ * _)%type => destruct e end) |]
    end
  end; cbn iota beta.
Ltac foreign_runs := repeat first [ms_call | back_call | drive1; repeat foreign_step; cbn iota beta | user_call; cbn iota beta].
Ltac model_side :=
  match goal with
  | |- _ = ?r =>
      let r1 := eval cbn in r in
      let r2 := eval lazy beta iota zeta delta
        [map_req use_entry if_ok put end_of map_compare om_insert om_remove om_get om_get_mut om_contains_key
         om_clear_drop om_clone_with om_retain om_entry om_occ_key om_occ_get om_occ_get_mut om_occ_into_mut
         om_occ_insert om_occ_remove om_vac_key om_vac_insert om_with_some om_load om_store om_cells om_path_none
         set_req set_compare os_insert os_contains os_remove os_retain opt_set_storage retain_flag mem_replace
         drop_cell clone_cell retain_cell eq_cell eq_and res_map res_bind opt_map_storage] in r1 in
      let r3 := eval cbn in r2 in
      change r with r3
  end.
(** Iterators. *)
Ltac it_side :=
  cbn [it_next it_back it_hint it_clone chain_it map_it opt_it opt_map_storage opt_set_storage hash_map_storage
       hash_set_storage ms_Iter ms_Keys ms_Values ms_IterMut ms_ValuesMut ms_IntoIter ss_Iter ss_IntoIter];
  unfold chain_next, chain_back, poll_or_clear, poll, map_step, hint_add, hint_opt;
  cbn [fst snd it_next it_back it_hint it_clone chain_it map_it opt_it opt_take opt_clone option_map].
Ltac case_back I E :=
  match goal with
  | |- context [@it_back ?A I] =>
      repeat match goal with
      | |- context [@it_back ?B I] =>
          tryif constr_eq A B then fail else change (@it_back B I) with (@it_back A I)
      end;
      destruct (@it_back A I) as [?|] eqn:E
  end.
Ltac ask_foreign_step :=
  it_side; unfold ask_it, go; foreign_runs; cbn [fst snd];
  match goal with
  | |- exists a, ?x = _ /\ _ =>
      let y := eval vm_compute in x in
      lazymatch y with Some (?a, _, _, _) => exists a; split; [vm_compute; reflexivity | ] end
  | |- exists it0, ?x = _ =>
      let y := eval vm_compute in x in
      lazymatch y with Some (_, _, ?i, _) => exists i; vm_compute; reflexivity end
  end.
Ltac foreign_begin :=
  match goal with
  | |- begins ?F ?U ?m ?arg ?self ?it =>
      let it' := eval cbn in it in let self' := eval cbn in self in
      change (begins F U m arg self' it')
  end;
  intro; unfold invoke, self_arg, go; repeat found; lazy beta iota zeta; foreign_runs;
  match goal with |- exists t, (_, ?x, _) = _ /\ _ => exists x; split; [|split]; vm_compute; reflexivity end.
(** What is left: assigning through references into the foreign storage. *)
Ltac ms_finish :=
  lazymatch goal with
  | |- context [drive] => fail
  | _ =>
      try (cbv -[ms_store ms_load];
        repeat match goal with
        | |- context [ms_store ?m ?a ?b ?c] => is_var m; destruct (ms_store m a b c) as [?|]
        | |- context [ms_load ?m ?a ?b] => is_var m; destruct (ms_load m a b) as [?|]
        end; reflexivity)
  end.
