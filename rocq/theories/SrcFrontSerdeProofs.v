(** Running the serde and [Debug] impls of the front end. *)
Require Import List Arith NArith Bool String Lia.
Import ListNotations.
From Verif Require Import Std Traits Api Debug Fmt MapStorages SrcText SrcStd SrcParse SrcRun SrcSpec SrcFiles SrcFront SrcFrontSetSpec
  SrcFrontSerde SrcProofs SrcForeign SrcFrontMap SrcFrontLoop SrcFrontSet.
Open Scope string_scope.

Definition smap_ast : list item := Eval vm_compute in with_inner map_ast.
Definition sset_ast : list item := Eval vm_compute in with_inner set_ast.
Lemma smap_read : with_inner (program map_text) = smap_ast.
Proof. rewrite map_read. vm_compute. reflexivity. Qed.
Lemma sset_read : with_inner (program set_text) = sset_ast.
Proof. rewrite set_read. vm_compute. reflexivity. Qed.

Ltac serde_step :=
  match goal with
  | |- context [let (s', r) := ?a in drive ?ans ?act ?cs ?k (?l ++ [r])%list s'] =>
      let b := eval lazy beta iota zeta delta
        [ser_answer ser_reply visit_answer de_answer fmt_answer says wrong
         set_ser_answer set_ser_reply set_visit_answer set_de_answer set_fmt_answer sets] in a in
      change a with b
  end.

Section SerMap.
  Context {K V Out Err : Type} (m : MapStorage K V) (z : serializer (K * V) Out Err) (U : user_fns K V (ser_state z)).
  Notation X := (foreign_map m).
  Notation ans := (ser_answer m smap_ast z U).
  Notation F := (map_file (S := ser_state z) m None smap_ast).
  Local Notation "x <- p ;; q" := (seq p (fun x => q)) (at level 61, p at next level, right associativity).
  Definition sz_fn : option fn := Eval vm_compute in find_in_trait smap_ast "Serialize" "Map" "serialize".
  Lemma sz_found : function_of F "Serialize" "Map" "serialize" = sz_fn.
  Proof. vm_compute. reflexivity. Qed.
  Definition sz_parts : expr * pat * expr * expr := Eval vm_compute in
    match sz_fn with
    | Some (Fn _ _ _ (EBlock [SLet _ e; SSemi (EFor q _ b); STail t])) => (e, q, b, t)
    | _ => (ETup [], PWild, ETup [], ETup [])
    end.
  Definition sz_pat : pat := Eval compute in snd (fst (fst sz_parts)).
  Definition sz_body : expr := Eval compute in snd (fst sz_parts).
  Definition sz_end : expr := Eval compute in snd sz_parts.
  Definition sz_loop (j n : nat) (sc : scope) (c : nat) : run V X (val V X) :=
    returning (_ <- over smap_ast n sc sz_pat sz_body c;; eval smap_ast (Datatypes.S j) sc sz_end).
  Definition sz_run (n : nat) : run V X (val V X) :=
    returning (c <- alloc (VRef (At 0 []));;
               sc <- bind_pats smap_ast [PName "serializer"] [VForeign (XUsers m 0)] (MkScope [("self", c)] "Map");;
               v <- eval smap_ast (Datatypes.S n) sc (fst (fst (fst sz_parts)));;
               sc <- bind_pat smap_ast (PName "map") v sc;;
               _ <- (q <- at_place smap_ast n sc (EPath ["self"]);; it <- looping smap_ast n q;;
                     c <- alloc it;; over smap_ast n sc sz_pat sz_body c);;
               eval smap_ast (Datatypes.S n) sc sz_end).
  Lemma sz_unfold : forall n f, sz_fn = Some f ->
    call_fn smap_ast (Datatypes.S (Datatypes.S (Datatypes.S n))) "Map" f [VRef (At 0 []); VForeign (XUsers m 0)] = sz_run n.
  Proof. intros n f [= <-]. reflexivity. Qed.
  Definition sz_told (k : nat) (it : it_st (ms_Iter m)) : list (reply V X) :=
    [MkReply (CVal (VNum k)) [] []; MkReply (CVal (ok_ (VForeign (XUsers m 1)))) [] [];
     MkReply (CVal (VForeign (XIter m it))) [] []].
  Definition sz_scope : scope := MkScope [("map", 4); ("serializer", 2); ("self", 1)] "Map".
  Definition sz_cells (st : ms_St m) (it : it_st (ms_Iter m)) : list (val V X) :=
    [map_val m st; VRef (At 0 []); VForeign (XUsers m 0); VRef (At 0 []); VForeign (XUsers m 1);
     VRef (At 0 []); VRef (At 0 []); VForeign (XIter m it)].
  Lemma sz_start : forall n k it st extra,
    sz_run (30 + n) (MkRt [map_val m st] (sz_told k it ++ extra)%list) =
    sz_loop (30 + n) (30 + n) sz_scope 7 (MkRt (sz_cells st it) extra).
  Proof.
    intros n k it st extra. unfold sz_run, sz_loop. apply returning_step.
    erewrite seq_step by (vm_compute; reflexivity).
    erewrite seq_step by (vm_compute; reflexivity).
    erewrite seq_step by (vm_compute; reflexivity).
    erewrite seq_step by (vm_compute; reflexivity).
    apply seq_cong.
    erewrite (seq_step (at_place _ _ _ _)) by (vm_compute; reflexivity).
    erewrite (seq_step (looping _ _ _)) by (vm_compute; reflexivity).
    erewrite (seq_step (alloc _)) by (vm_compute; reflexivity).
    reflexivity.
  Qed.
  Definition sz_round (n : nat) (sc : scope) (c : nat) : run V X bool :=
    scoped (x <- method smap_ast n (At c []) "next" [];;
            match x with
            | VData "Option" "Some" [(_, x)] =>
                sc' <- bind_pat smap_ast sz_pat x sc;; _ <- eval smap_ast n sc' sz_body;; done true
            | _ => done false
            end).
  Lemma sz_over : forall n sc c, over smap_ast (Datatypes.S n) sc sz_pat sz_body c =
    seq (sz_round n sc c) (fun again : bool => if again then over smap_ast n sc sz_pat sz_body c else done unit_).
  Proof. reflexivity. Qed.
  Definition sz_given (it : it_st (ms_Iter m)) (k : K) (v : V) : reply V X :=
    MkReply (CVal (some_ (VData "()" "" [("0", key_val m k); ("1", VUser v)]))) [(At 7 [], VForeign (XIter m it))] [].
  Definition sz_taken : reply V X := MkReply (CVal (ok_ unit_)) [] [].
  Lemma sz_again : forall j n st it it' k v extra,
    sz_loop j (Datatypes.S (20 + n)) sz_scope 7 (MkRt (sz_cells st it) ([sz_given it' k v; sz_taken] ++ extra)%list) =
    sz_loop j (20 + n) sz_scope 7 (MkRt (sz_cells st it') extra).
  Proof.
    intros j n st it it' k v extra. unfold sz_loop at 1. unfold sz_loop. rewrite sz_over.
    apply returning_step.
    assert (R : sz_round (20 + n) sz_scope 7 (MkRt (sz_cells st it) ([sz_given it' k v; sz_taken] ++ extra)%list) =
      (CVal true, MkRt (sz_cells st it') extra)) by (vm_compute; reflexivity).
    apply seq_cong. rewrite (seq_step _ _ _ _ _ R). reflexivity.
  Qed.
  Lemma sz_rounds : forall fuel j n b st it s r, ser_loop z (ms_Iter m) fuel it s = Some r ->
    fuel <= n -> 2 * fuel < b ->
    ser_result (drive ans (sz_loop (30 + j) (20 + n) sz_scope 7) (sz_cells st it) b [] (SerOpen s)) = Some r.
  Proof.
    induction fuel as [|fuel IH]; intros j n b st it s r H Hn Hb; [discriminate|].
    cbn [ser_loop] in H. destruct n as [|n]; [lia|]. destruct b as [|[|b]]; try lia.
    drive1. serde_step. front_step.
    match goal with |- context [let (o, it') := ?x in _] => change x with (it_next (ms_Iter m) it) end.
    destruct (it_next (ms_Iter m) it) as [[[k v]|] it'] eqn:En; cbn iota beta; cbn [app].
    - drive1. serde_step. destruct (ser_elem z s (k, v)) as [s'|e] eqn:Es; cbn iota beta; cbn [app].
      + rewrite <- (IH j n b st it' s' r); [|assumption|lia|lia].
        f_equal. exact (drive_pre ans _ _ _ _ [sz_given it' k v; sz_taken] (sz_again (30 + j) n st it it' k v) b [] (SerOpen s')).
      + drive1. injection H as <-. reflexivity.
    - drive1. serde_step. injection H as <-.
      destruct (ser_end z s) as [o|e]; cbn iota beta; cbn [app]; drive1; reflexivity.
  Qed.
  Lemma serialize_ok : forall fuel st r n, map_serialize m z fuel st = Some r -> 50 + 3 * fuel <= n ->
    text_serialize m smap_ast z U n st = Some r.
  Proof.
    intros fuel st r n H Hn. unfold text_serialize. rewrite sz_found.
    destruct sz_fn as [f|] eqn:Ef; [|discriminate Ef].
    destruct n as [|[|[|n]]]; try (exfalso; lia).
    rewrite (sz_unfold n f Ef). clear f Ef.
    replace n with (30 + (n - 30)) by lia. set (n' := n - 30).
    assert (Hb : exists b, Datatypes.S (Datatypes.S (Datatypes.S (30 + n'))) = Datatypes.S (Datatypes.S (Datatypes.S b)) /\
      2 * fuel < b) by (exists (30 + n'); unfold n'; split; lia).
    destruct Hb as (b & -> & Hb). unfold map_serialize, serialize, map_len, map_iter in H.
    drive1. serde_step. front_step. cbn iota beta. cbn [app]. generalize dependent (ms_len m st). intros k H.
    drive1. serde_step. destruct (ser_start z (Some k)) as [s|e]; cbn iota beta; cbn [app].
    2: { drive1. injection H as <-. reflexivity. }
    drive1. serde_step. front_step. cbn iota beta. cbn [app].
    rewrite <- (sz_rounds fuel n' (10 + n') b st (ms_iter m st) s r H); [|unfold n'; lia|exact Hb].
    f_equal. exact (drive_pre ans _ _ _ _ _ (sz_start n' k (ms_iter m st) st) b [] (SerOpen s)).
  Qed.
End SerMap.

Section VisitMap.
  Context {K V D Err : Type} (m : MapStorage K V) (acc : access D (K * V) Err) (U : user_fns K V (D * option Err)).
  Notation X := (foreign_map m).
  Notation ans := (visit_answer m smap_ast acc U).
  Notation F := (map_file (S := D * option Err) m None smap_ast).
  Local Notation "x <- p ;; q" := (seq p (fun x => q)) (at level 61, p at next level, right associativity).
  Definition vi_fn : option fn := Eval vm_compute in find_in_trait smap_ast "Visitor" "MapVisitor" "visit_map".
  Lemma vi_found : function_of F "Visitor" "MapVisitor" "visit_map" = vi_fn.
  Proof. vm_compute. reflexivity. Qed.
  Definition vi_parts : expr * expr * expr := Eval vm_compute in
    match vi_fn with
    | Some (Fn _ _ _ (EBlock [SLet _ e; SSemi l; STail t])) => (e, l, t)
    | _ => (ETup [], ETup [], ETup [])
    end.
  Definition vi_while : expr := Eval compute in snd (fst vi_parts).
  Definition vi_end : expr := Eval compute in snd vi_parts.
  Definition vi_loop (j n : nat) (sc : scope) : run V X (val V X) :=
    returning (_ <- eval smap_ast n sc vi_while;; eval smap_ast (Datatypes.S j) sc vi_end).
  Definition vi_visitor : val V X := VData "MapVisitor" "" [("0", VFn ["core"; "marker"; "PhantomData"])].
  Definition vi_run (n : nat) : run V X (val V X) :=
    returning (c <- alloc vi_visitor;;
               sc <- bind_pats smap_ast [PName "visitor"] [VForeign (XUsers m 2)] (MkScope [("self", c)] "MapVisitor");;
               v <- eval smap_ast (Datatypes.S n) sc (fst (fst vi_parts));;
               sc <- bind_pat smap_ast (PName "map") v sc;;
               _ <- eval smap_ast (Datatypes.S n) sc vi_while;; eval smap_ast (Datatypes.S n) sc vi_end).
  Lemma vi_unfold : forall n f, vi_fn = Some f ->
    call_fn smap_ast (Datatypes.S (Datatypes.S (Datatypes.S n))) "MapVisitor" f [vi_visitor; VForeign (XUsers m 2)] = vi_run n.
  Proof. intros n f [= <-]. reflexivity. Qed.
  Definition vi_scope : scope := MkScope [("map", 2); ("visitor", 1); ("self", 0)] "MapVisitor".
  Definition vi_cells (st : ms_St m) : list (val V X) := [vi_visitor; VForeign (XUsers m 2); map_val m st].
  Lemma vi_start : forall n st extra,
    vi_run (30 + n) (MkRt [] ([MkReply (CVal (VForeign (XMap m st))) [] []] ++ extra)%list) =
    vi_loop (30 + n) (31 + n) vi_scope (MkRt (vi_cells st) extra).
  Proof.
    intros n st extra. unfold vi_run, vi_loop. apply returning_step.
    erewrite seq_step by (vm_compute; reflexivity).
    erewrite seq_step by (vm_compute; reflexivity).
    erewrite seq_step by (vm_compute; reflexivity).
    erewrite seq_step by (vm_compute; reflexivity).
    reflexivity.
  Qed.
  Definition vi_cond : pat * expr * expr := Eval vm_compute in
    match vi_while with EWhileLet p c b => (p, c, b) | _ => (PWild, ETup [], ETup []) end.
  Definition vi_round (n : nat) (sc : scope) : run V X bool :=
    scoped (v <- eval smap_ast n sc (snd (fst vi_cond));; o <- matches smap_ast pattern_depth (fst (fst vi_cond)) v;;
            match o with
            | Some l => sc' <- binding l sc;; _ <- eval smap_ast n sc' (snd vi_cond);; done true
            | None => done false
            end).
  Lemma vi_again : forall n sc, eval smap_ast (Datatypes.S n) sc vi_while =
    seq (vi_round n sc) (fun again : bool => if again then eval smap_ast n sc vi_while else done unit_).
  Proof. reflexivity. Qed.
  Definition vi_given (k : K) (v : V) : reply V X :=
    MkReply (CVal (ok_ (some_ (VData "()" "" [("0", key_val m k); ("1", VUser v)])))) [] [].
  Definition vi_taken (st : ms_St m) (o : val V X) : reply V X :=
    MkReply (CVal o) [(At 2 [Fld "storage"], VForeign (XMap m st))] [].
  Lemma vi_next : forall j n st st' k v o extra,
    vi_loop j (Datatypes.S (20 + n)) vi_scope (MkRt (vi_cells st) ([vi_given k v; vi_taken st' o] ++ extra)%list) =
    vi_loop j (20 + n) vi_scope (MkRt (vi_cells st') extra).
  Proof.
    intros j n st st' k v o extra. unfold vi_loop at 1. unfold vi_loop. rewrite vi_again.
    apply returning_step.
    assert (R : vi_round (20 + n) vi_scope (MkRt (vi_cells st) ([vi_given k v; vi_taken st' o] ++ extra)%list) =
      (CVal true, MkRt (vi_cells st') extra)) by (vm_compute; reflexivity).
    apply seq_cong. rewrite (seq_step _ _ _ _ _ R). reflexivity.
  Qed.
  Definition built (r : ms_St m + Err) : val V X + Err := match r with inl st => inl (map_val m st) | inr e => inr e end.
  Lemma vi_rounds : forall fuel j n b w d st r,
    visit acc (fun st e => snd (map_insert m st (fst e) (snd e))) fuel d st = Some r ->
    fuel <= n -> 2 * fuel < b -> exists c t s,
    drive (ans w) (vi_loop (30 + j) (20 + n) vi_scope) (vi_cells st) b [] (d, None) = (c, t, s) /\
    visit_result (c, s) = Some (built r).
  Proof.
    induction fuel as [|fuel IH]; intros j n b w d st r H Hn Hb; [discriminate|].
    cbn [visit] in H. destruct n as [|n]; [lia|]. destruct b as [|[|b]]; try lia.
    drive1. serde_step. destruct (acc d) as [[[[k v]|]|e] d'] eqn:Ea; cbn iota beta; cbn [app].
    - drive1. serde_step. front_step. unfold map_insert in H. cbn [fst snd] in H.
      destruct (ms_insert m st k v) as [o st'] eqn:Ei. cbn [snd] in H. cbn iota beta.
      destruct (IH j n b w d' st' r H) as (c & t & s & E & R); [lia|lia|].
      exists c, t, s. split; [|exact R]. clear R. etransitivity; [clear E|exact E].
      match goal with |- drive _ _ _ _ [_; MkReply (CVal ?o') _ _] _ = _ =>
        exact (drive_pre (ans w) _ _ _ _ [vi_given k v; vi_taken st' o']
          (vi_next (30 + j) n st st' k v o') b [] (d', None)) end.
    - drive1. injection H as <-. do 3 eexists. split; reflexivity.
    - drive1. injection H as <-. do 3 eexists. split; reflexivity.
  Qed.
  Lemma visit_ok : forall fuel w d r n, map_visit m acc fuel w d = Some r -> 50 + 3 * fuel <= n ->
    visit_result (text_visit m smap_ast acc U n w vi_visitor (d, None)) = Some (built r).
  Proof.
    intros fuel w d r n H Hn. unfold text_visit, vi_visitor. rewrite vi_found. fold vi_visitor.
    destruct vi_fn as [f|] eqn:Ef; [|discriminate Ef].
    destruct n as [|[|[|n]]]; try (exfalso; lia).
    rewrite (vi_unfold n f Ef). clear f Ef.
    replace n with (30 + (n - 30)) by lia. set (n' := n - 30).
    assert (Hb : exists b, Datatypes.S (Datatypes.S (Datatypes.S (30 + n'))) = Datatypes.S b /\
      2 * fuel < b) by (exists (32 + n'); unfold n'; split; lia).
    destruct Hb as (b & -> & Hb). unfold map_visit, map_new in H.
    drive1. serde_step. front_step. cbn iota beta. cbn [app].
    destruct (vi_rounds fuel n' (11 + n') b w d (ms_empty m w) r H) as (c & t & s & E & R); [unfold n'; lia|exact Hb|].
    assert (P := drive_pre (ans w) _ _ _ _ _ (vi_start n' (ms_empty m w)) b [] (d, None)).
    cbn [app] in P.
    match goal with |- visit_result (let '(_, _) := ?d in _) = _ => replace d with (c, t, s); [exact R|] end.
    symmetry. etransitivity; [exact P|exact E].
  Qed.
  Lemma deserialize_ok : forall fuel w d r n, map_visit m acc fuel w d = Some r -> 50 + 3 * fuel <= n ->
    text_deserialize m smap_ast acc U n w d = Some (built r).
  Proof.
    intros fuel w d r n H Hn. assert (E := visit_ok fuel w d r n H Hn). unfold text_deserialize. found. cbn iota beta.
    assert (Hc : exists n', n = 30 + n') by (exists (n - 30); lia). destruct Hc as [n' ->].
    drive1. serde_step. fold vi_visitor.
    destruct (text_visit m smap_ast acc U (30 + n') w vi_visitor (d, None)) as [c s] eqn:Ev.
    cbn iota beta. cbn [app]. destruct c as [v| | | | | | |]; try discriminate E.
    drive1. exact E.
  Qed.
End VisitMap.

Section SerSet.
  Context {K V Out Err : Type} (m : SetStorage K) (z : serializer K Out Err) (U : user_fns K V (ser_state z)).
  Notation X := (foreign_set m).
  Notation ans := (set_ser_answer m sset_ast z U).
  Notation F := (set_file (V := V) (S := ser_state z) m None sset_ast).
  Local Notation "x <- p ;; q" := (seq p (fun x => q)) (at level 61, p at next level, right associativity).
  Definition tz_fn : option fn := Eval vm_compute in find_in_trait sset_ast "Serialize" "Set" "serialize".
  Lemma tz_found : function_of F "Serialize" "Set" "serialize" = tz_fn.
  Proof. vm_compute. reflexivity. Qed.
  Definition tz_parts : expr * pat * expr * expr := Eval vm_compute in
    match tz_fn with
    | Some (Fn _ _ _ (EBlock [SLet _ e; SSemi (EFor q _ b); STail t])) => (e, q, b, t)
    | _ => (ETup [], PWild, ETup [], ETup [])
    end.
  Definition tz_pat : pat := Eval compute in snd (fst (fst tz_parts)).
  Definition tz_body : expr := Eval compute in snd (fst tz_parts).
  Definition tz_end : expr := Eval compute in snd tz_parts.
  Definition tz_loop (j n : nat) (sc : scope) (c : nat) : run V X (val V X) :=
    returning (_ <- over sset_ast n sc tz_pat tz_body c;; eval sset_ast (Datatypes.S j) sc tz_end).
  Definition tz_run (n : nat) : run V X (val V X) :=
    returning (c <- alloc (VRef (At 0 []));;
               sc <- bind_pats sset_ast [PName "serializer"] [VForeign (YUsers m 0)] (MkScope [("self", c)] "Set");;
               v <- eval sset_ast (Datatypes.S n) sc (fst (fst (fst tz_parts)));;
               sc <- bind_pat sset_ast (PName "seq") v sc;;
               _ <- (q <- at_place sset_ast n sc (EPath ["self"]);; it <- looping sset_ast n q;;
                     c <- alloc it;; over sset_ast n sc tz_pat tz_body c);;
               eval sset_ast (Datatypes.S n) sc tz_end).
  Lemma tz_unfold : forall n f, tz_fn = Some f ->
    call_fn sset_ast (Datatypes.S (Datatypes.S (Datatypes.S n))) "Set" f [VRef (At 0 []); VForeign (YUsers m 0)] = tz_run n.
  Proof. intros n f [= <-]. reflexivity. Qed.
  Definition tz_told (k : nat) (it : it_st (ss_Iter m)) : list (reply V X) :=
    [MkReply (CVal (VNum k)) [] []; MkReply (CVal (ok_ (VForeign (YUsers m 1)))) [] [];
     MkReply (CVal (VForeign (YIter m it))) [] []].
  Definition tz_scope : scope := MkScope [("seq", 4); ("serializer", 2); ("self", 1)] "Set".
  Definition tz_cells (st : ss_St m) (it : it_st (ss_Iter m)) : list (val V X) :=
    [set_val m st; VRef (At 0 []); VForeign (YUsers m 0); VRef (At 0 []); VForeign (YUsers m 1);
     VRef (At 0 []); VRef (At 0 []); VForeign (YIter m it)].
  Lemma tz_start : forall n k it st extra,
    tz_run (30 + n) (MkRt [set_val m st] (tz_told k it ++ extra)%list) =
    tz_loop (30 + n) (30 + n) tz_scope 7 (MkRt (tz_cells st it) extra).
  Proof.
    intros n k it st extra. unfold tz_run, tz_loop. apply returning_step.
    erewrite seq_step by (vm_compute; reflexivity).
    erewrite seq_step by (vm_compute; reflexivity).
    erewrite seq_step by (vm_compute; reflexivity).
    erewrite seq_step by (vm_compute; reflexivity).
    apply seq_cong.
    erewrite (seq_step (at_place _ _ _ _)) by (vm_compute; reflexivity).
    erewrite (seq_step (looping _ _ _)) by (vm_compute; reflexivity).
    erewrite (seq_step (alloc _)) by (vm_compute; reflexivity).
    reflexivity.
  Qed.
  Definition tz_round (n : nat) (sc : scope) (c : nat) : run V X bool :=
    scoped (x <- method sset_ast n (At c []) "next" [];;
            match x with
            | VData "Option" "Some" [(_, x)] =>
                sc' <- bind_pat sset_ast tz_pat x sc;; _ <- eval sset_ast n sc' tz_body;; done true
            | _ => done false
            end).
  Lemma tz_over : forall n sc c, over sset_ast (Datatypes.S n) sc tz_pat tz_body c =
    seq (tz_round n sc c) (fun again : bool => if again then over sset_ast n sc tz_pat tz_body c else done unit_).
  Proof. reflexivity. Qed.
  Definition tz_given (it : it_st (ss_Iter m)) (k : K) : reply V X :=
    MkReply (CVal (some_ (elem_val m k))) [(At 7 [], VForeign (YIter m it))] [].
  Definition tz_taken : reply V X := MkReply (CVal (ok_ unit_)) [] [].
  Lemma tz_again : forall j n st it it' k extra,
    tz_loop j (Datatypes.S (20 + n)) tz_scope 7 (MkRt (tz_cells st it) ([tz_given it' k; tz_taken] ++ extra)%list) =
    tz_loop j (20 + n) tz_scope 7 (MkRt (tz_cells st it') extra).
  Proof.
    intros j n st it it' k extra. unfold tz_loop at 1. unfold tz_loop. rewrite tz_over.
    apply returning_step.
    assert (R : tz_round (20 + n) tz_scope 7 (MkRt (tz_cells st it) ([tz_given it' k; tz_taken] ++ extra)%list) =
      (CVal true, MkRt (tz_cells st it') extra)) by (vm_compute; reflexivity).
    apply seq_cong. rewrite (seq_step _ _ _ _ _ R). reflexivity.
  Qed.
  Lemma tz_rounds : forall fuel j n b st it s r, ser_loop z (ss_Iter m) fuel it s = Some r ->
    fuel <= n -> 2 * fuel < b ->
    ser_result (drive ans (tz_loop (30 + j) (20 + n) tz_scope 7) (tz_cells st it) b [] (SerOpen s)) = Some r.
  Proof.
    induction fuel as [|fuel IH]; intros j n b st it s r H Hn Hb; [discriminate|].
    cbn [ser_loop] in H. destruct n as [|n]; [lia|]. destruct b as [|[|b]]; try lia.
    drive1. serde_step. fset_step.
    match goal with |- context [let (o, it') := ?x in _] => change x with (it_next (ss_Iter m) it) end.
    destruct (it_next (ss_Iter m) it) as [[k|] it'] eqn:En; cbn iota beta; cbn [app].
    - drive1. serde_step. destruct (ser_elem z s k) as [s'|e] eqn:Es; cbn iota beta; cbn [app].
      + rewrite <- (IH j n b st it' s' r); [|assumption|lia|lia].
        f_equal. exact (drive_pre ans _ _ _ _ [tz_given it' k; tz_taken] (tz_again (30 + j) n st it it' k) b [] (SerOpen s')).
      + drive1. injection H as <-. reflexivity.
    - drive1. serde_step. injection H as <-.
      destruct (ser_end z s) as [o|e]; cbn iota beta; cbn [app]; drive1; reflexivity.
  Qed.
  Lemma set_serialize_ok : forall fuel st r n, set_serialize m z fuel st = Some r -> 50 + 3 * fuel <= n ->
    set_text_serialize m sset_ast z U n st = Some r.
  Proof.
    intros fuel st r n H Hn. unfold set_text_serialize. rewrite tz_found.
    destruct tz_fn as [f|] eqn:Ef; [|discriminate Ef].
    destruct n as [|[|[|n]]]; try (exfalso; lia).
    rewrite (tz_unfold n f Ef). clear f Ef.
    replace n with (30 + (n - 30)) by lia. set (n' := n - 30).
    assert (Hb : exists b, Datatypes.S (Datatypes.S (Datatypes.S (30 + n'))) = Datatypes.S (Datatypes.S (Datatypes.S b)) /\
      2 * fuel < b) by (exists (30 + n'); unfold n'; split; lia).
    destruct Hb as (b & -> & Hb). unfold set_serialize, serialize, set_len, set_iter in H.
    drive1. serde_step. fset_step. cbn iota beta. cbn [app]. generalize dependent (ss_len m st). intros k H.
    drive1. serde_step. destruct (ser_start z (Some k)) as [s|e]; cbn iota beta; cbn [app].
    2: { drive1. injection H as <-. reflexivity. }
    drive1. serde_step. fset_step. cbn iota beta. cbn [app].
    rewrite <- (tz_rounds fuel n' (10 + n') b st (ss_iter m st) s r H); [|unfold n'; lia|exact Hb].
    f_equal. exact (drive_pre ans _ _ _ _ _ (tz_start n' k (ss_iter m st) st) b [] (SerOpen s)).
  Qed.
End SerSet.

Section VisitSet.
  Context {K V D Err : Type} (m : SetStorage K) (acc : access D K Err) (U : user_fns K V (D * option Err)).
  Notation X := (foreign_set m).
  Notation ans := (set_visit_answer m sset_ast acc U).
  Notation F := (set_file (V := V) (S := D * option Err) m None sset_ast).
  Local Notation "x <- p ;; q" := (seq p (fun x => q)) (at level 61, p at next level, right associativity).
  Definition ti_fn : option fn := Eval vm_compute in find_in_trait sset_ast "Visitor" "SeqVisitor" "visit_seq".
  Lemma ti_found : function_of F "Visitor" "SeqVisitor" "visit_seq" = ti_fn.
  Proof. vm_compute. reflexivity. Qed.
  Definition ti_parts : expr * expr * expr := Eval vm_compute in
    match ti_fn with
    | Some (Fn _ _ _ (EBlock [SLet _ e; SSemi l; STail t])) => (e, l, t)
    | _ => (ETup [], ETup [], ETup [])
    end.
  Definition ti_while : expr := Eval compute in snd (fst ti_parts).
  Definition ti_end : expr := Eval compute in snd ti_parts.
  Definition ti_loop (j n : nat) (sc : scope) : run V X (val V X) :=
    returning (_ <- eval sset_ast n sc ti_while;; eval sset_ast (Datatypes.S j) sc ti_end).
  Definition ti_visitor : val V X := VData "SeqVisitor" "" [("0", VFn ["core"; "marker"; "PhantomData"])].
  Definition ti_run (n : nat) : run V X (val V X) :=
    returning (c <- alloc ti_visitor;;
               sc <- bind_pats sset_ast [PName "visitor"] [VForeign (YUsers m 2)] (MkScope [("self", c)] "SeqVisitor");;
               v <- eval sset_ast (Datatypes.S n) sc (fst (fst ti_parts));;
               sc <- bind_pat sset_ast (PName "set") v sc;;
               _ <- eval sset_ast (Datatypes.S n) sc ti_while;; eval sset_ast (Datatypes.S n) sc ti_end).
  Lemma ti_unfold : forall n f, ti_fn = Some f ->
    call_fn sset_ast (Datatypes.S (Datatypes.S (Datatypes.S n))) "SeqVisitor" f [ti_visitor; VForeign (YUsers m 2)] = ti_run n.
  Proof. intros n f [= <-]. reflexivity. Qed.
  Definition ti_scope : scope := MkScope [("set", 2); ("visitor", 1); ("self", 0)] "SeqVisitor".
  Definition ti_cells (st : ss_St m) : list (val V X) := [ti_visitor; VForeign (YUsers m 2); set_val m st].
  Lemma ti_start : forall n st extra,
    ti_run (30 + n) (MkRt [] ([MkReply (CVal (VForeign (YSet m st))) [] []] ++ extra)%list) =
    ti_loop (30 + n) (31 + n) ti_scope (MkRt (ti_cells st) extra).
  Proof.
    intros n st extra. unfold ti_run, ti_loop. apply returning_step.
    erewrite seq_step by (vm_compute; reflexivity).
    erewrite seq_step by (vm_compute; reflexivity).
    erewrite seq_step by (vm_compute; reflexivity).
    erewrite seq_step by (vm_compute; reflexivity).
    reflexivity.
  Qed.
  Definition ti_cond : pat * expr * expr := Eval vm_compute in
    match ti_while with EWhileLet p c b => (p, c, b) | _ => (PWild, ETup [], ETup []) end.
  Definition ti_round (n : nat) (sc : scope) : run V X bool :=
    scoped (v <- eval sset_ast n sc (snd (fst ti_cond));; o <- matches sset_ast pattern_depth (fst (fst ti_cond)) v;;
            match o with
            | Some l => sc' <- binding l sc;; _ <- eval sset_ast n sc' (snd ti_cond);; done true
            | None => done false
            end).
  Lemma ti_again : forall n sc, eval sset_ast (Datatypes.S n) sc ti_while =
    seq (ti_round n sc) (fun again : bool => if again then eval sset_ast n sc ti_while else done unit_).
  Proof. reflexivity. Qed.
  Definition ti_given (k : K) : reply V X :=
    MkReply (CVal (ok_ (some_ (elem_val m k)))) [] [].
  Definition ti_taken (st : ss_St m) (o : val V X) : reply V X :=
    MkReply (CVal o) [(At 2 [Fld "storage"], VForeign (YSet m st))] [].
  Lemma ti_next : forall j n st st' k o extra,
    ti_loop j (Datatypes.S (20 + n)) ti_scope (MkRt (ti_cells st) ([ti_given k; ti_taken st' o] ++ extra)%list) =
    ti_loop j (20 + n) ti_scope (MkRt (ti_cells st') extra).
  Proof.
    intros j n st st' k o extra. unfold ti_loop at 1. unfold ti_loop. rewrite ti_again.
    apply returning_step.
    assert (R : ti_round (20 + n) ti_scope (MkRt (ti_cells st) ([ti_given k; ti_taken st' o] ++ extra)%list) =
      (CVal true, MkRt (ti_cells st') extra)) by (vm_compute; reflexivity).
    apply seq_cong. rewrite (seq_step _ _ _ _ _ R). reflexivity.
  Qed.
  Definition set_built (r : ss_St m + Err) : val V X + Err := match r with inl st => inl (set_val m st) | inr e => inr e end.
  Lemma ti_rounds : forall fuel j n b w d st r,
    visit acc (fun st e => snd (set_insert m st e)) fuel d st = Some r ->
    fuel <= n -> 2 * fuel < b -> exists c t s,
    drive (ans w) (ti_loop (30 + j) (20 + n) ti_scope) (ti_cells st) b [] (d, None) = (c, t, s) /\
    visit_result (c, s) = Some (set_built r).
  Proof.
    induction fuel as [|fuel IH]; intros j n b w d st r H Hn Hb; [discriminate|].
    cbn [visit] in H. destruct n as [|n]; [lia|]. destruct b as [|[|b]]; try lia.
    drive1. serde_step. destruct (acc d) as [[[k|]|e] d'] eqn:Ea; cbn iota beta; cbn [app].
    - drive1. serde_step. fset_step. unfold set_insert in H. cbn [fst snd] in H.
      destruct (ss_insert m st k) as [o st'] eqn:Ei. cbn [snd] in H. cbn iota beta.
      destruct (IH j n b w d' st' r H) as (c & t & s & E & R); [lia|lia|].
      exists c, t, s. split; [|exact R]. clear R. etransitivity; [clear E|exact E].
      match goal with |- drive _ _ _ _ [_; MkReply (CVal ?o') _ _] _ = _ =>
        exact (drive_pre (ans w) _ _ _ _ [ti_given k; ti_taken st' o']
          (ti_next (30 + j) n st st' k o') b [] (d', None)) end.
    - drive1. injection H as <-. do 3 eexists. split; reflexivity.
    - drive1. injection H as <-. do 3 eexists. split; reflexivity.
  Qed.
  Lemma set_visit_ok : forall fuel w d r n, set_visit m acc fuel w d = Some r -> 50 + 3 * fuel <= n ->
    visit_result (set_text_visit m sset_ast acc U n w ti_visitor (d, None)) = Some (set_built r).
  Proof.
    intros fuel w d r n H Hn. unfold set_text_visit, ti_visitor. rewrite ti_found. fold ti_visitor.
    destruct ti_fn as [f|] eqn:Ef; [|discriminate Ef].
    destruct n as [|[|[|n]]]; try (exfalso; lia).
    rewrite (ti_unfold n f Ef). clear f Ef.
    replace n with (30 + (n - 30)) by lia. set (n' := n - 30).
    assert (Hb : exists b, Datatypes.S (Datatypes.S (Datatypes.S (30 + n'))) = Datatypes.S b /\
      2 * fuel < b) by (exists (32 + n'); unfold n'; split; lia).
    destruct Hb as (b & -> & Hb). unfold set_visit, set_new in H.
    drive1. serde_step. fset_step. cbn iota beta. cbn [app].
    destruct (ti_rounds fuel n' (11 + n') b w d (ss_empty m w) r H) as (c & t & s & E & R); [unfold n'; lia|exact Hb|].
    assert (P := drive_pre (ans w) _ _ _ _ _ (ti_start n' (ss_empty m w)) b [] (d, None)).
    cbn [app] in P.
    match goal with |- visit_result (let '(_, _) := ?d in _) = _ => replace d with (c, t, s); [exact R|] end.
    symmetry. etransitivity; [exact P|exact E].
  Qed.
  Lemma set_deserialize_ok : forall fuel w d r n, set_visit m acc fuel w d = Some r -> 50 + 3 * fuel <= n ->
    set_text_deserialize m sset_ast acc U n w d = Some (set_built r).
  Proof.
    intros fuel w d r n H Hn. assert (E := set_visit_ok fuel w d r n H Hn). unfold set_text_deserialize. found. cbn iota beta.
    assert (Hc : exists n', n = 30 + n') by (exists (n - 30); lia). destruct Hc as [n' ->].
    drive1. serde_step. fold ti_visitor.
    destruct (set_text_visit m sset_ast acc U (30 + n') w ti_visitor (d, None)) as [c s] eqn:Ev.
    cbn iota beta. cbn [app]. destruct c as [v| | | | | | |]; try discriminate E.
    drive1. exact E.
  Qed.
End VisitSet.

Section DebugMap.
  Context {K V W D O : Type} (m : MapStorage K V) (alternate : O -> bool) (wr : out W) (o : O)
    (fk : fmt_fn O D K) (fv : fmt_fn O D V) (U : user_fns K V (W * D + dmap * (W * D))).
  Lemma debug_ok : forall n st w d,
    text_debug m smap_ast alternate wr o fk fv U n st w d = map_fmt alternate wr o fk fv m n st w d.
  Proof.
    intros n st w d. unfold text_debug, map_fmt. found. cbn iota beta.
    drive1. serde_step. destruct (dm_new wr w d) as [[b [w1 d1]] [|]]; cbn iota beta; cbn [app].
    { drive1. reflexivity. }
    drive1. serde_step. front_step. cbn iota beta.
    unfold map_iter. generalize (ms_iter m st). intro it. drive1. serde_step.
    destruct (each_entry (ms_Iter m) (dm_entry alternate wr o fk fv) n (b, (w1, d1)) it) as [[[b2 [w2 d2]] [|]]|];
      cbn iota beta; cbn [app option_map].
    { drive1. reflexivity. }
    2: { drive1. reflexivity. }
    drive1. serde_step. destruct (dm_finish wr (b2, (w2, d2))) as [[w3 d3] []]; cbn iota beta; cbn [app]; drive1; reflexivity.
  Qed.
End DebugMap.

Section DebugSet.
  Context {K V W D O : Type} (m : SetStorage K) (alternate : O -> bool) (wr : out W) (o : O)
    (fk : fmt_fn O D K) (U : user_fns K V (W * D + dinner * (W * D))).
  Lemma set_debug_ok : forall n st w d,
    set_text_debug m sset_ast alternate wr o fk U n st w d = set_fmt alternate wr o fk m n st w d.
  Proof.
    intros n st w d. unfold set_text_debug, set_fmt. found. cbn iota beta.
    drive1. serde_step. destruct (di_new wr "{" w d) as [[b [w1 d1]] [|]]; cbn iota beta; cbn [app].
    { drive1. reflexivity. }
    drive1. serde_step. fset_step. cbn iota beta.
    unfold set_iter. generalize (ss_iter m st). intro it. drive1. serde_step.
    destruct (each_entry (ss_Iter m) (di_entry alternate wr o fk) n (b, (w1, d1)) it) as [[[b2 [w2 d2]] [|]]|];
      cbn iota beta; cbn [app option_map].
    { drive1. reflexivity. }
    2: { drive1. reflexivity. }
    drive1. serde_step. destruct (di_finish wr "}" (b2, (w2, d2))) as [[w3 d3] []]; cbn iota beta; cbn [app]; drive1; reflexivity.
  Qed.
  Lemma inter_debug_ok : forall n x w d,
    inter_text_debug m sset_ast alternate wr o fk U n x w d = inter_fmt alternate wr o fk n x w d.
  Proof.
    intros n [it other] w d. unfold inter_text_debug, inter_fmt. cbn [in_iter in_other]. found. cbn iota beta.
    drive1. serde_step. destruct (di_new wr "[" w d) as [[b [w1 d1]] [|]]; cbn iota beta; cbn [app].
    { drive1. reflexivity. }
    drive1. serde_step. fset_step. cbn iota beta.
    unfold inter_clone. cbn [in_iter in_other]. generalize (it_clone (ss_Iter m) it). intro it2. drive1. serde_step.
    destruct (each_common alternate wr o fk n (b, (w1, d1)) (MkInter it2 other)) as [[[b2 [w2 d2]] [|]]|];
      cbn iota beta; cbn [app option_map].
    { drive1. reflexivity. }
    2: { drive1. reflexivity. }
    drive1. serde_step. destruct (di_finish wr "]" (b2, (w2, d2))) as [[w3 d3] []]; cbn iota beta; cbn [app]; drive1; reflexivity.
  Qed.
End DebugSet.
