(** Running src/map.rs: the loop of [Map::from_iter]. *)
Require Import List Arith NArith Bool String Lia.
Import ListNotations.
From Verif Require Import Std Traits Api MapStorages SrcText SrcStd SrcParse SrcRun SrcSpec SrcFiles SrcFront
  SrcProofs SrcForeign SrcFrontMap.
Open Scope string_scope.

(** What was answered before need not be repeated. *)
Lemma drive_pre {V X S A} (ans : question V X -> S -> S * reply V X) (act act' : run V X A) cs cs' used :
  (forall extra, act (MkRt cs (used ++ extra)%list) = act' (MkRt cs' extra)) ->
  forall n l s, drive ans act cs n (used ++ l)%list s = drive ans act' cs' n l s.
Proof.
  intros H n. induction n as [|n IH]; intros l s; cbn [drive]; rewrite H;
    destruct (act' (MkRt cs' l)) as [[] t]; try reflexivity.
  destruct (ans q s) as [s' r]. rewrite <- app_assoc. apply IH.
Qed.
Lemma seq_step {V X A B} (a : run V X A) (f : A -> run V X B) t x t' : a t = (CVal x, t') -> seq a f t = f x t'.
Proof. intros H. unfold seq. rewrite H. reflexivity. Qed.
Lemma seq_cong {V X A B} (a b : run V X A) (f : A -> run V X B) t t' : a t = b t' -> seq a f t = seq b f t'.
Proof. intros H. unfold seq. rewrite H. reflexivity. Qed.
Lemma returning_step {V X} (a b : run V X (val V X)) t t' : a t = b t' -> returning a t = returning b t'.
Proof. intros H. unfold returning. rewrite H. reflexivity. Qed.

Section FromIter.
  Context {K V S : Type} (m : MapStorage K V) (U : user_fns K V S).
  Notation X := (foreign_map m).
  Notation F := (map_file (S := S) m None map_ast).
  Local Notation "x <- p ;; q" := (seq p (fun x => q)) (at level 61, p at next level, right associativity).

  Definition fi_pat : pat := PTup [PName "k"; PName "v"].
  Definition fi_body : expr := EBlock [SSemi (EMethod (EPath ["map"]) "insert" [EPath ["k"]; EPath ["v"]])].
  Definition fi_loop (j n : nat) (sc : scope) (c : nat) : run V X (val V X) :=
    returning (_ <- over map_ast n sc fi_pat fi_body c;; eval map_ast (Datatypes.S j) sc (EPath ["map"])).
  Definition fi_run (n : nat) (l : list (K * V)) : run V X (val V X) :=
    returning (sc <- bind_pats map_ast [PName "iter"] [VForeign (XGiven m l)] (MkScope [] "Map");;
               v <- eval map_ast (Datatypes.S n) sc (ECall (EPath ["Self"; "new"]) []);;
               sc <- bind_pat map_ast (PName "map") v sc;;
               _ <- (q <- at_place map_ast n sc (EPath ["iter"]);; it <- looping map_ast n q;;
                     c <- alloc it;; over map_ast n sc fi_pat fi_body c);;
               eval map_ast (Datatypes.S n) sc (EPath ["map"])).
  Definition fi_fn : option fn := Eval vm_compute in find_in_trait map_ast "FromIterator" "Map" "from_iter".
  Lemma fi_found : function_of F "FromIterator" "Map" "from_iter" = fi_fn.
  Proof. vm_compute. reflexivity. Qed.
  Lemma fi_unfold : forall n l f, fi_fn = Some f ->
    call_fn map_ast (Datatypes.S (Datatypes.S (Datatypes.S n))) "Map" f [VForeign (XGiven m l)] = fi_run n l.
  Proof. intros n l f [= <-]. reflexivity. Qed.

  Definition fi_scope : scope := MkScope [("map", 1); ("iter", 0)] "Map".
  Definition fi_cells (l0 : list (K * V)) (st : ms_St m) (l : list (K * V)) : list (val V X) :=
    [VForeign (XGiven m l0); map_val m st; VForeign (XGiven m l)].

  Lemma fi_start : forall n l st extra,
    fi_run (30 + n) l (MkRt [] ([MkReply (CVal (VForeign (XMap m st))) [] [];
                                 MkReply (CVal (VForeign (XGiven m l))) [] []] ++ extra)%list) =
    fi_loop (30 + n) (30 + n) fi_scope 2 (MkRt (fi_cells l st l) extra).
  Proof.
    intros n l st extra. unfold fi_run, fi_loop. apply returning_step.
    erewrite seq_step by (vm_compute; reflexivity).
    erewrite seq_step by (vm_compute; reflexivity).
    erewrite seq_step by (vm_compute; reflexivity).
    apply seq_cong.
    erewrite (seq_step (at_place _ _ _ _)) by (vm_compute; reflexivity).
    erewrite (seq_step (looping _ _ _)) by (vm_compute; reflexivity).
    erewrite (seq_step (alloc _)) by (vm_compute; reflexivity).
    reflexivity.
  Qed.
  Definition one_round (n : nat) (sc : scope) (c : nat) : run V X bool :=
    scoped (x <- method map_ast n (At c []) "next" [];;
            match x with
            | VData "Option" "Some" [(_, x)] =>
                sc' <- bind_pat map_ast fi_pat x sc;; _ <- eval map_ast n sc' fi_body;; done true
            | _ => done false
            end).
  Lemma over_unfold : forall n sc c, over map_ast (Datatypes.S n) sc fi_pat fi_body c =
    seq (one_round n sc c) (fun again : bool => if again then over map_ast n sc fi_pat fi_body c else done unit_).
  Proof. reflexivity. Qed.
  (** The iterator gives a pair and the storage takes it. *)
  Definition fi_given (l : list (K * V)) (k : K) (v : V) : reply V X :=
    MkReply (CVal (some_ (VData "()" "" [("0", key_val m k); ("1", VUser v)])))
      [(At 2 [], VForeign (XGiven m l))] [].
  Definition fi_taken (st : ms_St m) (o : val V X) : reply V X :=
    MkReply (CVal o) [(At 1 [Fld "storage"], VForeign (XMap m st))] [].
  Lemma fi_round : forall j n l0 l st st' k v o extra,
    fi_loop j (Datatypes.S (20 + n)) fi_scope 2
      (MkRt (fi_cells l0 st ((k, v) :: l)) ([fi_given l k v; fi_taken st' o] ++ extra)%list) =
    fi_loop j (20 + n) fi_scope 2 (MkRt (fi_cells l0 st' l) extra).
  Proof.
    intros j n l0 l st st' k v o extra. unfold fi_loop at 1. unfold fi_loop. rewrite over_unfold.
    apply returning_step.
    assert (R : one_round (20 + n) fi_scope 2
      (MkRt (fi_cells l0 st ((k, v) :: l)) ([fi_given l k v; fi_taken st' o] ++ extra)%list) =
      (CVal true, MkRt (fi_cells l0 st' l) extra)) by (vm_compute; reflexivity).
    apply seq_cong. rewrite (seq_step _ _ _ _ _ R). reflexivity.
  Qed.

  Lemma fi_rounds : forall l j n b l0 st w s, List.length l < n -> 2 * List.length l < b -> exists t,
    drive (answer F U w) (fi_loop j (20 + n) fi_scope 2) (fi_cells l0 st l) b [] s =
    (CVal (map_val m (fold_left (fun st e => snd (map_insert m st (fst e) (snd e))) l st)), t, s).
  Proof.
    induction l as [|[k v] l IH]; intros j n b l0 st w s Hn Hb; cbn [List.length] in *.
    - destruct n as [|n]; [lia|]. destruct b as [|b]; [lia|]. cbn [fold_left].
      drive1. front_step. drive1. eexists. reflexivity.
    - destruct n as [|n]; [lia|]. destruct b as [|[|b]]; try lia. cbn [fold_left fst snd].
      drive1. front_step. drive1. front_step. unfold map_insert.
      destruct (ms_insert m st k v) as [o st'] eqn:Ei. cbn [snd].
      destruct (IH j n b l0 st' w s) as [t Et]; [lia|lia|].
      exists t. etransitivity; [clear Et|exact Et].
      match goal with |- drive _ _ _ _ [_; MkReply (CVal ?o') _ _] _ = _ =>
        exact (drive_pre (answer F U w) _ _ _ _ [fi_given l k v; fi_taken st' o']
          (fi_round j n l0 l st st' k v o') b [] s) end.
  Qed.

  Lemma from_iter_ok : forall w l s n, 40 + 3 * List.length l <= n ->
    front_from_iter m map_ast U n w l s = Some (map_val m (map_from_iter m w l), s).
  Proof.
    intros w l s n Hn. unfold front_from_iter. rewrite fi_found.
    destruct fi_fn as [f|] eqn:Ef; [|discriminate Ef].
    destruct n as [|[|[|n]]]; try (exfalso; lia).
    rewrite (fi_unfold n l f Ef). clear f Ef.
    replace n with (30 + (n - 30)) by lia. set (n' := n - 30).
    assert (Hb : exists b, Datatypes.S (Datatypes.S (Datatypes.S (30 + n'))) = Datatypes.S (Datatypes.S b) /\
      2 * List.length l < b) by (exists (31 + n'); unfold n'; split; lia).
    destruct Hb as (b & -> & Hb).
    drive1. front_step. drive1. front_step.
    destruct (fi_rounds l (30 + n') (10 + n') b l (ms_empty m w) w s) as [t Et]; [unfold n'; lia|exact Hb|].
    assert (D := drive_pre (answer F U w) _ _ _ _ _ (fi_start n' l (ms_empty m w)) b [] s).
    cbn [app] in D.
    match goal with |- match ?d with _ => _ end = _ => replace d with
      (@CVal V X _ (map_val m (map_from_iter m w l)), t, s) end; [reflexivity|].
    symmetry. etransitivity; [exact D|exact Et].
  Qed.
End FromIter.
