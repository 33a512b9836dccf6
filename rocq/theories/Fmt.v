(** [Debug] again, with everything that Debug.v leaves out: a sink that may fail or
    panic at any write, implementations of [Debug] for keys and values that write
    piecemeal, may fail, panic and have effects, and the alternate mode [{:#?}]. *)
Require Import String Ascii List Bool.
Import ListNotations.
From Verif Require Import Std Traits Api Debug.
Local Open Scope string_scope.

(** [fmt::Result] (src/map.rs:963, src/set.rs:634, src/set/intersection.rs:94), or
    unwinding. *)
Inductive verdict : Type := FOk | FErr | FPanic.

(** [fmt::Write::write_str] of the sink behind the formatter (src/map.rs:963). *)
Definition out (W : Type) : Type := W -> string -> W * verdict.

(** A run of [Debug::fmt] of a key or a value (src/map.rs:959-960), user code: it
    ends, or writes and continues, knowing whether the write failed.  [D] is whatever
    else it may change; it is given as it is when the run ends, and at the
    write, which may unwind. *)
Inductive script {D : Type} : Type :=
| Stop (d : D) (r : verdict)
| Write (d : D) (s : string) (k : bool -> script).
Arguments script : clear implicits.

(** Such a run, with the sink [wr] (src/map.rs:959-964). *)
Fixpoint run {D W} (wr : out W) (c : script D) (w : W) : W * D * verdict :=
  match c with
  | Stop d r => (w, d, r)
  | Write d s k =>
      match wr w s with
      | (w1, FOk) => run wr (k true) w1
      | (w1, FErr) => run wr (k false) w1
      | (w1, FPanic) => (w1, d, FPanic)
      end
  end.

(** [Debug] of a type (src/map.rs:959-960, src/set.rs:631): it sees the options of the
    formatter ([O]: alternate mode, width, precision, ..). *)
Definition fmt_fn (O D A : Type) : Type := O -> D -> A -> script D.

(** [str::split_inclusive('\n')] (core), in [PadAdapter] below (src/map.rs:964). *)
Fixpoint split_lines (s : string) : list string :=
  match s with
  | EmptyString => []
  | String c r =>
      if Ascii.eqb c "010" then String c "" :: split_lines r
      else match split_lines r with
           | [] => [String c ""]
           | p :: q => String c p :: q
           end
  end.

(** [str::ends_with('\n')] (core), see [pad] (src/map.rs:964). *)
Fixpoint ends_line (s : string) : bool :=
  match s with
  | EmptyString => false
  | String c EmptyString => Ascii.eqb c "010"
  | String _ r => ends_line r
  end.

(** The loop of [pad] (src/map.rs:964). *)
Fixpoint pad_lines {W} (wr : out W) (l : list string) (w : W) (nl : bool) : W * bool * verdict :=
  match l with
  | [] => (w, nl, FOk)
  | s :: r =>
      match (if nl then wr w "    " else (w, FOk)) with
      | (w1, FOk) =>
          match wr w1 s with
          | (w2, FOk) => pad_lines wr r w2 (ends_line s)
          | (w2, v) => (w2, ends_line s, v)
          end
      | (w1, v) => (w1, nl, v)
      end
  end.

(** [core::fmt::builders::PadAdapter] as [fmt::Write], through which the entries are
    written in alternate mode (src/map.rs:964, src/set.rs:635,
    src/set/intersection.rs:95): the flag is its [PadAdapterState], whether a line
    is about to begin. *)
Definition pad {W} (wr : out W) : out (W * bool) :=
  fun st s => let '(w, nl, v) := pad_lines wr (split_lines s) (fst st) (snd st) in ((w, nl), v).

(** [DebugMap] (core::fmt::builders; src/map.rs:964): result so far, whether an entry
    was written, whether a key awaits its value, state of the adapter. *)
Record dmap : Type := MkDmap {
  dm_ok : bool; dm_fields : bool; dm_key : bool; dm_nl : bool
}.

(** [?]: what follows a write or a call that went well (src/map.rs:964). *)
Definition and_then {St} (m : St * verdict) (k : St -> St * verdict) : St * verdict :=
  match m with
  | (st, FOk) => k st
  | other => other
  end.

Section Debug.
  Context {O D W : Type} (alternate : O -> bool) (wr : out W) (o : O).

  (** State: the sink, the state of the user's code, and that of the adapter
      (src/map.rs:964). *)
  Definition fst_ : Type := (W * D * bool)%type.

  (** [self.fmt.write_str(s)] (core, src/map.rs:964). *)
  Definition say (s : string) (st : fst_) : fst_ * verdict :=
    let '(w, d, nl) := st in let '(w1, v) := wr w s in ((w1, d, nl), v).

  (** [x.fmt(self.fmt)] (core, src/map.rs:964). *)
  Definition show {A} (f : fmt_fn O D A) (x : A) (st : fst_) : fst_ * verdict :=
    let '(w, d, nl) := st in let '(w1, d1, v) := run wr (f o d x) w in ((w1, d1, nl), v).

  (** [writer.write_str(s)] and [x.fmt(&mut writer)], with [writer] the adapter
      (core, src/map.rs:964). *)
  Definition pad_say (s : string) (st : fst_) : fst_ * verdict :=
    let '(w, d, nl) := st in let '((w1, nl1), v) := pad wr (w, nl) s in ((w1, d, nl1), v).
  Definition pad_show {A} (f : fmt_fn O D A) (x : A) (st : fst_) : fst_ * verdict :=
    let '(w, d, nl) := st in
    let '((w1, nl1), d1, v) := run (pad wr) (f o d x) (w, nl) in ((w1, d1, nl1), v).

  (** [PadAdapterState::default()] (core, src/map.rs:964). *)
  Definition new_line (st : fst_) : fst_ := (fst st, true).

  (** The loop of [entries] (core, src/map.rs:964, src/set.rs:635): it runs the
      iterator to its end, also after an error, but for unwinding; [b] is the
      builder; [None]: out of fuel. *)
  Fixpoint each_entry {A B} (i : iterator A) (f : A -> B * (W * D) -> B * (W * D) * bool)
    (fuel : nat) (b : B * (W * D)) (s : it_st i) : option (B * (W * D) * bool) :=
    match fuel with
    | 0 => None
    | S n =>
        match it_next i s with
        | (None, _) => Some (b, false)
        | (Some x, s1) =>
            match f x b with
            | (b1, true) => Some (b1, true)
            | (b1, false) => each_entry i f n b1 s1
            end
        end
    end.

  (** [self.result = self.result.and_then(..)] (core, src/map.rs:964): the flag is for
      unwinding. *)
  Definition guarded {B} (ok : bool) (set : bool -> bool -> B) (b : B)
    (m : W * D * bool -> fst_ * verdict) (nl : bool) (wd : W * D) : B * (W * D) * bool :=
    if ok then
      match m (wd, nl) with
      | ((wd1, nl1), FOk) => (set true nl1, wd1, false)
      | ((wd1, nl1), FErr) => (set false nl1, wd1, false)
      | ((wd1, nl1), FPanic) => (b, wd1, true)
      end
    else (b, wd, false).

  (** [assert!] (core, src/map.rs:964). *)
  Definition asserting (c : bool) (m : fst_ -> fst_ * verdict) (st : fst_) : fst_ * verdict :=
    if c then m st else (st, FPanic).

  (** ** Maps *)

  Section Map.
    Context {K V : Type} (fk : fmt_fn O D K) (fv : fmt_fn O D V).

    (** [DebugMap::key] (core::fmt::builders; src/map.rs:964). *)
    Definition dm_put_key (k : K) (b : dmap * (W * D)) : dmap * (W * D) * bool :=
      let '(m, wd) := b in
      guarded (dm_ok m)
        (fun ok nl => MkDmap ok (dm_fields m) (if ok then true else dm_key m) nl) m
        (asserting (negb (dm_key m)) (fun st =>
           if alternate o then
             and_then (if dm_fields m then (st, FOk) else say (String "010" "") st) (fun st =>
             and_then (pad_show fk k (new_line st)) (fun st => pad_say ": " st))
           else
             and_then (if dm_fields m then say ", " st else (st, FOk)) (fun st =>
             and_then (show fk k st) (fun st => say ": " st))))
        (dm_nl m) wd.

    (** [DebugMap::value] (core::fmt::builders; src/map.rs:964). *)
    Definition dm_put_value (v : V) (b : dmap * (W * D)) : dmap * (W * D) * bool :=
      let '(m, wd) := b in
      let '(m1, wd1, u) :=
        guarded (dm_ok m)
          (fun ok nl => MkDmap ok (dm_fields m) (if ok then false else dm_key m) nl) m
          (asserting (dm_key m) (fun st =>
             if alternate o then
               and_then (pad_show fv v st) (fun st => pad_say (String "," (String "010" "")) st)
             else show fv v st))
          (dm_nl m) wd in
      ((MkDmap (dm_ok m1) true (dm_key m1) (dm_nl m1), wd1), u).

    (** [DebugMap::entry] (core::fmt::builders; src/map.rs:964). *)
    Definition dm_entry (e : K * V) (b : dmap * (W * D)) : dmap * (W * D) * bool :=
      match dm_put_key (fst e) b with
      | (b1, true) => (b1, true)
      | (b1, false) => dm_put_value (snd e) b1
      end.

    (** [DebugMap::finish] (core::fmt::builders; src/map.rs:964). *)
    Definition dm_finish (b : dmap * (W * D)) : W * D * verdict :=
      let '(m, wd) := b in
      if dm_ok m then
        let '((wd1, _), v) := asserting (negb (dm_key m)) (say "}") (wd, dm_nl m) in (wd1, v)
      else (wd, FErr).

    (** [Formatter::debug_map] (core, src/map.rs:964); the flag is for unwinding. *)
    Definition dm_new (w : W) (d : D) : dmap * (W * D) * bool :=
      let '(w1, v) := wr w "{" in
      (MkDmap (match v with FOk => true | _ => false end) false false true, (w1, d),
       match v with FPanic => true | _ => false end).

    (** [Debug::fmt] of [Map], src/map.rs:963-965. *)
    Definition map_fmt (m : MapStorage K V) (fuel : nat) (st : ms_St m) (w : W) (d : D)
      : option (W * D * verdict) :=
      match dm_new w d with
      | ((_, wd), true) => Some (wd, FPanic)
      | (b, false) =>
          option_map (fun r => match r with
                               | ((_, wd), true) => (wd, FPanic)
                               | (b, false) => dm_finish b
                               end)
            (each_entry (ms_Iter m) dm_entry fuel b (map_iter m st))
      end.
  End Map.

  (** ** Sets and intersections *)

  Section Set_.
    Context {T : Type} (ft : fmt_fn O D T).

    (** [DebugInner] (core::fmt::builders; src/set.rs:635,
        src/set/intersection.rs:95): result so far, whether an entry was written. *)
    Record dinner : Type := MkDinner { di_ok : bool; di_fields : bool }.

    (** [DebugInner::entry] (core::fmt::builders; src/set.rs:635,
        src/set/intersection.rs:95). *)
    Definition di_entry (x : T) (b : dinner * (W * D)) : dinner * (W * D) * bool :=
      let '(m, wd) := b in
      let '(m1, wd1, u) :=
        guarded (di_ok m) (fun ok _ => MkDinner ok (di_fields m)) m
          (fun st =>
             if alternate o then
               and_then (if di_fields m then (st, FOk) else say (String "010" "") st) (fun st =>
               and_then (pad_show ft x (new_line st)) (fun st =>
                 pad_say (String "," (String "010" "")) st))
             else
               and_then (if di_fields m then say ", " st else (st, FOk)) (fun st => show ft x st))
          true wd in
      ((MkDinner (di_ok m1) true, wd1), u).

    (** [DebugSet::finish], [DebugList::finish] (core::fmt::builders; src/set.rs:635,
        src/set/intersection.rs:95). *)
    Definition di_finish (close : string) (b : dinner * (W * D)) : W * D * verdict :=
      let '(m, wd) := b in
      if di_ok m then let '((wd1, _), v) := say close (wd, true) in (wd1, v)
      else (wd, FErr).

    (** [Formatter::debug_set], [debug_list] (core, src/set.rs:635,
        src/set/intersection.rs:95). *)
    Definition di_new (open_ : string) (w : W) (d : D) : dinner * (W * D) * bool :=
      let '(w1, v) := wr w open_ in
      (MkDinner (match v with FOk => true | _ => false end) false, (w1, d),
       match v with FPanic => true | _ => false end).

    (** [Debug::fmt] of [Set], src/set.rs:634-636. *)
    Definition set_fmt (m : SetStorage T) (fuel : nat) (st : ss_St m) (w : W) (d : D)
      : option (W * D * verdict) :=
      match di_new "{" w d with
      | ((_, wd), true) => Some (wd, FPanic)
      | (b, false) =>
          option_map (fun r => match r with
                               | ((_, wd), true) => (wd, FPanic)
                               | (b, false) => di_finish "}" b
                               end)
            (each_entry (ss_Iter m) di_entry fuel b (set_iter m st))
      end.

    (** The loop of [entries] over an intersection (core,
        src/set/intersection.rs:95). *)
    Fixpoint each_common {m : SetStorage T} (fuel : nat) (b : dinner * (W * D))
      (x : intersection m) : option (dinner * (W * D) * bool) :=
      match fuel with
      | 0 => None
      | S n =>
          match inter_next m n x with
          | None => None
          | Some (None, _) => Some (b, false)
          | Some (Some e, x') =>
              match di_entry e b with
              | (b1, true) => Some (b1, true)
              | (b1, false) => each_common n b1 x'
              end
          end
      end.

    (** [Debug::fmt] of [Intersection], src/set/intersection.rs:94-96. *)
    Definition inter_fmt {m : SetStorage T} (fuel : nat) (x : intersection m) (w : W) (d : D)
      : option (W * D * verdict) :=
      match di_new "[" w d with
      | ((_, wd), true) => Some (wd, FPanic)
      | (b, false) =>
          option_map (fun r => match r with
                               | ((_, wd), true) => (wd, FPanic)
                               | (b, false) => di_finish "]" b
                               end)
            (each_common fuel b (inter_clone x))
      end.
  End Set_.
End Debug.
