(** Vocabulary of C57: which names a program must keep clear of. *)
Require Import List Bool String.
Import ListNotations.
From Verif Require Import Names.
Open Scope string_scope.

(** A place where the enum is declared: its name means the enum, and no name means
    something inside the code that is yet to be generated. *)
Definition declared (s : site) (i : named) : Prop :=
  si_types s (nm_ident i) = Some MEnum /\
  forall x m, si_types s x = Some m ->
    (forall y, m <> MParam y) /\ (forall y, m <> MGenerated y).

(** Names that the generated code uses for something else. *)
Definition reserved (g : generator) : list string :=
  match g with
  | GenUnit _ _ => ["V"; "F"; "VacantEntry"; "OccupiedEntry"; "__MapStorage"; "__SetStorage"]
  | GenAny _ =>
      ["V"; "F"; "VacantEntry"; "OccupiedEntry"; "SimpleVacantEntry"; "SimpleOccupiedEntry";
       "__MapStorage"; "__MapStorageIter"; "__MapStorageKeys"; "__MapStorageValues";
       "__MapStorageIterMut"; "__MapStorageValuesMut"; "__MapStorageIntoIter";
       "__SetStorage"; "__SetStorageIter"; "__SetStorageIntoIter"]
  end.

(** The smallest unsigned integer type with [n] bits or more. *)
Definition int_name (n : nat) : string :=
  match find (fun e : string * nat => Nat.leb n (snd e))
             [("u8", 8); ("u16", 16); ("u32", 32); ("u64", 64)] with
  | Some e => fst e
  | None => "u128"
  end.

(** Types and traits the generated code takes to be those of the core library. *)
Definition needed_types (g : generator) : list string :=
  match g with
  | GenUnit false _ => ["Option"; "usize"; "bool"; "FnMut"]
  | GenUnit true n => ["Option"; "usize"; "bool"; "FnMut"; int_name n]
  | GenAny _ => ["Option"; "usize"; "bool"; "FnMut"; "Clone"]
  end.

(** Constructors it takes to be those of the core library. *)
Definition needed_values (g : generator) : list string :=
  match g with
  | GenUnit _ 0 => []
  | GenUnit _ (S _) => ["Some"; "None"]
  | GenAny true => ["None"]
  | GenAny false => []
  end.

(** Its variables. *)
Definition variables (g : generator) : list string :=
  match g with
  | GenUnit b n =>
      field_names n ++ (match n with 0 => [] | S _ => ["val"] end) ++
      (if b then ["mask"; "update"; "data"] else []) ++
      ["key"; "value"; "opt"; "inner"; "other"; "state"; "k"; "v"; "func"; "f"]
  | GenAny u =>
      (if u then ["val"] else []) ++
      ["key"; "value"; "opt"; "inner"; "other"; "entry"; "next"; "k"; "v"; "func"]
  end.

(** The program keeps clear of all of them. *)
Definition clear_names (s : site) (i : named) (g : generator) : Prop :=
  ~ In (nm_ident i) (reserved g) /\
  match g with
  | GenUnit _ _ => True
  | GenAny _ => forall f x, In f (nm_fields i) -> In x (fst f) -> ~ In x (reserved g)
  end /\
  (forall x, In x (needed_types g) -> si_types s x = None \/ si_types s x = Some (MCore x)) /\
  (forall x, In x (needed_values g) -> si_values s x = None \/ si_values s x = Some (MCore x)) /\
  (forall x, In x (variables g) -> si_consts s x = false).

(** What users expect: the derive accepts the enum, and the names in the code it
    generates mean what they should, however the enum and the types in it are
    called, whatever else is in scope, and whatever is attached to the fields. *)
Definition names_do_not_matter : Prop :=
  forall s i g, declared s i -> derive_errors i g = false /\ means_well s i g.
