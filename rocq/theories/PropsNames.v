(** C57: names in generated code. *)
Require Import List Bool String Arith.
Import ListNotations.
From Verif Require Import Names NamesSpec NamesProofs.
Open Scope string_scope.

(** The derive is not indifferent to names: an enum called [V] will not do, nor one
    with a field of a type called [V], nor one declared next to a constant called
    [value], and a doc comment on a field makes the derive fail. *)
Theorem C57_refuted :
  ~ names_do_not_matter /\
  (exists s i, declared s i /\ nm_ident i = "V" /\ ~ means_well s i (GenUnit false 2)) /\
  (exists s i, declared s i /\ nm_fields i = [(["V"], 0)] /\ ~ means_well s i (GenAny false)) /\
  (exists s i, declared s i /\ (forall x, si_consts s x = true -> x = "value") /\
     nm_ident i = "Key" /\ ~ means_well s i (GenUnit false 2)) /\
  (exists s i, declared s i /\ means_well s i (GenAny true) /\
     derive_errors i (GenAny true) = true).
Proof. exact names_refuted. Qed.
Print Assumptions C57_refuted.

(** Exactly these names matter: those of the generated types and type parameters,
    for the enum and for the types of its fields; those of a few core types and
    constructors; and those of the variables, for constants.  Fields without
    attributes are fine, others are not. *)
Theorem C57_exact : forall (s : site) (i : named) (g : generator), declared s i ->
  (means_well s i g <-> clear_names s i g) /\
  (forall u, g = GenAny u ->
     (derive_errors i g = false <-> forall f, In f (nm_fields i) -> snd f = 0)) /\
  (forall b n, g = GenUnit b n -> derive_errors i g = false).
Proof. exact names_full. Qed.
Print Assumptions C57_exact.

(** What holds of the expectation: programs that keep clear of these names and put
    nothing on fields are served as they should be. *)
Theorem C57_partial : forall (s : site) (i : named) (g : generator), declared s i ->
  clear_names s i g -> (forall f, In f (nm_fields i) -> snd f = 0) ->
  derive_errors i g = false /\ means_well s i g.
Proof. exact names_served. Qed.
Print Assumptions C57_partial.

(** An enum [Key] with a unit variant, [First(bool)] and [Second(Part)], in a module
    with a type [Part], a function [value] and a module-level import of [Option]. *)
Example C57_example :
  let s := MkSite (fun x => if String.eqb x "Key" then Some MEnum
                            else if String.eqb x "Part" then Some (MUser 0)
                            else if String.eqb x "Option" then Some (MCore "Option") else None)
                  (fun x => if String.eqb x "value" then Some (MUser 1) else None)
                  (fun _ => false) in
  let i := MkNamed "Key" [(["bool"], 0); (["Part"], 0)] in
  declared s i /\ clear_names s i (GenAny true) /\
  (forall f, In f (nm_fields i) -> snd f = 0) /\ List.length (regions_of (GenAny true)) = 20.
Proof.
  split; [|split; [|split]].
  - split; [reflexivity|]. intros x m H. cbn in H.
    destruct (String.eqb x "Key"); [injection H as <-; split; discriminate|].
    destruct (String.eqb x "Part"); [injection H as <-; split; discriminate|].
    destruct (String.eqb x "Option"); [injection H as <-; split; discriminate|discriminate].
  - split; [cbn; intuition discriminate|]. split.
    + intros f x [<-|[<-|[]]] [<-|[]]; cbn; intuition discriminate.
    + split; [|split].
      * intros x [<-|[<-|[<-|[<-|[<-|[]]]]]]; cbn; tauto.
      * intros x [<-|[]]; cbn; tauto.
      * reflexivity.
  - intros f [<-|[<-|[]]]; reflexivity.
  - reflexivity.
Qed.
