(** C75: the source text of the front end of [#[derive(Key)]]. *)
Require Import List Arith NArith Bool String.
Import ListNotations.
From Verif Require Import Key Front AttrRun AttrProofs.
Open Scope string_scope.

(** For every input, the text ends and makes what the model makes. *)
Theorem C75_derive : forall i, exists m, derive_text i = Some m /\ seen_made m = storage_derive (seen i).
Proof. exact derive_model. Qed.
Print Assumptions C75_derive.
(** A bitset is asked for just by [#[key(bitset ..)]]. *)
Theorem C75_bitset : forall i, exists b l, parse_text i = Some (b, l) /\
  (b = true <-> exists a tail r, In a (tn_attrs i) /\ ta_path a = "key" /\
                                ta_items a = Some (MkItem (Some "bitset") tail :: r)).
Proof. exact bitset_iff. Qed.
Print Assumptions C75_bitset.
(** No error is recorded just when every [key] attribute is a list of plain [bitset]s. *)
Theorem C75_no_errors : forall i, exists b l, parse_text i = Some (b, l) /\
  (l = [] <-> forall a, In a (tn_attrs i) -> ta_path a = "key" ->
              exists n, ta_items a = Some (repeat (MkItem (Some "bitset") false) n)).
Proof. exact no_errors_iff. Qed.
Print Assumptions C75_no_errors.
(** The errors recorded are one for each bad [key] attribute, in order. *)
Theorem C75_errors : forall i, exists b, parse_text i = Some (b, flat_map attr_errors (tn_attrs i)).
Proof. intros i. eexists. exact (parse_text_ok i). Qed.
Print Assumptions C75_errors.
(** Structs and unions are refused, with the message for named fields after those for
    attributes. *)
Theorem C75_not_enum : forall i b l, (forall vs, tn_data i <> DataEnum vs) -> parse_text i = Some (b, l) ->
  derive_text i = Some (MadeErrors (l ++ [EMsg "named fields are not supported"])%list).
Proof. exact not_enum_text. Qed.
Print Assumptions C75_not_enum.
(** Enums of unit variants: refused just if there are too many for a bitset asked for; errors of
    attributes are dropped otherwise. *)
Theorem C75_unit : forall i vs b l, tn_data i = DataEnum vs -> (forall f, In f vs -> f = FieldsUnit) ->
  parse_text i = Some (b, l) ->
  derive_text i = Some (if b && (128 <? N.of_nat (List.length vs))%N
                        then MadeErrors (l ++ [EGen (ErrTooMany (N.of_nat (List.length vs)))])%list
                        else MadeCode (TokUnit b (List.length vs))).
Proof. exact unit_text. Qed.
Print Assumptions C75_unit.

(** * Examples *)
(** [#[derive(..)] #[key(bitset, bitset x)] #[key] #[key(other, bitset)]]. *)
Definition some_attrs : list tattr :=
  [MkAttr "derive" None;
   MkAttr "key" (Some [MkItem (Some "bitset") false; MkItem (Some "bitset") true]);
   MkAttr "key" None; MkAttr "key" (Some [MkItem (Some "other") false; MkItem (Some "bitset") false])].
Example C75_parse_example :
  parse_text (MkTInput some_attrs DataStruct) = Some (true, [ESyn; ESyn; EMsg "Unsupported attribute"]) /\
  parse_text (MkTInput [MkAttr "key" (Some [MkItem (Some "bitset") false]); MkAttr "doc" None] DataStruct) = Some (true, []).
Proof. vm_compute. split; reflexivity. Qed.
Example C75_derive_example :
  derive_text (MkTInput some_attrs (DataEnum [FieldsUnit; FieldsUnit])) = Some (MadeCode (TokUnit true 2)) /\
  derive_text (MkTInput some_attrs DataUnion) =
    Some (MadeErrors [ESyn; ESyn; EMsg "Unsupported attribute"; EMsg "named fields are not supported"]) /\
  derive_text (MkTInput [] (DataEnum [FieldsUnnamed [Some KBool]; FieldsUnit])) =
    Some (MadeCode (TokAny [(0, KindComplex (Some KBool)); (1, KindSimple)])) /\
  derive_text (MkTInput [] (DataEnum [FieldsUnnamed []])) = Some MadePanic.
Proof. vm_compute. repeat split; reflexivity. Qed.
Example C75_many_example :
  derive_text (MkTInput some_attrs (DataEnum (repeat FieldsUnit 129))) =
    Some (MadeErrors [ESyn; ESyn; EMsg "Unsupported attribute"; EGen (ErrTooMany 129)]).
Proof. vm_compute. reflexivity. Qed.
