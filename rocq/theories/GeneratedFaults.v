(** Schemas outside the conditions of C49 (Generated.v): what the generator makes
    of them.  Each theorem names a schema, the meaning X.680 gives a type of it,
    and what importing the generated module gives instead. *)

From Coq Require Import ZArith List String Bool Arith Lia.
Import ListNotations.
From Verif Require Import PyBase Schema Generator Emit Exec Meaning Modules FineCheck Generated.

Open Scope string_scope.
Open Scope list_scope.
Open Scope Z_scope.

(** The type of the class called [n] in the module generated for [S]; or the
    exception of the generator or of the import. *)
Definition imported (S : schema) (n : string) : res ty :=
  let* out := emit (map parsed_as S) in
  let* g := run out in
  match lookup (underscore n) g with
  | Some (OClass k attrs) => class_ty k attrs
  | _ => Err PyNameError
  end.

(** It is what C49 speaks about. *)
Theorem C49_imported : forall S, fine_schema S -> sortable S -> forall n t, In (TypeA n t) S ->
  exists T, means S t T /\ imported S n = Ok T.
Proof.
  intros S F O n t I. destruct (C49_modules_partial S F O) as (out & g & E & R & B & _).
  destruct (B n t I) as (T & M & k & a & L & C). exists T. split; [exact M|].
  unfold imported. rewrite E. cbn [bind]. rewrite R. cbn [bind]. now rewrite L.
Qed.

Definition one_five : option range := Some (Range (BNum 1) (BNum 5) false).
Definition seq_of_parts (l : list (part asn)) : asn := ASequence false l [] [].

Ltac compute_meaning S := apply (meaning_is S 30); vm_compute; reflexivity.
(** The module exists and its class is another type. *)
Definition other_type (S : schema) (n : string) : Prop :=
  exists T T', means S (ARef n None) T /\ imported S n = Ok T' /\ T' <> T.
(** The type has a meaning; generator or import raise [e]. *)
Definition raises (S : schema) (n : string) (e : exn) : Prop :=
  exists T, means S (ARef n None) T /\ imported S n = Err e.
Ltac differs S := unfold other_type; do 2 eexists; (split; [compute_meaning S|]; split; [vm_compute; reflexivity|discriminate]).
Ltac fails S := unfold raises; eexists; (split; [compute_meaning S|vm_compute; reflexivity]).

(** * Constraints *)

(** OCTET STRING (SIZE (MIN..5)): no lower end for the codec, which then writes a
    length without constraint. *)
Theorem C49_size_from_min_refuted :
  other_type [TypeA "A" (AOctets (Some (Range BMin (BNum 5) false)))] "A".
Proof. differs [TypeA "A" (AOctets (Some (Range BMin (BNum 5) false)))]. Qed.

(** SEQUENCE OF INTEGER (1..5): the constraint of the element is dropped. *)
Theorem C49_element_constraint_refuted :
  other_type [TypeA "A" (ASeqOf None (AInteger one_five))] "A".
Proof. differs [TypeA "A" (ASeqOf None (AInteger one_five))]. Qed.

(** * Names of the library *)

(** A component SEQUENCE OF INTEGER (1..5) writes a class IntegerType at the top of
    the module; the INTEGERs of the types behind it then are 1..5. *)
Definition hiding : schema :=
  [TypeA "A" (seq_of_parts [Part "x" Mandatory (ASeqOf None (AInteger one_five))]);
   TypeA "C" (seq_of_parts [Part "y" Mandatory (AInteger None)])].
Theorem C49_hidden_library_refuted : other_type hiding "C".
Proof. differs hiding. Qed.

(** SEQUENCE OF SEQUENCE {..., "..."} writes a class SequenceType: the SEQUENCEs
    behind it are extensible. *)
Definition hiding_sequence : schema :=
  [TypeA "A" (ASeqOf None (ASequence true [Part "x" Mandatory ABoolean] [] []));
   TypeA "C" (seq_of_parts [Part "y" Mandatory ABoolean])].
Theorem C49_hidden_sequence_refuted : other_type hiding_sequence "C".
Proof. differs hiding_sequence. Qed.

(** A type of the schema called like a class of the library. *)
Definition library_name : schema := [TypeA "IntegerType" (AInteger one_five); TypeA "B" (AInteger None)].
Theorem C49_library_name_refuted : other_type library_name "B".
Proof. differs library_name. Qed.

(** Keywords of Python: a type None; a component class of a constrained type. *)
Theorem C49_keyword_type_refuted : raises [TypeA "None" (AInteger None)] "None" PySyntaxError.
Proof. fails [TypeA "None" (AInteger None)]. Qed.
Theorem C49_keyword_component_refuted :
  raises [TypeA "A" (seq_of_parts [Part "class" Mandatory (AInteger one_five)])] "A" PySyntaxError.
Proof. fails [TypeA "A" (seq_of_parts [Part "class" Mandatory (AInteger one_five)])]. Qed.

(** * Order *)

(** An alias of an alias that is declared later. *)
Definition late_alias : schema := [TypeA "C" (ARef "B" None); TypeA "B" (ARef "A" None); TypeA "A" ABoolean].
Theorem C49_late_alias_refuted : raises late_alias "C" PyNameError.
Proof. fails late_alias. Qed.

(** A SEQUENCE with a component whose type is an alias of a SEQUENCE. *)
Definition structured_alias : schema :=
  [TypeA "C" (ARef "B" None); TypeA "D" (seq_of_parts [Part "x" Mandatory (ARef "C" None)]);
   TypeA "B" (seq_of_parts [Part "x" Mandatory ABoolean])].
Theorem C49_structured_alias_refuted : raises structured_alias "D" PyNameError.
Proof. fails structured_alias. Qed.

(** * Values in constraints and DEFAULTs *)

(** A hyphen in the name of the value. *)
Definition hyphen_bound : schema :=
  [ValueA "n-m" (AInteger None) (LNum 3); TypeA "A" (AInteger (Some (Range (BNum 1) (BRef "n-m") false)))].
Theorem C49_hyphen_bound_refuted : raises hyphen_bound "A" PyNameError.
Proof. fails hyphen_bound. Qed.
Definition hyphen_default : schema :=
  [ValueA "n-m" (AInteger None) (LNum 3); TypeA "A" (seq_of_parts [Part "x" (Default (LRef "n-m")) (AInteger None)])].
Theorem C49_hyphen_default_refuted : raises hyphen_default "A" PyNameError.
Proof. fails hyphen_default. Qed.

(** BOOLEAN DEFAULT yes, yes being TRUE: the default is FALSE. *)
Definition boolean_default : schema :=
  [ValueA "yes" ABoolean (LBoolean true); TypeA "A" (seq_of_parts [Part "x" (Default (LRef "yes")) ABoolean])].
Theorem C49_boolean_default_refuted : other_type boolean_default "A".
Proof. differs boolean_default. Qed.

(** OCTET STRING DEFAULT o: the component is mandatory. *)
Definition octets_default : schema :=
  [ValueA "o" (AOctets None) (LHex [1; 2]); TypeA "A" (seq_of_parts [Part "x" (Default (LRef "o")) (AOctets None)])].
Theorem C49_octets_default_refuted : other_type octets_default "A".
Proof. differs octets_default. Qed.

(** OCTET STRING DEFAULT ''B: the default is one octet. *)
Definition empty_default : schema := [TypeA "A" (seq_of_parts [Part "x" (Default (LBin [])) (AOctets None)])].
Theorem C49_empty_default_refuted : other_type empty_default "A".
Proof. differs empty_default. Qed.

(** A DEFAULT for an alias of an alias: the literal is copied as it is. *)
Definition alias_default : schema :=
  [TypeA "E" ABoolean; TypeA "F" (ARef "E" None);
   TypeA "A" (seq_of_parts [Part "x" (Default (LBoolean true)) (ARef "F" None)])].
Theorem C49_alias_default_refuted : raises alias_default "A" PyNameError.
Proof. fails alias_default. Qed.

(** INTEGER (1..5) DEFAULT n, n a value of a type N of its own: the component has
    the type N. *)
Definition constant_default : schema :=
  [TypeA "N" (AInteger None); ValueA "n" (ARef "N" None) (LNum 3);
   TypeA "A" (seq_of_parts [Part "x" (Default (LRef "n")) (AInteger one_five)])].
Theorem C49_constant_default_refuted : other_type constant_default "A".
Proof. differs constant_default. Qed.

(** The same without n being known at the time: NameError if the value is used as an
    end point (C43_constants_refuted says more). *)
Definition constant_bound : schema :=
  [TypeA "N" (AInteger None); ValueA "n" (ARef "N" None) (LNum 3);
   TypeA "A" (AInteger (Some (Range (BNum 1) (BRef "n") false)))].
Theorem C49_constant_bound_refuted : imported constant_bound "A" = Err PyNameError.
Proof. vm_compute. reflexivity. Qed.

(** * Value assignments *)

(** c INTEGER (1..5) ::= 9 is taken. *)
Theorem C49_value_constraint_refuted : exists out g,
  emit (map parsed_as [ValueA "c" (AInteger one_five) (LNum 9)]) = Ok out /\ run out = Ok g /\
  lookup "c" g = Some (OInst (TInt CNone) (VInt 9)).
Proof. do 2 eexists. split; [vm_compute; reflexivity|]. split; vm_compute; reflexivity. Qed.

(** d OCTET STRING ::= c: no exception and no object: the assignment has no value and is
    written as a class, which takes the place of the library's OctetStringType. *)
Definition value_of_value : schema := [ValueA "c" (AOctets None) (LHex [1; 2]); ValueA "d" (AOctets None) (LRef "c")].
Theorem C49_value_of_value_refuted : lit_is value_of_value (AOctets None) (LRef "c") (VOcts [18]) /\
  exists out g, emit (map parsed_as value_of_value) = Ok out /\ run out = Ok g /\ lookup "d" g = None.
Proof.
  split.
  - apply (lit_val_is value_of_value). vm_compute. reflexivity.
  - do 2 eexists. split; [vm_compute; reflexivity|]. split; vm_compute; reflexivity.
Qed.

(** c E ::= a, E an ENUMERATED: the generator never returns (DefinedType.py 20-21:
    the class met is not one of the four and its typereference is its own name). *)
Definition enum_constant : schema := [TypeA "E" (AEnumer ["a"; "b"] None); ValueA "c" (ARef "E" None) (LItem "a")].
Theorem C49_enum_constant_refuted : lit_is enum_constant (ARef "E" None) (LItem "a") (VEnum 0) /\
  forall n, chase n (registered [] (map parsed_as enum_constant)) "E" = Err LoopFuel.
Proof.
  split; [apply (lit_chain_is enum_constant 3); vm_compute; reflexivity|].
  induction n as [|n IH]; [reflexivity|]. exact IH.
Qed.

(** * Types without definition, recursive types *)

(** A name without assignment: KeyError, as it should be an error. *)
Theorem C49_undefined : imported [TypeA "A" (seq_of_parts [Part "x" Optional (ARef "B" None)])] "A" = Err PyKeyError.
Proof. vm_compute. reflexivity. Qed.
(** A type that contains itself (legal, X.680 3.8.67 recursive definitions): the
    module cannot be imported. *)
Theorem C49_recursive_refuted :
  imported [TypeA "A" (seq_of_parts [Part "x" Optional (ARef "A" None)])] "A" = Err PyNameError.
Proof. vm_compute. reflexivity. Qed.
