(** What the grammar reads otherwise than X.680 says. *)

From Coq Require Import ZArith List String Ascii Bool Arith Lia.
Import ListNotations.
From Verif Require Import PyBase Schema Generator Emit Exec Meaning Modules FineCheck Generated Grammar Fast Texts Tokens ReadTexts Written WrittenTests Settled.

Open Scope string_scope.
Open Scope list_scope.
Open Scope nat_scope.

(** The answer for a text. *)
Definition reads_as (s : string) (o : outcome (list ptype)) : Prop := exists n0, forall n, n0 <= n -> read_schema n s = o.
Lemma reads_by : forall n s o, fast_schema n s = o -> o <> Raise LoopFuel -> reads_as s o.
Proof.
  intros n s o E N. exists n. intros m L. rewrite (schema_settled n m s L); rewrite read_fast; [exact E|congruence].
Qed.
Definition objects (o : outcome (list ptype)) : list ptype := match o with Match _ l => l | _ => [] end.
Definition module (text : string) : string := "M DEFINITIONS ::= BEGIN " ++ text ++ " END".

(** * C50: texts that are not read as what they are *)

(** "OCTET STRING" is two items for X.680, with blanks between them as one likes. *)
Definition words (t : token) : list token :=
  match t with
  | K "OCTET STRING" => [K "OCTET"; K "STRING"]
  | K "BIT STRING" => [K "BIT"; K "STRING"]
  | K "SEQUENCE OF" => [K "SEQUENCE"; K "OF"]
  | K "AUTOMATIC TAGS" => [K "AUTOMATIC"; K "TAGS"]
  | t => [t]
  end.
Theorem C50_blanks_refuted : exists S l s, spells S l /\ laid (flat_map words l) s "" /\ reads_as s NoMatch.
Proof.
  exists [TypeA "A" (AOctets None)], (module_toks false "M" [TypeA "A" (AOctets None)]), (module "A ::= OCTET  STRING"). split; [|split].
  - apply written_module; [reflexivity|]. repeat constructor. discriminate.
  - apply lay_ok; [|reflexivity]. apply Forall_forall, forallb_forall. reflexivity.
  - apply (reads_by 60); [vm_compute; reflexivity|discriminate].
Qed.

(** A constraint on a reference. *)
Definition one_to_five : range := Range (BNum 1) (BNum 5) false.
Definition narrowed : schema :=
  [TypeA "A" (AInteger None); TypeA "B" (ASequence false [Part "x" Mandatory (ARef "A" (Some one_to_five))] [] [])].
Theorem C50_constrained_reference_refuted :
  means narrowed (ARef "A" (Some one_to_five)) (TInt (CRange false (Some 1%Z) (Some 5%Z))) /\
  reads_as (module "A ::= INTEGER B ::= SEQUENCE { x A (1..5) }") NoMatch.
Proof.
  split; [|apply (reads_by 60); [vm_compute; reflexivity|discriminate]].
  apply (mean_narrow narrowed "A" (AInteger None)); [now left|now apply mean_int|]. exists (Some 1%Z), (Some 5%Z). repeat split; eexists; repeat split; constructor.
Qed.

(** A second constraint. *)
Theorem C50_serial_constraint_refuted : reads_as (module "A ::= INTEGER (1..9) (2..3)") NoMatch.
Proof. apply (reads_by 60); [vm_compute; reflexivity|discriminate]. Qed.

(** A comment that ends with hyphens takes the rest of its line with it: an
    assignment is lost without a word. *)
Theorem C50_closed_comment_refuted : exists r,
  reads_as (module "A ::= INTEGER -- one -- B ::= BOOLEAN
   C ::= INTEGER") (Match r (map parsed_as [TypeA "A" (AInteger None); TypeA "C" (AInteger None)])).
Proof. eexists. apply (reads_by 60); [vm_compute; reflexivity|discriminate]. Qed.

(** A type of another module is read as a type with the name of the module. *)
Theorem C50_external_refuted : exists r objs,
  reads_as (module "A ::= SEQUENCE { x Other.Foo }") (Match r objs) /\
  reads_as (module "A ::= SEQUENCE { x Other.Bar }") (Match r objs) /\
  objs = map parsed_as [TypeA "A" (ASequence false [Part "x" Mandatory (ARef "Other" None)] [] [])].
Proof. eexists. eexists. split; [|split; [|reflexivity]]; (apply (reads_by 60); [vm_compute; reflexivity|discriminate]). Qed.

(** A component with DEFAULT {} is read as one without: it must be sent. *)
Theorem C50_empty_default_refuted : exists r objs,
  reads_as (module "A ::= SEQUENCE { x SEQUENCE OF INTEGER DEFAULT {} }") (Match r objs) /\
  objs = map parsed_as [TypeA "A" (ASequence false [Part "x" Mandatory (ASeqOf None (AInteger None))] [] [])].
Proof. eexists. eexists. split; [|reflexivity]; (apply (reads_by 60); [vm_compute; reflexivity|discriminate]). Qed.

(** A tagged type and NULL are in the grammar, but their actions raise. *)
Theorem C50_tagged_refuted : reads_as (module "A ::= SEQUENCE { x [1] INTEGER }") (Raise PyAttributeError).
Proof. apply (reads_by 60); [vm_compute; reflexivity|discriminate]. Qed.
Theorem C50_null_refuted : reads_as (module "A ::= SEQUENCE { x NULL }") (Raise PyAttributeError).
Proof. apply (reads_by 60); [vm_compute; reflexivity|discriminate]. Qed.
Theorem C50_set_of_refuted : reads_as (module "A ::= SET (SIZE(1..2)) OF INTEGER") (Raise RaiseNotImplemented).
Proof. apply (reads_by 60); [vm_compute; reflexivity|discriminate]. Qed.
Theorem C50_parentheses_refuted : reads_as (module "A ::= INTEGER ((1..5))") (Raise PyTypeError).
Proof. apply (reads_by 60); [vm_compute; reflexivity|discriminate]. Qed.

(** Imports, other tagging, object identifiers. *)
Theorem C50_imports_refuted : reads_as (module "IMPORTS A FROM B; C ::= INTEGER") NoMatch.
Proof. apply (reads_by 60); [vm_compute; reflexivity|discriminate]. Qed.

(** The names of an INTEGER's values are dropped; a DEFAULT that uses one breaks the
    generated module. *)
Theorem C50_named_number_refuted : exists r objs out e,
  reads_as (module "A ::= SEQUENCE { x INTEGER { one(1) } DEFAULT one }") (Match r objs) /\ emit objs = Ok out /\ Exec.run out = Err e.
Proof.
  eexists. eexists. eexists. eexists. split; [apply (reads_by 60); [vm_compute; reflexivity|discriminate]|]. split; vm_compute; reflexivity.
Qed.

(** The number of a version is kept among the components: of a SEQUENCE nothing can be
    generated, of a CHOICE the action itself raises. *)
Theorem C50_version_refuted : 
  (exists r objs, reads_as (module "A ::= SEQUENCE { x INTEGER, ..., [[ 2: y INTEGER ]] }") (Match r objs) /\ emit objs = Err PyAttributeError) /\
  reads_as (module "A ::= CHOICE { x INTEGER, ..., [[ 2: y INTEGER ]] }") (Raise PyAttributeError).
Proof.
  split; [eexists; eexists; split|]; [apply (reads_by 60); [vm_compute; reflexivity|discriminate]|vm_compute; reflexivity|apply (reads_by 60); [vm_compute; reflexivity|discriminate]].
Qed.

(** An exception specification turns into two items of the enumeration (y is sent as
    the third addition, not the first), and keeps a SEQUENCE from being generated. *)
Theorem C50_exception_refuted :
  (exists r objs, reads_as (module "A ::= ENUMERATED { x, ... ! 5, y }") (Match r objs) /\
     emit objs = emit (map parsed_as [TypeA "A" (AEnumer ["x"] (Some ["!"; "5"; "y"]))])) /\
  (exists r objs, reads_as (module "A ::= SEQUENCE { x INTEGER, ... ! 5, y INTEGER }") (Match r objs) /\ emit objs = Err PyAttributeError).
Proof.
  split; (eexists; eexists; split; [apply (reads_by 60); [vm_compute; reflexivity|discriminate]|vm_compute; reflexivity]).
Qed.

(** A named bit whose number is a constant (the grammar asks for a type there); a
    SIZE that is not in parentheses; EXPLICIT and IMPLICIT tags. *)
Theorem C50_named_bit_refuted : reads_as (module "last INTEGER ::= 7 A ::= BIT STRING { top(last) }") NoMatch.
Proof. apply (reads_by 60); [vm_compute; reflexivity|discriminate]. Qed.
Theorem C50_bare_size_refuted : reads_as (module "A ::= SEQUENCE SIZE (1..5) OF INTEGER") NoMatch.
Proof. apply (reads_by 60); [vm_compute; reflexivity|discriminate]. Qed.
Theorem C50_tags_refuted : reads_as "M DEFINITIONS EXPLICIT TAGS ::= BEGIN A ::= INTEGER END" NoMatch /\
  reads_as "M DEFINITIONS IMPLICIT TAGS ::= BEGIN A ::= INTEGER END" NoMatch.
Proof. split; (apply (reads_by 60); [vm_compute; reflexivity|discriminate]). Qed.
