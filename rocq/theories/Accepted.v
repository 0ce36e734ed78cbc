(** Concrete texts for Transcript.v, and texts the parser takes though X.680 does
    not. *)

From Coq Require Import ZArith List String Ascii Bool Arith Lia.
Import ListNotations.
From Verif Require Import PyBase Schema Generator Emit Exec Meaning Modules Generated Grammar Fast Texts Tokens ReadTexts Written WrittenTests Settled GrammarFaults Transcript.

Open Scope string_scope.
Open Scope list_scope.
Open Scope nat_scope.

(** * C53: a text and its words *)

Definition mixed : string := module "my-max INTEGER ::= 5 -- one
  A-B ::= SEQUENCE { x INTEGER (1..my-max) OPTIONAL, y OCTET STRING DEFAULT '00'H, ..., z C }
  C ::= ENUMERATED { red(1), green }	D ::= CHOICE { p BOOLEAN }".
Definition mixed_words : list string :=
  ["my_max"; "INTEGER"; "A-B"; "SEQUENCE"; "x"; "INTEGER"; "OPTIONAL"; "y"; "OCTET"; "STRING"; "DEFAULT"; "z"; "C";
   "C"; "ENUMERATED"; "red"; "green"; "D"; "CHOICE"; "p"; "BOOLEAN"].
Theorem C53_example : exists r ps, reads_as mixed (Match r ps) /\ flat_map names ps = mixed_words /\
  exists m, type_word m = true /\ found (m :: "DEFINITIONS" :: "BEGIN" :: mixed_words ++ ["END"]) (of_codes (remove_comments (to_codes mixed))).
Proof.
  assert (exists r ps, fast_schema 80 mixed = Match r ps /\ flat_map names ps = mixed_words) as (r & ps & E & N) by (eexists; eexists; split; vm_compute; reflexivity).
  exists r, ps. assert (reads_as mixed (Match r ps)) as RA by (apply (reads_by 80); [exact E|discriminate]). split; [exact RA|]. split; [exact N|].
  destruct RA as [n RA]. destruct (C53_found n mixed r ps (RA n (Nat.le_refl _))) as (m & TW & F). exists m. split; [exact TW|]. unfold frame in F. now rewrite N in F.
Qed.

(** A name that is nowhere in the text is in no answer. *)
Lemma found_in : forall ws s, found ws s -> forall w, In w ws -> exists a w' b, s = (a ++ w' ++ b)%string /\ (w = w' \/ w = underscore w').
Proof.
  intros ws s [r SP] w IN. induction SP as [a r|a x x' b ws r E SO W SP IH]; [contradiction|]. destruct IN as [->|IN]; [exists a, x', b; auto|].
  destruct (IH IN) as (a' & w' & b' & -> & EW). exists (a ++ x' ++ a')%string, w', b'. split; [now rewrite !app_assoc_s|exact EW].
Qed.
Theorem C53_no_other_name : forall n s r ps p w, read_schema n s = Match r ps -> In p ps -> In w (names p) ->
  exists a w' b, of_codes (remove_comments (to_codes s)) = (a ++ w' ++ b)%string /\ (w = w' \/ w = underscore w').
Proof.
  intros n s r ps p w E IP IW. destruct (C53_found _ _ _ _ E) as (m & _ & F). eapply found_in; [exact F|]. unfold frame. right. right. right.
  apply in_or_app. left. apply in_flat_map. eauto.
Qed.

(** * C54: only ASN.1 is accepted -- it is not *)

(** What is left of it: whatever is accepted has the words of a module around it. *)
Theorem C54_frame_partial : forall n s r ps, read_schema n s = Match r ps ->
  exists m, type_word m = true /\ found [m; "DEFINITIONS"; "BEGIN"; "END"] (of_codes (remove_comments (to_codes s))).
Proof.
  intros n s r ps E. destruct (C53_found _ _ _ _ E) as (m & TW & [r' F]). exists m. split; [exact TW|]. exists r'. eapply spans_le; [exact F|]. unfold frame.
  do 3 apply le_keep. apply le_right, le_refl.
Qed.

Ltac reads := apply (reads_by 60); [vm_compute; reflexivity|discriminate].

(** What stands behind END is not looked at. *)
Theorem C54_tail_refuted : exists r, reads_as (module "A ::= INTEGER END nonsense ((") (Match r (map parsed_as [TypeA "A" (AInteger None)])).
Proof. eexists. reads. Qed.
(** Two values without anything between them are a range, and so is any expression
    of the first and the last of its values. *)
Theorem C54_range_refuted :
  (exists r, reads_as (module "A ::= INTEGER (1 2)") (Match r (map parsed_as [TypeA "A" (AInteger (Some (Range (BNum 1) (BNum 2) false)))]))) /\
  (exists r, reads_as (module "A ::= INTEGER (1 | 2 ^ 3 4)") (Match r (map parsed_as [TypeA "A" (AInteger (Some (Range (BNum 1) (BNum 4) false)))]))).
Proof. split; eexists; reads. Qed.
(** A SIZE of an INTEGER is a range of its values; a BOOLEAN may have a range. *)
Theorem C54_size_refuted : exists r, reads_as (module "A ::= INTEGER (SIZE (3))") (Match r (map parsed_as [TypeA "A" (AInteger (Some (Range (BNum 3) (BNum 3) false)))])).
Proof. eexists. reads. Qed.
Theorem C54_boolean_range_refuted : exists r objs out, reads_as (module "A ::= BOOLEAN (1..5)") (Match r objs) /\ emit objs = Ok out.
Proof. eexists. eexists. eexists. split; [reads|vm_compute; reflexivity]. Qed.
(** Reserved words and words that end with a hyphen are names of types. *)
Theorem C54_names_refuted :
  (exists r, reads_as (module "BOOLEAN ::= INTEGER") (Match r (map parsed_as [TypeA "BOOLEAN" (AInteger None)]))) /\
  (exists r, reads_as (module "A- ::= INTEGER") (Match r (map parsed_as [TypeA "A-" (AInteger None)]))).
Proof. split; eexists; reads. Qed.
(** Two components with one name, a range that ends before it begins, and a constant
    with a value of another type go through to a generated module. *)
Theorem C54_twins_refuted : exists r objs out, reads_as (module "A ::= SEQUENCE { x INTEGER, x BOOLEAN }") (Match r objs) /\ emit objs = Ok out.
Proof. eexists. eexists. eexists. split; [reads|vm_compute; reflexivity]. Qed.
Theorem C54_empty_range_refuted : exists r objs out, reads_as (module "A ::= INTEGER (5..1)") (Match r objs) /\ emit objs = Ok out.
Proof. eexists. eexists. eexists. split; [reads|vm_compute; reflexivity]. Qed.
Theorem C54_constant_refuted : exists r objs out, reads_as (module "x BOOLEAN ::= 5") (Match r objs) /\ emit objs = Ok out.
Proof. eexists. eexists. eexists. split; [reads|vm_compute; reflexivity]. Qed.
