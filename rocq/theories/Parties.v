(** From the text of a schema to what its parties understand of each other. *)

From Coq Require Import ZArith List String Ascii Bool Arith Lia.
Import ListNotations.
From Verif Require Import PyBase Schema Encoder Decoder Spec RoundTrip Reading Totality PropsRoundTrip X691 Safe Standard Peers Names
  Generator Emit Exec Meaning Modules FineCheck Generated GeneratedFaults Grammar Texts Tokens ReadTexts Written WrittenTests Agreement Spellings.

Open Scope string_scope.
Open Scope list_scope.
Open Scope nat_scope.

(** What is promised for a class: each value can be sent, what is sent is what X.691
    says, and whatever X.691 has for a value is read as that value. *)
Definition understood (T : ty) : Prop :=
  (forall v, message T v -> valid T (reading T v) /\ standardly T v) /\
  forall a, valid T a -> exists bs v, (forall bs', PER T a bs' <-> bs' = bs) /\ decode bs T = Ok v /\ reading T v = a.

Lemma trusted_understood T : trusted T = true -> understood T.
Proof.
  intros H. pose proof H as H0. unfold trusted in H0. repeat (apply andb_true_iff in H0 as (H0 & ?)). split.
  - intros v M. split; [now apply C70_messages_valid|now apply C69_limited].
  - intros a V. destruct (C70_every_value T a H V) as (v & bs & _ & _ & P).
    destruct (C70_any_sender T a bs H V (proj2 (P bs) eq_refl)) as (w & D' & R'). eauto.
Qed.

(** The class made from the text of a schema.  Missing: the texts outside C50. *)
Theorem C70_texts_partial : forall S s t r, strip s t -> plain_lines s -> text_of S t r -> fine_schema S -> sortable S ->
  exists g, a_module s g /\ forall n u, In (TypeA n u) S -> exists T, means S u T /\ binds g (underscore n) T /\
  (trusted T = true -> understood T).
Proof.
  intros S s t r ST PL TX FS SS.
  destruct (C50_text_to_module_partial S s t r ST PL TX FS SS) as (q & n0 & objs & out & g & RD & E & X & TY & _).
  exists g. split; [now exists q, n0, objs, out|]. intros n u IN. destruct (TY n u IN) as (T & M & BN).
  exists T. split; [exact M|]. split; [exact BN|]. apply trusted_understood.
Qed.

(** Two parties with spellings of their own: the checks on either class tell for
    both.  Missing: the texts outside C50. *)
Theorem C70_two_texts_partial : forall S S' s s' t t' r r',
  strip s t -> plain_lines s -> text_of S t r -> fine_schema S -> sortable S ->
  strip s' t' -> plain_lines s' -> text_of S' t' r' -> fine_schema S' -> sortable S' ->
  exists g g', a_module s g /\ a_module s' g' /\
  forall n u n' u', In (TypeA n u) S -> In (TypeA n' u') S' -> spells S S' u u' ->
  exists T T', binds g (underscore n) T /\ binds g' (underscore n') T' /\
  (trusted T = true -> forall v, message T v ->
     exists bs v', encode T v = Ok bs /\ PER T (reading T v) bs /\ decode bs T' = Ok v' /\ reading T v' = reading T v).
Proof.
  intros S S' s s' t t' r r' ST PL TX FS SS ST' PL' TX' FS' SS'.
  destruct (C66_texts_partial S S' s s' t t' r r' ST PL TX FS SS ST' PL' TX' FS' SS') as (g & g' & MG & MG' & TY).
  exists g, g'. split; [exact MG|]. split; [exact MG'|]. intros n u n' u' IN IN' SP.
  destruct (TY n u n' u' IN IN' SP) as (T & T' & BN & BN' & (_ & DE)). exists T, T'. split; [exact BN|]. split; [exact BN'|].
  intros TR v M. destruct (proj2 (proj1 (trusted_understood T TR) v M)) as (bs & v' & E & P & D' & R').
  exists bs, v'. split; [exact E|]. split; [now apply P|]. rewrite <- DE. now split.
Qed.

(** * A case *)

Definition packets : schema := [
  TypeA "Packet" (ASequence true
    [Part "id" Mandatory (AInteger (Some (Range (BNum 0) (BNum 255) false)));
     Part "key" Mandatory (AOctets (Some (Range (BNum 4) (BNum 4) false)));
     Part "flags" Optional (ABitstr (Some (Range (BNum 1) (BNum 8) false)));
     Part "votes" Mandatory (ASeqOf (Some (Range (BNum 0) (BNum 4) false)) (ARef "Vote" None))]
    [Part "port" Optional (AInteger (Some (Range (BNum 0) (BNum 65535) false)))]
    [[Part "who" Mandatory (ARef "Who" None); Part "where" Optional (AInteger (Some (Range (BNum 0) (BNum 7) false)))]]);
  TypeA "Who" (AChoice false [Part "me" Mandatory ABoolean; Part "you" Mandatory (AInteger (Some (Range (BNum 1) (BNum 4) false)))] [] []);
  TypeA "Vote" ABoolean].
Definition packets_text : string :=
"Packets DEFINITIONS AUTOMATIC TAGS ::= BEGIN
  Packet ::= SEQUENCE {
    id INTEGER (0..255), -- of the sender
    key OCTET STRING (SIZE(4)),
    flags BIT STRING (SIZE(1..8)) OPTIONAL,
    votes SEQUENCE (SIZE(0..4)) OF Vote,
    ...,
    port INTEGER (0..65535) OPTIONAL,
    [[ who Who, where INTEGER (0..7) OPTIONAL ]] }
  Who ::= CHOICE { me BOOLEAN, you INTEGER (1..4) }
  Vote ::= BOOLEAN
END".
Definition packets_plain := Eval vm_compute in match stripped 2000 packets_text with Some t => t | None => "" end.

Example C70_texts_case : exists g T, a_module packets_text g /\ binds g "Packet" T /\ trusted T = true /\ understood T.
Proof.
  destruct (is_text_ok true "Packets" packets packets_plain) as (r & TX); [vm_compute; reflexivity|].
  destruct (checked_fine 20 packets) as [FS SS]; [vm_compute; reflexivity|].
  destruct (C70_texts_partial packets packets_text packets_plain r) as (g & MG & TY);
    [apply (stripped_ok 2000); vm_compute; reflexivity|vm_compute; reflexivity|exact TX|exact FS|exact SS|].
  destruct (TY "Packet" _ (or_introl eq_refl)) as (T & M & BN & U). exists g, T. split; [exact MG|]. split; [exact BN|].
  assert (TR : trusted T = true); [|auto].
  assert (IM : exists T', imported packets "Packet" = Ok T' /\ trusted T' = true) by (eexists; split; [vm_compute; reflexivity|vm_compute; reflexivity]).
  destruct IM as (T' & IM & TR). destruct (C49_imported packets FS SS "Packet" _ (or_introl eq_refl)) as (T2 & M2 & IM2).
  assert (T2 = T') as -> by congruence.
  now rewrite (C49_one_meaning packets FS SS "Packet" _ T T' (or_introl eq_refl) M M2).
Qed.
