(** From the text of a schema to the octets of a message, for two parties. *)

From Coq Require Import ZArith List String Ascii Bool Arith Lia.
Import ListNotations.
From Verif Require Import PyBase Schema Encoder Decoder Spec RoundTrip Reading Totality PropsRoundTrip X691 Conform
  Generator Emit Exec Meaning Modules FineCheck Generated Grammar Texts Tokens ReadTexts Written WrittenTests.

Open Scope string_scope.
Open Scope list_scope.
Open Scope nat_scope.

(** * The order of assignments does not matter *)

Section Order.
Variables S S' : schema.
Hypothesis within : forall a, In a S -> In a S'.

Lemma bound_in : forall b z, bound_is S b z -> bound_is S' b z.
Proof. intros b z [z'|n r z' I']; econstructor; eauto. Qed.
Lemma lower_in : forall b lo, lower_is S b lo -> lower_is S' b lo.
Proof. intros [| |z|n] lo; cbn [lower_is]; auto; intros (x & B' & E); exists x; eauto using bound_in. Qed.
Lemma size_lower_in : forall b lo, size_lower_is S b lo -> size_lower_is S' b lo.
Proof. intros [| |z|n] lo; cbn [size_lower_is]; auto; intros (x & B' & E); exists x; eauto using bound_in. Qed.
Lemma upper_in : forall b lo, upper_is S b lo -> upper_is S' b lo.
Proof. intros [| |z|n] lo; cbn [upper_is]; auto; intros (x & B' & E); exists x; eauto using bound_in. Qed.
Lemma range_in : forall r c, range_is S r c -> range_is S' r c.
Proof. intros [r|] c; cbn [range_is]; auto. intros (lo & hi & A & B' & E). exists lo, hi. eauto using lower_in, upper_in. Qed.
Lemma size_in : forall r c, size_is S r c -> size_is S' r c.
Proof. intros [r|] c; cbn [size_is]; auto. intros (lo & hi & A & B' & E). exists lo, hi. eauto using size_lower_in, upper_in. Qed.
Lemma count_in : forall r c, count_is S r c -> count_is S' r c.
Proof. intros [r|] c; cbn [count_is]; auto. intros (lo & hi & A & B' & E). exists lo, hi. eauto using size_lower_in, upper_in. Qed.
Lemma lit_in : forall t l v, lit_is S t l v -> lit_is S' t l v.
Proof. intros t l v X. induction X; econstructor; eauto. Qed.
Lemma status_in : forall t T s p, status_is S t T s p -> status_is S' t T s p.
Proof. intros t T [| |l] p; cbn [status_is]; auto. intros (v & A & X). exists v. split; [now apply lit_in|exact X]. Qed.

Fixpoint means_in t T (X : means S t T) {struct X} : means S' t T
with part_in p c (X : part_means S p c) {struct X} : part_means S' p c.
Proof.
  - assert (forall l l', Forall2 (part_means S) l l' -> Forall2 (part_means S') l l') as PS.
    { intros l l' F. induction F; constructor; auto. }
    destruct X as [r c R'| |r c R'|r c R'|root|root adds|ext root adds groups root' adds' groups' R' A' G'|ext root adds groups root' adds' groups' R' A' G'|r e c T C' M|n t T I' M|n t r c I' M R'].
    + constructor. now apply range_in.
    + constructor.
    + constructor. now apply size_in.
    + constructor. now apply size_in.
    + constructor.
    + constructor.
    + constructor; auto. clear - G' PS. induction G'; constructor; auto.
    + constructor; auto. clear - G' PS. induction G'; constructor; auto.
    + constructor; [now apply count_in|now apply means_in].
    + econstructor; [apply within; exact I'|now apply means_in].
    + econstructor; [apply within; exact I'|now apply means_in|now apply range_in].
  - destruct X as [n s t p T M ST]. constructor; [now apply means_in|now apply status_in].
Qed.
End Order.

(** * Sender and receiver *)

(** [a_module s g]: reading the text [s] gives objects from which the library writes a
    module, and running it gives the names [g]. *)
Definition a_module (s : string) (g : space) : Prop :=
  exists r n0 objects out, (forall n, n0 <= n -> read_schema n s = Match r objects) /\ emit objects = Ok out /\ Exec.run out = Ok g.

(** Both have a text of the same assignments, each in an order, layout and with
    comments of their own.  For every type name the two have classes with the
    meaning of the type; what one encodes is its encoding according to X.691, and
    the other decodes it to an object that says the same.  Missing are the schemas
    outside C49 and the objects outside C45 and C08. *)
Theorem C52_agreement_partial : forall S S' s s' t t' r r',
  strip s t -> plain_lines s -> text_of S t r -> fine_schema S -> sortable S ->
  strip s' t' -> plain_lines s' -> text_of S' t' r' -> fine_schema S' -> sortable S' ->
  (forall a, In a S <-> In a S') ->
  exists g g', a_module s g /\ a_module s' g' /\
  forall n ty, In (TypeA n ty) S -> exists T, means S ty T /\ binds g (underscore n) T /\ binds g' (underscore n) T /\
  forall v, supported T v -> Totality.ready T v -> top_ok T v -> conf T v ->
    exists bs v', encode T v = Ok bs /\ PER T (reading T v) bs /\ decode bs T = Ok v' /\ reading T v' = reading T v.
Proof.
  intros S S' s s' t t' r r' ST PL TX FS SS ST' PL' TX' FS' SS' SAME.
  destruct (C50_text_to_module_partial S s t r ST PL TX FS SS) as (q & n0 & objs & out & g & RD & E & X & TY & _).
  destruct (C50_text_to_module_partial S' s' t' r' ST' PL' TX' FS' SS') as (q' & n0' & objs' & out' & g' & RD' & E' & X' & TY' & _).
  exists g, g'. split; [now exists q, n0, objs, out|]. split; [now exists q', n0', objs', out'|].
  intros n ty IN. destruct (TY n ty IN) as (T & M & BN). exists T. split; [exact M|]. split; [exact BN|]. split.
  - destruct (TY' n ty (proj1 (SAME _) IN)) as (T' & M' & BN').
    assert (T = T') as -> by exact (C49_one_meaning S' FS' SS' n ty T T' (proj1 (SAME _) IN) (means_in S S' (fun a => proj1 (SAME a)) _ _ M) M').
    exact BN'.
  - intros v SU RE TO CO. destruct (encode_total T v SU RE) as (bs & EN). destruct (round_trip T v bs SU TO EN) as (v' & D' & RV).
    exists bs, v'. split; [exact EN|]. split; [now apply C45_conforms_partial|]. now split.
Qed.

(** ** A case *)

Definition sent : schema := [
  TypeA "List" (ASeqOf None (ARef "Item" None));
  TypeA "Item" (AChoice false [Part "x" Mandatory (ARef "Body" None); Part "y" Mandatory (ABitstr (Some (Range (BNum 3) (BNum 3) false)))] [] []);
  TypeA "Body" (ASequence true
     [Part "a" Optional (AInteger (Some (Range (BNum 0) (BRef "most") false))); Part "b" Mandatory ABoolean;
      Part "c" (Default (LNum 5)) (AInteger (Some (Range (BNum 0) (BRef "most") false)))]
     [Part "d" Optional (AInteger None)] [[Part "e" Mandatory ABoolean; Part "f" Optional ABoolean]]);
  ValueA "most" (AInteger None) (LNum 7)].
Definition received : schema := rev sent.
Definition sender_text : string :=
"Sender DEFINITIONS AUTOMATIC TAGS ::= BEGIN
  List ::= SEQUENCE OF Item
  Item ::= CHOICE { x Body, y BIT STRING (SIZE(3)) }
  Body ::= SEQUENCE {
    a INTEGER (0..most) OPTIONAL, b BOOLEAN, -- two of them
    c INTEGER (0..most) DEFAULT 5, ...,
    d INTEGER OPTIONAL, [[ e BOOLEAN, f BOOLEAN OPTIONAL ]] }
  most INTEGER ::= 7
END".
Definition receiver_text : string :=
"Receiver DEFINITIONS::=BEGIN most INTEGER::=7 -- the most
Body::=SEQUENCE{a INTEGER(0..most)OPTIONAL,b BOOLEAN,c INTEGER(0..most)DEFAULT 5,...,d INTEGER OPTIONAL,[[e BOOLEAN,f BOOLEAN OPTIONAL]]}
Item::=CHOICE{x Body,y BIT STRING(SIZE(3))}List::=SEQUENCE OF Item
END".
Definition sender_plain := Eval vm_compute in match stripped 2000 sender_text with Some t => t | None => "" end.
Definition receiver_plain := Eval vm_compute in match stripped 2000 receiver_text with Some t => t | None => "" end.
Example C52_case : exists g g', a_module sender_text g /\ a_module receiver_text g' /\
  binds g "List" C08_ty /\ binds g' "List" C08_ty /\
  encode C08_ty C08_val = Ok [2; 214; 112; 40; 1; 192]%Z /\ PER C08_ty (reading C08_ty C08_val) [2; 214; 112; 40; 1; 192]%Z /\
  exists v', decode [2; 214; 112; 40; 1; 192]%Z C08_ty = Ok v' /\ reading C08_ty v' = reading C08_ty C08_val.
Proof.
  destruct (is_text_ok true "Sender" sent sender_plain) as (r & TX); [vm_compute; reflexivity|].
  destruct (is_text_ok false "Receiver" received receiver_plain) as (r' & TX'); [vm_compute; reflexivity|].
  destruct (checked_fine 20 sent) as [FS SS]; [vm_compute; reflexivity|].
  destruct (checked_fine 20 received) as [FS' SS']; [vm_compute; reflexivity|].
  destruct (C52_agreement_partial sent received sender_text receiver_text sender_plain receiver_plain r r') as (g & g' & MG & MG' & TY);
    [apply (stripped_ok 2000); vm_compute; reflexivity|vm_compute; reflexivity|exact TX|exact FS|exact SS
    |apply (stripped_ok 2000); vm_compute; reflexivity|vm_compute; reflexivity|exact TX'|exact FS'|exact SS'|intros a; apply in_rev|].
  exists g, g'. split; [exact MG|]. split; [exact MG'|]. destruct (TY "List" _ (or_introl eq_refl)) as (T & M & BN & BN' & MSG).
  assert (T = C08_ty) as ->.
  { apply (C49_one_meaning sent FS SS "List" (ASeqOf None (ARef "Item" None)) T C08_ty (or_introl eq_refl) M). apply (meaning_is sent 20). vm_compute. reflexivity. }
  split; [exact BN|]. split; [exact BN'|]. destruct C08_case as (SU & RE & TO & EN & _).
  destruct (MSG C08_val SU RE TO C08_conf) as (bs & v' & EN' & PE & DE & RV). rewrite EN in EN'. injection EN' as <-.
  split; [exact EN|]. split; [exact PE|]. exists v'. split; [exact DE|exact RV].
Qed.
