(** C66: two spellings of a schema are one protocol.  Whether a type is written in
    place or through a reference, how types, components, items and constants are
    called, and whether a number is written or named, does not reach the octets. *)

From Coq Require Import ZArith List String Ascii Bool Arith Lia.
Import ListNotations.
From Verif Require Import PyBase Schema Encoder Decoder Spec RoundTrip Reading Totality PropsRoundTrip Names
  Generator Emit Exec Meaning Modules FineCheck Generated GeneratedFaults Grammar Texts Tokens ReadTexts Written WrittenTests Agreement.

Open Scope string_scope.
Open Scope list_scope.
Open Scope nat_scope.

(** * Two spellings *)

Section Spellings.
Variables S S' : schema.

(** The same end point: MIN, MAX, or the second is whatever number the first is. *)
Definition same_end (b b' : bound) : Prop :=
  match b, b' with
  | BMin, BMin | BMax, BMax => True
  | BMin, _ | BMax, _ | _, BMin | _, BMax => False
  | _, _ => forall z, bound_is S b z -> bound_is S' b' z
  end.
Definition same_range (r r' : option range) : Prop :=
  match r, r' with
  | None, None => True
  | Some r, Some r' => same_end (lower r) (lower r') /\ same_end (upper r) (upper r') /\ extensible r = extensible r'
  | _, _ => False
  end.
Definition same_number {A} (l l' : option (list A)) : Prop :=
  match l, l' with
  | None, None => True
  | Some l, Some l' => List.length l = List.length l'
  | _, _ => False
  end.
(** A default stands for the same value. *)
Definition same_status (t t' : asn) (s s' : status) : Prop :=
  match s, s' with
  | Mandatory, Mandatory | Optional, Optional => True
  | Default l, Default l' => forall v, lit_is S t l v -> lit_is S' t' l' v
  | _, _ => False
  end.

(** Equal but for names, and with references written out where need be. *)
Inductive spells : asn -> asn -> Prop :=
| spell_integer r r' : same_range r r' -> spells (AInteger r) (AInteger r')
| spell_boolean : spells ABoolean ABoolean
| spell_octets r r' : same_range r r' -> spells (AOctets r) (AOctets r')
| spell_bitstr r r' : same_range r r' -> spells (ABitstr r) (ABitstr r')
| spell_enumer root root' adds adds' : List.length root = List.length root' -> same_number adds adds' ->
    spells (AEnumer root adds) (AEnumer root' adds')
| spell_sequence ext root adds groups root' adds' groups' :
    Forall2 spells_part root root' -> Forall2 spells_part adds adds' -> Forall2 (Forall2 spells_part) groups groups' ->
    spells (ASequence ext root adds groups) (ASequence ext root' adds' groups')
| spell_choice ext root adds groups root' adds' groups' :
    Forall2 spells_part root root' -> Forall2 spells_part adds adds' -> Forall2 (Forall2 spells_part) groups groups' ->
    spells (AChoice ext root adds groups) (AChoice ext root' adds' groups')
| spell_seqof r r' e e' : same_range r r' -> spells e e' -> spells (ASeqOf r e) (ASeqOf r' e')
| spell_left n t u : In (TypeA n t) S -> spells t u -> spells (ARef n None) u
| spell_right n t u : In (TypeA n u) S' -> spells t u -> spells t (ARef n None)
with spells_part : part asn -> part asn -> Prop :=
| spell_part n n' s s' t t' : spells t t' -> same_status t t' s s' -> spells_part (Part n s t) (Part n' s' t').

(** * The meaning is the same *)

Hypothesis FS : fine_schema S.
Hypothesis FS' : fine_schema S'.

Lemma end_lower b b' lo : same_end b b' -> lower_is S b lo -> lower_is S' b' lo.
Proof. destruct b, b'; cbn [same_end lower_is]; try tauto; intros A (y & B & ->); exists y; auto. Qed.
Lemma end_size_lower b b' lo : same_end b b' -> size_lower_is S b lo -> size_lower_is S' b' lo.
Proof. destruct b, b'; cbn [same_end size_lower_is]; try tauto; intros A (y & B & ->); exists y; auto. Qed.
Lemma end_upper b b' lo : same_end b b' -> upper_is S b lo -> upper_is S' b' lo.
Proof. destruct b, b'; cbn [same_end upper_is]; try tauto; intros A (y & B & ->); exists y; auto. Qed.

Lemma spell_range r r' c : same_range r r' -> range_is S r c -> range_is S' r' c.
Proof.
  destruct r as [r|], r' as [r'|]; cbn [same_range range_is]; try tauto.
  intros (A & B & E) (lo & hi & L & U & ->). exists lo, hi. rewrite E. eauto using end_lower, end_upper.
Qed.
Lemma spell_size r r' c : same_range r r' -> size_is S r c -> size_is S' r' c.
Proof.
  destruct r as [r|], r' as [r'|]; cbn [same_range size_is]; try tauto.
  intros (A & B & E) (lo & hi & L & U & ->). exists lo, hi. rewrite E. eauto using end_size_lower, end_upper.
Qed.
Lemma spell_count r r' c : same_range r r' -> count_is S r c -> count_is S' r' c.
Proof.
  destruct r as [r|], r' as [r'|]; cbn [same_range count_is]; try tauto.
  intros (A & B & E) (lo & hi & L & U & ->). exists lo, hi. rewrite E. eauto using end_size_lower, end_upper.
Qed.

Lemma twin_member T T' v : twin T T' -> member T v -> member T' v.
Proof. intros X M. inversion X; subst; [exact M|destruct v; contradiction..]. Qed.

Lemma spell_status t t' T T' s s' p : same_status t t' s s' -> twin T T' -> status_is S t T s p -> status_is S' t' T' s' p.
Proof.
  destruct s, s'; cbn [same_status status_is]; try tauto. intros A TW (v & L & M & ->). exists v. eauto using twin_member.
Qed.

Lemma names_of X l l' : Forall2 (part_means X) l l' -> map cname l' = map p_name l.
Proof. intros F. induction F as [|p c l l' P F IH]; [reflexivity|]. destruct P. cbn [map]. now rewrite IH. Qed.

Lemma names_all X root adds groups root' adds' groups' :
  Forall2 (part_means X) root root' -> Forall2 (part_means X) adds adds' -> Forall2 (Forall2 (part_means X)) groups groups' ->
  map cname (all_comps root' adds' groups') = map p_name (all_parts root adds groups).
Proof.
  intros R A G. unfold all_comps, all_parts. rewrite !map_app, (names_of _ _ _ R), (names_of _ _ _ A). do 2 f_equal.
  induction G as [|g g' gs gs' P G IH]; [reflexivity|]. cbn [List.concat]. now rewrite !map_app, IH, (names_of _ _ _ P).
Qed.

Lemma one_type (X : schema) n t t' : NoDup (map name_of X) -> In (TypeA n t) X -> In (TypeA n t') X -> t = t'.
Proof.
  induction X as [|a X IH]; [contradiction|]. cbn [map]. intros N I I'. inversion N as [|? ? N1 N2]; subst.
  destruct I as [->|I], I' as [E|I'].
  - congruence.
  - destruct N1. apply in_map_iff. exists (TypeA n t'). auto.
  - subst a. destruct N1. apply in_map_iff. exists (TypeA n t). auto.
  - auto.
Qed.

Lemma fine_split {X root adds groups} : Forall (fine_part X) (all_parts root adds groups) ->
  Forall (fine_part X) root /\ Forall (fine_part X) adds /\ Forall (Forall (fine_part X)) groups.
Proof.
  unfold all_parts. intros F. apply Forall_app in F as (R & F). apply Forall_app in F as (A & F). split; [exact R|]. split; [exact A|].
  clear - F. induction groups as [|g gs IH]; [constructor|]. cbn [List.concat] in F. apply Forall_app in F as (G & F). constructor; auto.
Qed.

Fixpoint spells_means t t' (X : spells t t') {struct X} :
  forall T, fine S t -> fine S' t' -> means S t T -> exists T', means S' t' T' /\ twin T T'
with spells_parts p p' (X : spells_part p p') {struct X} :
  forall c, fine_part S p -> fine_part S' p' -> part_means S p c -> exists c', part_means S' p' c' /\ twins c c'.
Proof.
  - assert (PS : forall l l', Forall2 spells_part l l' -> forall cs, Forall (fine_part S) l -> Forall (fine_part S') l' ->
              Forall2 (part_means S) l cs -> exists cs', Forall2 (part_means S') l' cs' /\ Forall2 twins cs cs').
    { intros l l' F. induction F as [|p p' l l' P F IH]; intros cs FL FL' M.
      - inversion M; subst. exists []. split; constructor.
      - inversion M as [|? c ? cs0 M1 M2]; subst. inversion FL as [|? ? FL1 FL2]; subst. inversion FL' as [|? ? FL1' FL2']; subst.
        destruct (spells_parts p p' P c FL1 FL1' M1) as (c' & M1' & T1). destruct (IH cs0 FL2 FL2' M2) as (cs' & M2' & T2).
        exists (c' :: cs'). split; constructor; auto. }
    assert (GS : forall l l', Forall2 (Forall2 spells_part) l l' -> forall cs, Forall (Forall (fine_part S)) l -> Forall (Forall (fine_part S')) l' ->
              Forall2 (Forall2 (part_means S)) l cs -> exists cs', Forall2 (Forall2 (part_means S')) l' cs' /\ Forall2 (Forall2 twins) cs cs').
    { intros l l' F. induction F as [|p p' l l' P F IH]; intros cs FL FL' M.
      - inversion M; subst. exists []. split; constructor.
      - inversion M as [|? c ? cs0 M1 M2]; subst. inversion FL as [|? ? FL1 FL2]; subst. inversion FL' as [|? ? FL1' FL2']; subst.
        destruct (PS p p' P c FL1 FL1' M1) as (c' & M1' & T1). destruct (IH cs0 FL2 FL2' M2) as (cs' & M2' & T2).
        exists (c' :: cs'). split; constructor; auto. }
    destruct X as [r r' R| |r r' R|r r' R|root root' adds adds' L1 L2|ext root adds groups root' adds' groups' XR XA XG
                  |ext root adds groups root' adds' groups' XR XA XG|r r' e e' R XE|n t u IN XT|n t u IN XT];
      intros T F F' M; clear spells_parts.
    + inversion M; subst. eexists. split; [constructor; eapply spell_range; eauto|now constructor].
    + inversion M; subst. eexists. split; [constructor|now constructor].
    + inversion M; subst. eexists. split; [constructor; eapply spell_size; eauto|now constructor].
    + inversion M; subst. eexists. split; [constructor; eapply spell_size; eauto|now constructor].
    + destruct adds as [adds|], adds' as [adds'|]; cbn [same_number] in L2; try contradiction; inversion M; subst; rewrite L1, ?L2;
        (eexists; split; [constructor|now constructor]).
    + inversion M as [| | | | | |? ? ? ? cr ca cg MR MA MG| | | |]; subst. inversion F as [| | | | |? ? ? ? FP ND _ _| | |]; subst.
      inversion F' as [| | | | |? ? ? ? FP' ND' _ _| | |]; subst.
      destruct (fine_split FP) as (F1 & F2 & F3). destruct (fine_split FP') as (F1' & F2' & F3').
      destruct (PS _ _ XR _ F1 F1' MR) as (cr' & MR' & TR). destruct (PS _ _ XA _ F2 F2' MA) as (ca' & MA' & TA).
      destruct (GS _ _ XG _ F3 F3' MG) as (cg' & MG' & TG).
      exists (TSeq ext cr' ca' cg'). split; [now constructor|].
      constructor; try assumption; [rewrite (names_all _ _ _ _ _ _ _ MR MA MG)|rewrite (names_all _ _ _ _ _ _ _ MR' MA' MG')]; assumption.
    + inversion M as [| | | | | | |? ? ? ? cr ca cg MR MA MG| | |]; subst. inversion F as [| | | | | |? ? ? ? FP ND _ _| |]; subst.
      inversion F' as [| | | | | |? ? ? ? FP' ND' _ _| |]; subst.
      destruct (fine_split FP) as (F1 & F2 & F3). destruct (fine_split FP') as (F1' & F2' & F3').
      destruct (PS _ _ XR _ F1 F1' MR) as (cr' & MR' & TR). destruct (PS _ _ XA _ F2 F2' MA) as (ca' & MA' & TA).
      destruct (GS _ _ XG _ F3 F3' MG) as (cg' & MG' & TG).
      exists (TChoice ext cr' ca' cg'). split; [now constructor|].
      constructor; try assumption; [rewrite (names_all _ _ _ _ _ _ _ MR MA MG)|rewrite (names_all _ _ _ _ _ _ _ MR' MA' MG')]; assumption.
    + inversion M as [| | | | | | | |? ? c0 T0 C0 M0| |]; subst. inversion F as [| | | | | | |? ? _ _ FE|]; subst. inversion F' as [| | | | | | |? ? _ _ FE'|]; subst.
      destruct (spells_means e e' XE T0 FE FE' M0) as (T' & M' & TW). exists (TSeqOf c0 T'). split; [constructor; [eapply spell_count; eauto|exact M']|now constructor].
    + inversion M as [| | | | | | | | |? t0 ? IN0 M0|]; subst. assert (t0 = t) by exact (one_type S n t0 t (fine_names S FS) IN0 IN). subst t0.
      exact (spells_means t u XT T (proj2 (proj2 (fine_types S FS n t IN))) F' M0).
    + destruct (spells_means t u XT T F (proj2 (proj2 (fine_types S' FS' n u IN))) M) as (T' & M' & TW).
      exists T'. split; [econstructor; eauto|exact TW].
  - destruct X as [n n' s s' t t' XT XS]. intros c F F' M. inversion M as [? ? ? pr T0 M0 ST]; subst.
    inversion F as [? ? ? F0 _ _ _]; subst. inversion F' as [? ? ? F0' _ _ _]; subst.
    destruct (spells_means t t' XT T0 F0 F0' M0) as (T' & M' & TW).
    exists (Comp n' pr T'). split; [constructor; [exact M'|eapply spell_status; eauto]|split; [reflexivity|exact TW]].
Qed.

End Spellings.

(** * C66 *)

(** The classes of two spellings of a type encode every object to the same octets
    and decode all octets to the same object. *)
Definition one_protocol (T T' : ty) : Prop :=
  (forall v bs, encode T v = Ok bs <-> encode T' v = Ok bs) /\ forall bs, decode bs T = decode bs T'.

Lemma twin_protocol T T' : twin T T' -> one_protocol T T'.
Proof. intros X. split; [intros v bs; now apply C63_octets|intros bs; now apply C63_decode]. Qed.

(** From schemas to classes.  Missing: the schemas outside C49 (refuted below). *)
Theorem C66_classes_partial : forall S S' n t n' t', fine_schema S -> sortable S -> fine_schema S' -> sortable S' ->
  In (TypeA n t) S -> In (TypeA n' t') S' -> spells S S' t t' ->
  exists T T', imported S n = Ok T /\ imported S' n' = Ok T' /\ one_protocol T T'.
Proof.
  intros S S' n t n' t' FS SS FS' SS' IN IN' X.
  destruct (C49_imported S FS SS n t IN) as (T & M & E). destruct (C49_imported S' FS' SS' n' t' IN') as (T' & M' & E').
  destruct (spells_means S S' FS FS' t t' X T (proj2 (proj2 (fine_types S FS n t IN))) (proj2 (proj2 (fine_types S' FS' n' t' IN'))) M) as (T2 & M2 & TW).
  assert (T2 = T') as -> by exact (C49_one_meaning S' FS' SS' n' t' T2 T' IN' M2 M').
  exists T, T'. split; [exact E|]. split; [exact E'|]. now apply twin_protocol.
Qed.

(** From texts to octets: two parties, each with a text of their own. *)
Theorem C66_texts_partial : forall S S' s s' t t' r r',
  strip s t -> plain_lines s -> text_of S t r -> fine_schema S -> sortable S ->
  strip s' t' -> plain_lines s' -> text_of S' t' r' -> fine_schema S' -> sortable S' ->
  exists g g', a_module s g /\ a_module s' g' /\
  forall n u n' u', In (TypeA n u) S -> In (TypeA n' u') S' -> spells S S' u u' ->
  exists T T', binds g (underscore n) T /\ binds g' (underscore n') T' /\ one_protocol T T'.
Proof.
  intros S S' s s' t t' r r' ST PL TX FS SS ST' PL' TX' FS' SS'.
  destruct (C50_text_to_module_partial S s t r ST PL TX FS SS) as (q & n0 & objs & out & g & RD & E & X & TY & _).
  destruct (C50_text_to_module_partial S' s' t' r' ST' PL' TX' FS' SS') as (q' & n0' & objs' & out' & g' & RD' & E' & X' & TY' & _).
  exists g, g'. split; [now exists q, n0, objs, out|]. split; [now exists q', n0', objs', out'|].
  intros n u n' u' IN IN' SP. destruct (TY n u IN) as (T & M & BN). destruct (TY' n' u' IN') as (T' & M' & BN').
  destruct (spells_means S S' FS FS' u u' SP T (proj2 (proj2 (fine_types S FS n u IN))) (proj2 (proj2 (fine_types S' FS' n' u' IN'))) M) as (T2 & M2 & TW).
  assert (T2 = T') as -> by exact (C49_one_meaning S' FS' SS' n' u' T2 T' IN' M2 M').
  exists T, T'. split; [exact BN|]. split; [exact BN'|]. now apply twin_protocol.
Qed.

(** ** Other names for the types *)

(** The schema with [f n] for each type [n]. *)
Fixpoint retype (f : string -> string) (t : asn) : asn :=
  let again (p : part asn) := match p with Part n s t => Part n s (retype f t) end in
  match t with
  | ARef n r => ARef (f n) r
  | ASeqOf r e => ASeqOf r (retype f e)
  | ASequence ext root adds groups => ASequence ext (map again root) (map again adds) (map (map again) groups)
  | AChoice ext root adds groups => AChoice ext (map again root) (map again adds) (map (map again) groups)
  | _ => t
  end.
Definition retyped (f : string -> string) (S : schema) : schema :=
  map (fun a => match a with TypeA n t => TypeA (f n) (retype f t) | ValueA n t l => ValueA n (retype f t) l end) S.

Section Retype.
Variable f : string -> string.
Variable S : schema.

Lemma retyped_type n t : In (TypeA n t) S -> In (TypeA (f n) (retype f t)) (retyped f S).
Proof. intros I. apply in_map_iff. exists (TypeA n t). auto. Qed.
Lemma retyped_value n t l : In (ValueA n t l) S -> In (ValueA n (retype f t) l) (retyped f S).
Proof. intros I. apply in_map_iff. exists (ValueA n t l). auto. Qed.

Lemma retype_bound b z : bound_is S b z -> bound_is (retyped f S) b z.
Proof. intros [y|n r y I]; [constructor|]. econstructor. apply (retyped_value n (AInteger r) (LNum y) I). Qed.
Lemma retype_lower b lo : lower_is S b lo -> lower_is (retyped f S) b lo.
Proof. destruct b; cbn [lower_is]; auto; intros (x & B & ->); exists x; auto using retype_bound. Qed.
Lemma retype_size_lower b lo : size_lower_is S b lo -> size_lower_is (retyped f S) b lo.
Proof. destruct b; cbn [size_lower_is]; auto; intros (x & B & ->); exists x; auto using retype_bound. Qed.
Lemma retype_upper b lo : upper_is S b lo -> upper_is (retyped f S) b lo.
Proof. destruct b; cbn [upper_is]; auto; intros (x & B & ->); exists x; auto using retype_bound. Qed.
Lemma retype_range r c : range_is S r c -> range_is (retyped f S) r c.
Proof. destruct r as [r|]; cbn [range_is]; auto. intros (lo & hi & A & B & E). exists lo, hi. auto using retype_lower, retype_upper. Qed.
Lemma retype_size r c : size_is S r c -> size_is (retyped f S) r c.
Proof. destruct r as [r|]; cbn [size_is]; auto. intros (lo & hi & A & B & E). exists lo, hi. auto using retype_size_lower, retype_upper. Qed.
Lemma retype_count r c : count_is S r c -> count_is (retyped f S) r c.
Proof. destruct r as [r|]; cbn [count_is]; auto. intros (lo & hi & A & B & E). exists lo, hi. auto using retype_size_lower, retype_upper. Qed.
Lemma retype_lit t l v : lit_is S t l v -> lit_is (retyped f S) (retype f t) l v.
Proof.
  intros X. induction X as [| | | | | | |n t t' l v I N X IH|n t r l v I X IH]; cbn [retype]; try (econstructor; eassumption).
  - eapply lit_value; [apply (retyped_value _ _ _ I)|exact N|exact IH].
  - eapply lit_type; [apply (retyped_type _ _ I)|exact IH].
Qed.

Fixpoint retype_means t T (X : means S t T) {struct X} : means (retyped f S) (retype f t) T
with retype_part p c (X : part_means S p c) {struct X} :
  part_means (retyped f S) (match p with Part n s t => Part n s (retype f t) end) c.
Proof.
  - set (again := fun p : part asn => match p with Part n s t => Part n s (retype f t) end) in *.
    assert (PS : forall l l', Forall2 (part_means S) l l' -> Forall2 (part_means (retyped f S)) (map again l) l').
    { intros l l' F. induction F; cbn [map]; constructor; auto. now apply retype_part. }
    destruct X as [r c R'| |r c R'|r c R'|root|root adds|ext root adds groups root' adds' groups' R' A' G'|ext root adds groups root' adds' groups' R' A' G'|r e c T C' M|n t T I' M|n t r c I' M R'];
      cbn [retype].
    + constructor. now apply retype_range.
    + constructor.
    + constructor. now apply retype_size.
    + constructor. now apply retype_size.
    + constructor.
    + constructor.
    + constructor; auto. clear - G' PS. induction G'; cbn [map]; constructor; auto.
    + constructor; auto. clear - G' PS. induction G'; cbn [map]; constructor; auto.
    + constructor; [now apply retype_count|now apply retype_means].
    + econstructor; [apply (retyped_type _ _ I')|now apply retype_means].
    + econstructor; [apply (retyped_type _ _ I')|apply (retype_means _ _ M)|now apply retype_range].
  - destruct X as [n s t p T M ST]. constructor; [now apply retype_means|].
    destruct s; cbn [status_is] in *; auto. destruct ST as (v & L & X). exists v. split; [now apply retype_lit|exact X].
Qed.
End Retype.

(** With other names for the types the classes are the same types. *)
Theorem C66_type_names_partial : forall f S n t, fine_schema S -> sortable S -> fine_schema (retyped f S) -> sortable (retyped f S) ->
  In (TypeA n t) S -> exists T, imported S n = Ok T /\ imported (retyped f S) (f n) = Ok T.
Proof.
  intros f S n t FS SS FS' SS' IN. destruct (C49_imported S FS SS n t IN) as (T & M & E).
  destruct (C49_imported _ FS' SS' (f n) (retype f t) (retyped_type f S n t IN)) as (T' & M' & E').
  assert (T = T') as -> by exact (C49_one_meaning _ FS' SS' _ _ T T' (retyped_type f S n t IN) (retype_means f S t T M) M').
  eauto.
Qed.

(** * Cases *)

(** Body in place, other names, the number 7 for the constant. *)
Definition in_place : schema := [
  TypeA "Report" (ASeqOf None (ARef "Entry" None));
  TypeA "Entry" (AChoice false [
     Part "first" Mandatory (ASequence true
       [Part "a1" Optional (AInteger (Some (Range (BNum 0) (BNum 7) false))); Part "b1" Mandatory (ARef "Flag" None);
        Part "c1" (Default (LNum 5)) (ARef "Small" None)]
       [Part "d1" Optional (AInteger None)] [[Part "e1" Mandatory ABoolean; Part "f1" Optional ABoolean]]);
     Part "second" Mandatory (ABitstr (Some (Range (BNum 3) (BNum 3) false)))] [] []);
  TypeA "Flag" ABoolean;
  TypeA "Small" (AInteger (Some (Range (BNum 0) (BNum 7) false)))].

Lemma seven b : same_end sent in_place (BNum b) (BNum b).
Proof. cbn. intros z X. inversion X; subst. constructor. Qed.
Lemma seven' : same_end sent in_place (BRef "most") (BNum 7).
Proof.
  cbn. intros z X. inversion X as [|n r y I]; subst. cbn in I. repeat destruct I as [I|I]; try discriminate; try contradiction.
  injection I as _ <-. constructor.
Qed.
Lemma five t : spells sent in_place (AInteger t) (ARef "Small" None) ->
  same_status sent in_place (AInteger t) (ARef "Small" None) (Default (LNum 5)) (Default (LNum 5)).
Proof.
  intros _ v X. inversion X; subst. eapply lit_type; [|constructor]. cbn. do 3 right. left. reflexivity.
Qed.

Lemma in_place_spells : spells sent in_place (ASeqOf None (ARef "Item" None)) (ASeqOf None (ARef "Entry" None)).
Proof.
  assert (SM : same_range sent in_place (Some (Range (BNum 0) (BRef "most") false)) (Some (Range (BNum 0) (BNum 7) false))).
  { split; [apply seven|]. split; [apply seven'|reflexivity]. }
  assert (FI : spells sent in_place (AInteger (Some (Range (BNum 0) (BRef "most") false))) (ARef "Small" None)).
  { eapply spell_right; [cbn; do 3 right; left; reflexivity|]. constructor. exact SM. }
  apply spell_seqof; [exact Logic.I|]. eapply spell_left; [cbn; right; left; reflexivity|]. eapply spell_right; [cbn; right; left; reflexivity|].
  apply spell_choice; [|constructor|constructor]. constructor; [|constructor; [|constructor]].
  - apply spell_part; [|exact Logic.I]. eapply spell_left; [cbn; right; right; left; reflexivity|].
    apply spell_sequence.
    + constructor; [|constructor; [|constructor; [|constructor]]]; apply spell_part; try exact Logic.I.
      * constructor. exact SM.
      * eapply spell_right; [cbn; right; right; left; reflexivity|constructor].
      * exact FI.
      * now apply five.
    + constructor; [|constructor]. apply spell_part; [|exact Logic.I]. constructor. exact Logic.I.
    + constructor; [|constructor]. constructor; [|constructor; [|constructor]]; (apply spell_part; [constructor|exact Logic.I]).
  - apply spell_part; [|exact Logic.I]. constructor. split; [apply seven|]. split; [apply seven|reflexivity].
Qed.

Example C66_case : exists T T', imported sent "List" = Ok T /\ imported in_place "Report" = Ok T' /\ T <> T' /\ one_protocol T T' /\
  encode T' C08_val = Ok [2; 214; 112; 40; 1; 192]%Z.
Proof.
  destruct (checked_fine 20 sent) as [FS SS]; [vm_compute; reflexivity|].
  destruct (checked_fine 20 in_place) as [FS' SS']; [vm_compute; reflexivity|].
  destruct (C66_classes_partial sent in_place "List" _ "Report" _ FS SS FS' SS' (or_introl eq_refl) (or_introl eq_refl) in_place_spells) as (T & T' & E & E' & P).
  exists T, T'. split; [exact E|]. split; [exact E'|].
  assert (ET : imported sent "List" = Ok C08_ty) by (vm_compute; reflexivity). assert (T = C08_ty) as -> by congruence.
  split; [|split; [exact P|]].
  - intros <-. revert E'. vm_compute. discriminate.
  - apply (proj1 P). destruct C08_case as (_ & _ & _ & X & _). exact X.
Qed.

Definition in_place_text : string :=
"In-Place DEFINITIONS AUTOMATIC TAGS ::= BEGIN
  Report ::= SEQUENCE OF Entry -- one for each
  Entry ::= CHOICE {
    first SEQUENCE { a1 INTEGER (0..7) OPTIONAL, b1 Flag, c1 Small DEFAULT 5, ...,
      d1 INTEGER OPTIONAL, [[ e1 BOOLEAN, f1 BOOLEAN OPTIONAL ]] },
    second BIT STRING (SIZE(3)) }
  Flag ::= BOOLEAN
  Small ::= INTEGER (0..7)
END".
Definition in_place_plain := Eval vm_compute in match stripped 2000 in_place_text with Some t => t | None => "" end.
Example C66_texts_case : exists g g' T T', a_module sender_text g /\ a_module in_place_text g' /\
  binds g "List" T /\ binds g' "Report" T' /\ one_protocol T T'.
Proof.
  destruct (is_text_ok true "Sender" sent sender_plain) as (r & TX); [vm_compute; reflexivity|].
  destruct (is_text_ok true "In-Place" in_place in_place_plain) as (r' & TX'); [vm_compute; reflexivity|].
  destruct (checked_fine 20 sent) as [FS SS]; [vm_compute; reflexivity|].
  destruct (checked_fine 20 in_place) as [FS' SS']; [vm_compute; reflexivity|].
  destruct (C66_texts_partial sent in_place sender_text in_place_text sender_plain in_place_plain r r') as (g & g' & MG & MG' & TY);
    [apply (stripped_ok 2000); vm_compute; reflexivity|vm_compute; reflexivity|exact TX|exact FS|exact SS
    |apply (stripped_ok 2000); vm_compute; reflexivity|vm_compute; reflexivity|exact TX'|exact FS'|exact SS'|].
  destruct (TY "List" _ "Report" _ (or_introl eq_refl) (or_introl eq_refl) in_place_spells) as (T & T' & BT & BT' & P).
  exists g, g', T, T'. auto.
Qed.

(** Other type names for the schema of C52. *)
Definition other_name (n : string) : string :=
  if String.eqb n "List" then "Item" else if String.eqb n "Item" then "Zed-1" else n.
Example C66_type_names_case : exists T, imported sent "List" = Ok T /\ imported (retyped other_name sent) "Item" = Ok T.
Proof.
  destruct (checked_fine 20 sent) as [FS SS]; [vm_compute; reflexivity|].
  destruct (checked_fine 20 (retyped other_name sent)) as [FS' SS']; [vm_compute; reflexivity|].
  exact (C66_type_names_partial other_name sent "List" _ FS SS FS' SS' (or_introl eq_refl)).
Qed.

(** A ::= SEQUENCE OF INTEGER (1..5) written through B ::= INTEGER (1..5): the list of 3
    is 01 01 03 in the one and 01 40 in the other. *)
Definition element_in_place : schema := [TypeA "A" (ASeqOf None (AInteger (Some (Range (BNum 1) (BNum 5) false))))].
Definition element_named : schema :=
  [TypeA "A" (ASeqOf None (ARef "B" None)); TypeA "B" (AInteger (Some (Range (BNum 1) (BNum 5) false)))].
Theorem C66_spellings_refuted : exists S S' t t' T T' v bs,
  In (TypeA "A" t) S /\ In (TypeA "A" t') S' /\ spells S S' t t' /\ imported S "A" = Ok T /\ imported S' "A" = Ok T' /\
  encode T v = Ok bs /\ encode T' v <> Ok bs.
Proof.
  exists element_in_place, element_named, (ASeqOf None (AInteger (Some (Range (BNum 1) (BNum 5) false)))), (ASeqOf None (ARef "B" None)).
  do 2 eexists. exists (VSeqOf [VInt 3]), [1; 1; 3]%Z. split; [now left|]. split; [now left|]. split.
  - apply spell_seqof; [exact Logic.I|]. eapply spell_right; [right; left; reflexivity|]. constructor.
    split; [|split; [|reflexivity]]; cbn; intros z X; inversion X; subst; constructor.
  - split; [vm_compute; reflexivity|]. split; [vm_compute; reflexivity|]. split; [vm_compute; reflexivity|]. vm_compute. discriminate.
Qed.
