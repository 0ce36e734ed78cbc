(** From the text of a schema to the imported text of its module: C75, from C74, C49 and
    C50. *)
From Coq Require Import ZArith List String Ascii Bool Arith Lia DecimalString.
Import ListNotations.
From Verif Require Import PyBase Schema Generator Ordering Emit Exec Meaning Modules Generated Printed Printing TextOut
  GoldenVectors GoldenSchemas Peers Documented Names FineCheck Grammar Texts Tokens ReadBodies ReadTexts GrammarTests Written WrittenTests Agreement Parties.
Open Scope string_scope.
Open Scope list_scope.
Open Scope nat_scope.

(** * Texts of values *)

Lemma chars_imp (f g : ascii -> bool) : (forall c, f c = true -> g c = true) -> forall s, all_chars f s = true -> all_chars g s = true.
Proof.
  intros F. induction s as [|c s IH]; [reflexivity|]. cbn [all_chars]. intros E. apply andb_prop in E as [A E]. now rewrite (F _ A), (IH E).
Qed.
Lemma value_wordb s : value_word s = true -> wordb s = true.
Proof.
  destruct s as [|c r]; [discriminate|]. cbn [value_word]. intros E. apply andb_prop in E as [A E]. unfold wordb. cbn [all_chars].
  assert (X : Printed.word_char c = true) by (unfold Printed.word_char; rewrite A, !orb_true_r; reflexivity). rewrite X.
  refine (chars_imp _ _ _ r E). intros d. unfold Meaning.word_char, Printed.word_char. rewrite !orb_true_iff. tauto.
Qed.
Lemma type_wordb s : type_word s = true -> wordb s = true.
Proof.
  destruct s as [|c r]; [discriminate|]. cbn [type_word]. intros E. apply andb_prop in E as [A E]. unfold wordb. cbn [all_chars].
  assert (X : Printed.word_char c = true) by (unfold Printed.word_char; rewrite A; reflexivity). rewrite X.
  refine (chars_imp _ _ _ r E). intros d. unfold Meaning.word_char, Printed.word_char. rewrite !orb_true_iff. tauto.
Qed.
Lemma digits_solid s : all_chars is_digit s = true -> solid s = true.
Proof.
  intros E. apply word_solid. unfold wordb. refine (chars_imp _ _ _ s E). intros c X. unfold Printed.word_char. rewrite X, !orb_true_r. reflexivity.
Qed.
Lemma uint_solid u : solid (NilZero.string_of_uint u) = true.
Proof.
  apply digits_solid. destruct u; cbn [NilZero.string_of_uint]; try apply digits_uint. reflexivity.
Qed.
Lemma num_solid z : solid (num_text z) = true.
Proof.
  unfold num_text. destruct (Z.to_int z) as [u|u]; cbn [NilZero.string_of_int]; [apply uint_solid|]. exact (uint_solid u).
Qed.
Lemma cat_solid l : Forall (fun s => solid s = true) l -> solid (cat l) = true.
Proof. induction 1 as [|s l A F IH]; [reflexivity|]. cbn [cat]. unfold solid in *. now rewrite all_app, A, IH. Qed.
Lemma hex_solid d : (0 <= d < 16)%Z -> solid (hex_text d) = true.
Proof.
  intros E. assert (X : exists n, n < 16 /\ d = Z.of_nat n) by (exists (Z.to_nat d); lia). destruct X as (n & L & ->). clear E.
  do 16 (destruct n as [|n]; [reflexivity|]). lia.
Qed.
Lemma lit_solid l : good_lit l -> solid (lit_text l) = true.
Proof.
  destruct l as [z|[|]|s|h|n|n]; cbn [good_lit lit_text]; intros GL; try reflexivity; try (now apply word_solid, value_wordb); try apply num_solid.
  - apply cat_solid. repeat constructor. apply cat_solid. induction s as [|[|] s IH]; constructor; auto.
  - apply cat_solid. repeat constructor. apply cat_solid. induction GL as [|d h GD GL IH]; constructor; auto. now apply hex_solid.
Qed.

(** * What is read is tidy *)

Definition tidy_member (k : kind) (m : string + ptype) : bool := match m with inl s => item_ok k s | inr q => tidy q end.
Definition part_member (p : part asn) : string + ptype := match p with Part n s t => inr (built (own_ref t) n s t) end.

Definition TidyType (t : asn) (_ : list token) : Prop := forall tr id s, wordb id = true -> line_opt (default_text s) = true -> tidy (built tr id s t) = true.
Definition TidyPart (_ : bool) (p : part asn) (_ : list token) : Prop := forall k, tidy_member k (part_member p) = true.
Definition TidyParts (_ : bool) (l : list (part asn)) (_ : list token) : Prop := forall k, forallb (tidy_member k) (map part_member l) = true.
Definition group_members (groups : list (list (part asn))) : list (string + ptype) := flat_map (fun g => inl "[[" :: map part_member g ++ [inl "]]"]) groups.
Definition TidyAdds (_ : bool) (adds : list (part asn)) (groups : list (list (part asn))) (_ : list token) : Prop :=
  forall k, k <> KEnum -> forallb (tidy_member k) (map part_member adds ++ group_members groups) = true.
Definition body_members (ext : bool) (root adds : list (part asn)) (groups : list (list (part asn))) : list (string + ptype) :=
  map part_member root ++ if ext then inl "..." :: map part_member adds ++ group_members groups else [].
Definition TidyBody (_ ext : bool) (root adds : list (part asn)) (groups : list (list (part asn))) (_ : list token) : Prop :=
  forall k, k <> KEnum -> forallb (tidy_member k) (body_members ext root adds groups) = true.

Lemma names_tidy ns l : spells_names ns l -> forallb (tidy_member KEnum) (map inl ns) = true.
Proof. induction 1 as [n W|n ns l W _ IH]; cbn [map forallb tidy_member item_ok]; rewrite (value_wordb _ W); [reflexivity|exact IH]. Qed.
Lemma marks_tidy k s : k <> KEnum -> tidy_member k (inl s) = true.
Proof. destruct k; try reflexivity. congruence. Qed.

Lemma tidy_built tr id s t : wordb id = true -> line_opt (default_text s) = true -> forallb (tidy_member (kind_of t)) (members (built tr id s t)) = true -> tidy (built tr id s t) = true.
Proof.
  intros W D0 M0. destruct (built tr id s t) as [k tr' id' vr o d v c ms] eqn:E. cbn [members] in M0.
  assert (Q : k = kind_of t /\ id' = id /\ d = default_text s /\ v = None) by (destruct t; injection E; intros; subst; auto). destruct Q as (-> & -> & -> & ->).
  cbn [tidy line_opt]. rewrite W, D0. cbn [andb]. exact M0.
Qed.

Lemma types_tidy : forall t l, spells_type t l -> TidyType t l.
Proof.
  apply (type_mut TidyType TidyPart TidyParts TidyAdds TidyBody).
  - intros r m l _ _ tr id s W D0. now apply tidy_built.
  - intros tr id s W D0. now apply tidy_built.
  - intros r l _ tr id s W D0. now apply tidy_built.
  - intros r m l _ _ tr id s W D0. now apply tidy_built.
  - intros root l N tr id s W D0. apply tidy_built; auto. cbn [built members kind_of]. rewrite app_nil_r. exact (names_tidy _ _ N).
  - intros root l N tr id s W D0. apply tidy_built; auto. cbn [built members kind_of]. rewrite forallb_app, (names_tidy _ _ N). reflexivity.
  - intros root adds l l' N N' tr id s W D0. apply tidy_built; auto. cbn [built members kind_of]. rewrite forallb_app, (names_tidy _ _ N). cbn [forallb]. now rewrite (names_tidy _ _ N').
  - intros ext root adds groups l _ TB tr id s W D0. apply tidy_built; auto. exact (TB KSeq ltac:(discriminate)).
  - intros tr id s W D0. now apply tidy_built.
  - intros adds groups l _ TA tr id s W D0. apply tidy_built; auto. exact (TA KSeq ltac:(discriminate)).
  - intros ext root adds groups l _ TB tr id s W D0. apply tidy_built; auto. exact (TB KChoice ltac:(discriminate)).
  - intros e l _ TE tr id s W D0. apply tidy_built; auto. cbn [built members kind_of forallb tidy_member]. now rewrite TE.
  - intros r e l l' _ _ TE tr id s W D0. apply tidy_built; auto. cbn [built members kind_of forallb tidy_member]. now rewrite TE.
  - intros n _ _ tr id s W D0. now apply tidy_built.
  - intros choice n s t l l' W _ TT SP _ k. cbn [part_member tidy_member]. apply TT; [now apply value_wordb|]. destruct SP as [| |v GL]; try reflexivity. now apply lit_solid.
  - intros choice p l _ TP k. cbn [map forallb]. now rewrite TP.
  - intros choice p ps l l' _ TP _ TPS k. cbn [map forallb]. now rewrite TP, TPS.
  - intros choice k _. reflexivity.
  - intros choice p ps gs l l' _ TP _ TA k N. cbn [map app forallb]. now rewrite TP, TA.
  - intros choice g gs l l' _ TPS _ TA k N. cbn [map app group_members flat_map forallb]. rewrite marks_tidy by exact N. rewrite !forallb_app, TPS.
    cbn [forallb]. rewrite marks_tidy by exact N. exact (TA k N).
  - intros choice root l _ TPS k N. unfold body_members. rewrite app_nil_r. exact (TPS k).
  - intros choice root adds groups l l' _ TPS _ TA k N. unfold body_members. rewrite forallb_app, TPS. cbn [forallb]. rewrite marks_tidy by exact N. exact (TA k N).
Qed.

Lemma assignment_tidy a l : spells_assignment a l -> tidy (parsed_as a) = true.
Proof.
  destruct 1 as [n t l W SP _|n t v l W SP GL].
  - pose proof (types_tidy t l SP) as T. destruct t; try (now apply (T n "" Mandatory)). now apply T; [apply type_wordb|].
  - pose proof (types_tidy t l SP (own_ref t) "" Mandatory eq_refl eq_refl) as T. cbn [parsed_as].
    destruct (built (own_ref t) "" Mandatory t) as [k tr id vr o d v' c ms]. cbn [tidy line_opt] in *. rewrite (lit_solid v GL).
    apply andb_prop in T as [T M0]. apply andb_prop in T as [T _]. now rewrite T, M0.
Qed.
Lemma schema_tidy S l : spells_assignments S l -> forallb tidy (map parsed_as S) = true.
Proof. induction 1 as [|a S l l' A _ IH]; [reflexivity|]. cbn [map forallb]. now rewrite (assignment_tidy a l A), IH. Qed.
Lemma text_tidy S s r : text_of S s r -> forallb tidy (map parsed_as S) = true.
Proof. intros (l & SP & _). destruct SP as [tags n S l W A]. exact (schema_tidy S l A). Qed.

(** * From text to text *)

(** For the text of a schema in the fragment of C49, with comments and blanks as one
    likes: the library reads the schema and writes a Python text, and importing that
    text binds every name to what it means. *)
Theorem C75_text_to_text_partial : forall S s t r, strip s t -> plain_lines s -> text_of S t r -> fine_schema S -> sortable S ->
  exists r' n0 objects out g, (forall n, n0 <= n -> read_schema n s = Match r' objects) /\
    emit objects = Ok out /\ import (module_text out) = Ok g /\
    (forall n t, In (TypeA n t) S -> exists T, means S t T /\ binds g (underscore n) T) /\
    (forall n t l, In (ValueA n t l) S -> exists T v, lookup (underscore n) g = Some (OInst T v) /\ lit_is S t l v).
Proof.
  intros S s t r ST P T FS SS. destruct (C50_comments_partial S s t r ST P T) as (r' & n0 & RD).
  destruct (C49_modules_partial S FS SS) as (out & g & E & R0 & X).
  exists r', n0, (map parsed_as S), out, g. split; [exact RD|]. split; [exact E|]. split; [|exact X].
  exact (proj2 (C74_generated _ out g (distinct_objects S FS) (text_tidy S t r T) E R0)).
Qed.

(** Whatever the schema, if the names are distinct: a module that runs has a text
    whose import gives the same names. *)
Theorem C75_written_text : forall S s t r g, strip s t -> plain_lines s -> text_of S t r ->
  distinct_names (map parsed_as S) -> a_module s g ->
  exists r' n0 objects out, (forall n, n0 <= n -> read_schema n s = Match r' objects) /\
    emit objects = Ok out /\ read_module (module_text out) = Some out /\ import (module_text out) = Ok g.
Proof.
  intros S s t r g ST P T DN (r1 & n1 & objects & out & RD & E & R0). destruct (C50_comments_partial S s t r ST P T) as (r' & n0 & RD').
  assert (Q : objects = map parsed_as S).
  { specialize (RD (n0 + n1) ltac:(lia)). specialize (RD' (n0 + n1) ltac:(lia)). congruence. }
  subst objects. exists r1, n1, (map parsed_as S), out. split; [exact RD|]. split; [exact E|].
  exact (C74_generated _ out g DN (text_tidy S t r T) E R0).
Qed.

(** The Python file of the README's protocol, as it is in the test suite: importing
    it gives a class SimpleMessage that means what the schema says. *)
Theorem C75_readme : exists g, import module_SimpleProtocol = Ok g /\ binds g "SimpleMessage" simple_message /\
  told_apart simple_message.
Proof.
  destruct C71_readme as (g & MG & BN & TA). exists g. split; [|now split].
  destruct (is_text_ok true "SimpleProtocol" asn_SimpleProtocol text_SimpleProtocol) as (r & TX); [vm_compute; reflexivity|].
  destruct (checked_fine 20 asn_SimpleProtocol) as [FS SS]; [vm_compute; reflexivity|].
  assert (ST : strip text_SimpleProtocol text_SimpleProtocol) by (apply (stripped_ok 2000); vm_compute; reflexivity).
  assert (PL : plain_lines text_SimpleProtocol) by (vm_compute; reflexivity).
  destruct (C50_comments_partial asn_SimpleProtocol _ _ r ST PL TX) as (r' & n0 & RD').
  destruct (C75_written_text asn_SimpleProtocol _ _ r g ST PL TX (distinct_objects _ FS) MG) as (r1 & n1 & objects & out & RD & E & _ & IM).
  assert (Q : objects = map parsed_as asn_SimpleProtocol).
  { specialize (RD (n0 + n1) ltac:(lia)). specialize (RD' (n0 + n1) ltac:(lia)). congruence. }
  subst objects. rewrite <- IM. f_equal.
  assert (X : match emit (map parsed_as asn_SimpleProtocol) with Ok l => module_text l | Err _ => "" end = module_SimpleProtocol) by (vm_compute; reflexivity).
  rewrite E in X. now symmetry.
Qed.

(** The schema of Parties.v: comments, an extensible SEQUENCE with a group, a
    CHOICE. *)
Example C75_text_to_text_case : exists r t, strip packets_text t /\ plain_lines packets_text /\ text_of packets t r /\
  fine_schema packets /\ sortable packets /\ distinct_names (map parsed_as packets) /\ exists g, a_module packets_text g.
Proof.
  destruct (is_text_ok true "Packets" packets packets_plain) as (r & TX); [vm_compute; reflexivity|].
  destruct (checked_fine 20 packets) as [FS SS]; [vm_compute; reflexivity|]. exists r, packets_plain.
  split; [apply (stripped_ok 2000); vm_compute; reflexivity|]. split; [vm_compute; reflexivity|]. split; [exact TX|].
  split; [exact FS|]. split; [exact SS|]. split; [exact (distinct_objects packets FS)|].
  destruct C70_texts_case as (g & _ & MG & _). now exists g.
Qed.

Example C74_generated_case : distinct_names (map parsed_as packets) /\ forallb tidy (map parsed_as packets) = true /\
  exists out g, emit (map parsed_as packets) = Ok out /\ Exec.run out = Ok g /\ List.length out = 3.
Proof.
  destruct (checked_fine 20 packets) as [FS SS]; [vm_compute; reflexivity|]. split; [exact (distinct_objects packets FS)|].
  split; [vm_compute; reflexivity|]. destruct (emit (map parsed_as packets)) as [out|] eqn:E; [|vm_compute in E; discriminate].
  destruct (C49_modules_partial packets FS SS) as (out' & g & E' & R0 & _). assert (out' = out) as -> by congruence.
  exists out, g. split; [reflexivity|]. split; [exact R0|]. vm_compute in E. injection E as <-. reflexivity.
Qed.
