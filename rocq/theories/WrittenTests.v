(** Concrete texts for the theorems of ReadTexts.v and Written.v. *)

From Coq Require Import ZArith List String Ascii Bool Arith Lia.
Import ListNotations.
From Verif Require Import PyBase Schema Generator Emit Exec Meaning Subtypes Modules FineCheck Generated GoldenSchemas Grammar GrammarTests Texts Tokens
  ReadModules ReadTexts Written.

Open Scope string_scope.
Open Scope list_scope.
Open Scope nat_scope.

(** ** Tests for the relations of Texts.v *)

Fixpoint lay (l : list token) (s : string) : option string :=
  match l with
  | [] => match prefixed "::=" (skip s) with Some _ => None | None => Some s end
  | t :: l' =>
    match prefixed (t_text t) (skip s) with
    | Some s' => if wordy t && starts is_word s' then None else lay l' s'
    | None => None
    end
  end.
Lemma lay_ok : forall l s r, propers l -> lay l s = Some r -> laid l s r.
Proof.
  induction l as [|t l IH]; intros s r P E; cbn [lay] in E.
  - destruct (prefixed "::=" (skip s)) eqn:X; [discriminate|]. injection E as <-. now constructor.
  - inversion P as [|? ? PT PL]; subst. destruct (prefixed (t_text t) (skip s)) as [s'|] eqn:X; [|discriminate].
    destruct (wordy t && starts is_word s') eqn:W; [discriminate|]. apply prefixed_inv in X. destruct (skip_split s) as (g & B' & ES). rewrite ES, X.
    apply laid_cons; auto. intros WT. rewrite WT in W. exact W.
Qed.

Definition boundb (b : bound) : bool := match b with BRef n => value_word n | _ => true end.
Definition rangeb (r : option range) : bool :=
  match r with
  | Some r => boundb (lower r) && boundb (upper r) && negb (match lower r with BMax => true | _ => false end) &&
              negb (match upper r with BMin => true | _ => false end)
  | None => true
  end.
Definition litb (l : Meaning.lit) : bool :=
  match l with LHex h => forallb (fun d => (0 <=? d) && (d <? 16))%Z h | LItem n | LRef n => value_word n | _ => true end.
Definition statusb (choice : bool) (s : status) : bool :=
  match s with Mandatory => true | Optional => negb choice | Default l => negb choice && litb l end.
Definition some {A} (l : list A) : bool := match l with [] => false | _ => true end.
Fixpoint writableb (t : asn) : bool :=
  let one (choice : bool) (p : part asn) := match p with Part n s t => value_word n && writableb t && statusb choice s end in
  let body choice (ext : bool) root adds groups :=
    forallb (one choice) root && forallb (one choice) adds && forallb (fun g => some g && forallb (one choice) g) groups &&
    (ext || negb (some adds) && negb (some groups)) in
  match t with
  | AInteger r | AOctets r | ABitstr r => rangeb r
  | ABoolean => true
  | AEnumer root adds => some root && forallb value_word root && match adds with Some l => forallb value_word l | None => true end
  | ASequence ext root adds groups => body false ext root adds groups
  | AChoice ext root adds groups => some root && body true ext root adds groups
  | ASeqOf r e => rangeb r && writableb e
  | ARef n (Some _) => false
  | ARef n None => type_word n && negb (mem n reserved)
  end.
Definition assignmentb (a : assignment) : bool :=
  match a with
  | TypeA n t => type_word n && writableb t && match t with ARef m _ => negb (mem m builtin_types) | _ => true end
  | ValueA n t v => value_word n && writableb t && litb v
  end.

Lemma rangeb_ok : forall r, rangeb r = true -> good_range r.
Proof.
  intros [r|] E; [|exact Logic.I]. cbn [rangeb] in E. rewrite !andb_true_iff in E. destruct E as [[[A C] L] U]. unfold good_range.
  repeat split; [now destruct (lower r)|now destruct (upper r)|intros X; now rewrite X in L|intros X; now rewrite X in U].
Qed.
Lemma litb_ok : forall l, litb l = true -> good_lit l.
Proof.
  intros [z|b|s|h|n|n] E; cbn [litb good_lit] in *; auto. apply Forall_forall. intros d IN. rewrite forallb_forall in E. specialize (E d IN).
  apply andb_prop in E as [A C]. lia.
Qed.
Lemma statusb_ok : forall c s, statusb c s = true -> good_status c s.
Proof.
  intros c [| |l] E; cbn [statusb good_status] in *; auto; [now apply negb_true_iff|]. apply andb_prop in E as [A C]. split; [now apply negb_true_iff|now apply litb_ok].
Qed.
Lemma words_ok : forall (f : string -> bool) l, forallb f l = true -> Forall (fun n => f n = true) l.
Proof. intros f l E. apply Forall_forall. now apply forallb_forall. Qed.
Lemma writableb_ok : forall t, writableb t = true -> writable t.
Proof.
  assert (forall c l, Forall (fun p : part asn => match p with Part _ _ t => writableb t = true -> writable t end) l ->
    forallb (fun p => match p with Part n s t => value_word n && writableb t && statusb c s end) l = true -> Forall (writable_part c) l) as PS.
  { intros c l F. induction F as [|[n s t] l P F IH]; intros E; [constructor|]. cbn [forallb] in E. apply andb_prop in E as [E1 E2]. rewrite !andb_true_iff in E1.
    destruct E1 as [[V W] G]. constructor; [|now apply IH]. constructor; auto. now apply statusb_ok. }
  assert (forall c l, Forall (Forall (fun p : part asn => match p with Part _ _ t => writableb t = true -> writable t end)) l ->
    forallb (fun g => some g && forallb (fun p => match p with Part n s t => value_word n && writableb t && statusb c s end) g) l = true ->
    Forall (fun g => g <> [] /\ Forall (writable_part c) g) l) as GS.
  { intros c l F. induction F as [|g l P F IH]; intros E; [constructor|]. cbn [forallb] in E. apply andb_prop in E as [E1 E2]. apply andb_prop in E1 as [N G].
    constructor; [|now apply IH]. split; [now destruct g|now apply PS]. }
  assert (forall (A B' : Type) (x : list A) (y : list B') ext, ext || negb (some x) && negb (some y) = true -> ext = false -> x = [] /\ y = []) as EX.
  { intros A B' x y ext E ->. cbn [orb] in E. apply andb_prop in E as [E1 E2]. split; [now destruct x|now destruct y]. }
  assert (forall root adds groups, (forall p : part asn, In p (all_parts root adds groups) -> writableb (p_type p) = true -> writable (p_type p)) ->
    Forall (fun p : part asn => match p with Part _ _ t => writableb t = true -> writable t end) root /\
    Forall (fun p : part asn => match p with Part _ _ t => writableb t = true -> writable t end) adds /\
    Forall (Forall (fun p : part asn => match p with Part _ _ t => writableb t = true -> writable t end)) groups) as AP.
  { intros root adds groups IH. unfold all_parts in IH.
    split; [|split]; apply Forall_forall.
    - intros [n s t] IN. apply (IH (Part n s t)). rewrite !in_app_iff. auto.
    - intros [n s t] IN. apply (IH (Part n s t)). rewrite !in_app_iff. auto.
    - intros g IG. apply Forall_forall. intros [n s t] IN. apply (IH (Part n s t)). rewrite !in_app_iff, in_concat. right. right. eauto. }
  intros t. induction t as [r| |r|r|root adds|ext root adds groups IH|ext root adds groups IH|r e IH|n r] using asn_rect'; intros E; cbn [writableb] in E.
  - constructor. now apply rangeb_ok.
  - constructor.
  - constructor. now apply rangeb_ok.
  - constructor. now apply rangeb_ok.
  - rewrite !andb_true_iff in E. destruct E as [[A C] D']. constructor; [now destruct root|now apply words_ok|]. intros l ->. now apply words_ok.
  - rewrite !andb_true_iff in E. destruct E as [[[A C] D'] X]. destruct (AP _ _ _ IH) as (IR & IA & IG). constructor; auto. now apply EX.
  - rewrite !andb_true_iff in E. destruct E as [N [[[A C] D'] X]]. destruct (AP _ _ _ IH) as (IR & IA & IG). constructor; auto; [now destruct root|now apply EX].
  - apply andb_prop in E as [A C]. constructor; [now apply rangeb_ok|auto].
  - destruct r; [discriminate|]. apply andb_prop in E as [A C]. constructor; [exact A|]. apply negb_true_iff in C. intros IN. apply mem_spec in IN. congruence.
Qed.
Lemma assignmentb_ok : forall a, assignmentb a = true -> writable_assignment a.
Proof.
  intros [n t|n t v] E; cbn [assignmentb writable_assignment] in *; rewrite !andb_true_iff in E; destruct E as [[A C] D']; (split; [exact A|]); (split; [now apply writableb_ok|]).
  - intros m r ->. apply negb_true_iff in D'. intros IN. apply mem_spec in IN. congruence.
  - now apply litb_ok.
Qed.

Definition is_text (tags : bool) (name : string) (S : schema) (s : string) : bool :=
  type_word name && forallb assignmentb S && match lay (module_toks tags name S) s with Some _ => true | None => false end.
Lemma is_text_ok : forall tags name S s, is_text tags name S s = true -> exists r, text_of S s r.
Proof.
  intros tags name S s E. unfold is_text in E. rewrite !andb_true_iff in E. destruct E as [[W F] L]. destruct (lay _ s) as [r|] eqn:X; [|discriminate].
  exists r, (module_toks tags name S). assert (spells S (module_toks tags name S)) as SP.
  { apply written_module; [exact W|]. apply Forall_forall. intros a IN. apply assignmentb_ok. rewrite forallb_forall in F. now apply F. }
  split; [exact SP|]. apply lay_ok; [|exact X]. now apply (proper_module S).
Qed.

(** Without comments. *)
Fixpoint drop_line (s : string) : option string :=
  match s with
  | String c r => if line_end c then Some s else if hyphens s then None else drop_line r
  | EmptyString => Some ""
  end.
Fixpoint stripped (n : nat) (s : string) : option string :=
  match n, s with
  | _, EmptyString => Some ""
  | 0, _ => None
  | Datatypes.S n, String c r =>
    if hyphens s then match r with String _ r => match drop_line r with Some r => stripped n r | None => None end | _ => None end
    else option_map (String c) (stripped n r)
  end.
Lemma drop_ok : forall s r, drop_line s = Some r -> exists body, s = (body ++ r)%string /\
  all_chars (fun c => negb (line_end c)) body = true /\ no_hyphens body = true /\ (r = "" \/ starts line_end r = true).
Proof.
  induction s as [|c s IH]; intros r E; cbn [drop_line] in E.
  - injection E as <-. exists "". auto.
  - destruct (line_end c) eqn:LE; [injection E as <-; exists ""; auto|]. destruct (hyphens (String c s)) eqn:HY; [discriminate|].
    destruct (IH r E) as (body & -> & A & N & X). exists (String c body). split; [reflexivity|]. split; [cbn [all_chars]; rewrite LE; exact A|]. split; [|exact X].
    cbn [no_hyphens]. rewrite N, andb_true_r. apply negb_true_iff. destruct body as [|d body]; [|exact HY].
    cbn [hyphens]. destruct c as [[] [] [] [] [] [] [] []]; reflexivity.
Qed.
Lemma stripped_ok : forall n s t, stripped n s = Some t -> strip s t.
Proof.
  induction n as [|n IH]; intros s t E; destruct s as [|c s]; cbn [stripped] in E; try discriminate; [injection E as <-; constructor|injection E as <-; constructor|].
  destruct (hyphens (String c s)) eqn:HY.
  - assert (c = "-"%char /\ exists s', s = String "-" s') as (-> & s' & ->).
    { destruct c as [[] [] [] [] [] [] [] []]; try discriminate. destruct s as [|d s']; [discriminate|].
      destruct d as [[] [] [] [] [] [] [] []]; try discriminate. split; [reflexivity|now exists s']. }
    destruct (drop_line s') as [r|] eqn:DR; [|discriminate]. destruct (drop_ok _ _ DR) as (body & -> & A & N & X).
    apply (strip_note body r t A N X). now apply IH.
  - destruct (stripped n s) as [u|] eqn:U; [|discriminate]. injection E as <-. apply strip_char; [exact HY|now apply IH].
Qed.

(** ** The schemas of the project's tests *)

(** Their texts are texts of the schemas of GoldenSchemas.v, so C50 says what
    GrammarTests.v computes. *)
Definition projects : list (bool * string * schema * string) := [
  (true, "ChoiceSimple", asn_Choice_Simple, text_Choice_Simple);
  (true, "ComponentTypes", asn_ComponentTypes, text_ComponentTypes);
  (true, "ComponentTypesContainingComponent", asn_ComponentTypes_containing_ComponentTypes, text_ComponentTypes_containing_ComponentTypes);
  (false, "ComponentTypesExtension", asn_ComponentTypes_extensionAddition, text_ComponentTypes_extensionAddition);
  (true, "ExtensionAdditionGroups", asn_ComponentTypes_extensionAdditionGroup, text_ComponentTypes_extensionAdditionGroup);
  (false, "ComponentTypesExtension", asn_ComponentTypes_extensionMarker, text_ComponentTypes_extensionMarker);
  (true, "DefinedTypeCheck", asn_DefinedType_Simple, text_DefinedType_Simple);
  (true, "SequenceSimpleTypes", asn_Sequence_Default, text_Sequence_Default);
  (false, "MySchema", asn_Sequence_Mixed, text_Sequence_Mixed);
  (false, "SequenceSimpleTypes", asn_Sequence_Simple, text_Sequence_Simple);
  (true, "SimpleProtocol", asn_SimpleProtocol, text_SimpleProtocol);
  (false, "SimpleTypes", asn_SimpleTypes, text_SimpleTypes);
  (false, "SimpleTypes", asn_Types_constrained, text_Types_constrained);
  (false, "TypesContainingConstrained", asn_Types_containing_constrained_types, text_Types_containing_constrained_types)].
Lemma projects_texts : forallb (fun p => match p with (tags, name, Sc, s) => is_text tags name Sc s end) projects = true.
Proof. vm_compute. reflexivity. Qed.
Example C50_projects : Forall (fun p => match p with (_, _, Sc, s) => exists r, text_of Sc s r end) projects.
Proof.
  pose proof projects_texts as P. rewrite forallb_forall in P. apply Forall_forall. intros [[[tags name] Sc] s] IN. specialize (P _ IN). exact (is_text_ok _ _ _ _ P).
Qed.
Example C50_project_module : exists r' n0 objects out g, (forall n, n0 <= n -> parse_module n text_SimpleProtocol = Match r' objects) /\
  emit objects = Ok out /\ Exec.run out = Ok g /\
  exists T, binds g "SimpleMessage" T.
Proof.
  assert (exists r, text_of asn_SimpleProtocol text_SimpleProtocol r) as (r & T).
  { apply (is_text_ok true "SimpleProtocol"). vm_compute. reflexivity. }
  destruct (C50_reading_partial _ _ _ T) as (r' & n0 & RD). destruct (checked_fine 20 asn_SimpleProtocol) as [F O]; [vm_compute; reflexivity|].
  destruct (C49_modules_partial _ F O) as (out & g & E & X & TY & _). exists r', n0, (map parsed_as asn_SimpleProtocol), out, g.
  split; [exact RD|]. split; [exact E|]. split; [exact X|]. destruct (TY "SimpleMessage" _ (or_introl eq_refl)) as (T' & _ & BN). exists T'. exact BN.
Qed.

(** ** A text with comments *)

Definition noted : string :=
"-- A module, with comments.
Noted	DEFINITIONS AUTOMATIC TAGS::=BEGIN  -- no blank is needed around ::=
  Top-Level ::= CHOICE{one Inner,two-b	BOOLEAN, ... ,
     late SEQUENCE (SIZE(0..most,...)) OF Small}
  Inner ::= SEQUENCE {  -- a SEQUENCE { with a comment
     a INTEGER(least..most,...)DEFAULT least,
     b Colour DEFAULT dark-blue,
     c SEQUENCE { d OCTET STRING (SIZE ( 1 .. 3 ) )DEFAULT 'AB'H } OPTIONAL,
     ..., e BIT STRING DEFAULT '101'B,
     [[ f Small OPTIONAL, g ENUMERATED {x,y,...,z} ]]
  }
  Small ::= Number   Number ::= INTEGER (MIN .. least)
  -- values
  most INTEGER ::= 40
  Colour ::= ENUMERATED { red, dark-blue }
  least INTEGER::=-3
  some-bits BIT STRING ::= 'C3'H
END -- of the module".
Definition in_order : schema :=
  match sample with
  | [a; b; c; d; e; f; g; h] => [a; b; c; e; d; f; g; h]
  | _ => []
  end.
Definition unnoted := Eval vm_compute in match stripped 2000 noted with Some t => t | None => "" end.
Example C50_noted : exists t r, strip noted t /\ plain_lines noted /\ text_of in_order t r /\ fine_schema in_order /\ sortable in_order.
Proof.
  exists unnoted. destruct (is_text_ok true "Noted" in_order unnoted) as (r & T); [vm_compute; reflexivity|]. exists r.
  split; [apply (stripped_ok 2000); vm_compute; reflexivity|]. split; [vm_compute; reflexivity|]. split; [exact T|]. apply (checked_fine 20). vm_compute. reflexivity.
Qed.
Example C50_noted_module : exists r' n0 objects out g, (forall n, n0 <= n -> read_schema n noted = Match r' objects) /\
  emit objects = Ok out /\ Exec.run out = Ok g /\ exists T, binds g "Top_Level" T.
Proof.
  destruct C50_noted as (t & r & ST & P & T & F & O). destruct (C50_text_to_module_partial _ _ _ _ ST P T F O) as (r' & n0 & objects & out & g & RD & E & X & TY & _).
  exists r', n0, objects, out, g. split; [exact RD|]. split; [exact E|]. split; [exact X|]. destruct (TY "Top-Level" _ (or_introl eq_refl)) as (T' & _ & BN). exists T'. exact BN.
Qed.

(** ** A text with named numbers and named bits *)

Definition marked : string :=
"M DEFINITIONS ::= BEGIN A ::= INTEGER { one(1), less (-2), most(top) } (1..top)
 top INTEGER{most (9)} ::= 9  B ::= BIT STRING {first(0),second ( 1 )}(SIZE(2)) END".
Definition marked_schema : schema :=
  [TypeA "A" (AInteger (Some (Range (BNum 1) (BRef "top") false))); ValueA "top" (AInteger None) (LNum 9);
   TypeA "B" (ABitstr (Some (Range (BNum 2) (BNum 2) false)))].
Definition marked_toks : list token :=
  [R "M"; K "DEFINITIONS"; K "::="; K "BEGIN"] ++
  ([R "A"; K "::="; K "INTEGER"; K "{"; I "one"; K "("; D "1"; K ")"; K ","; I "less"; K "("; K "-"; D "2"; K ")"; K ",";
    I "most"; K "("; I "top"; K ")"; K "}"; K "("; D "1"; K ".."; I "top"; K ")"] ++
   [I "top"; K "INTEGER"; K "{"; I "most"; K "("; D "9"; K ")"; K "}"; K "::="; D "9"] ++
   [R "B"; K "::="; K "BIT STRING"; K "{"; I "first"; K "("; D "0"; K ")"; K ","; I "second"; K "("; D "1"; K ")"; K "}";
    K "("; K "SIZE"; K "("; D "2"; K ")"; K ")"]) ++ [K "END"].
Example C50_marked : text_of marked_schema marked "" /\ fine_schema marked_schema /\ sortable marked_schema.
Proof.
  split; [|apply (checked_fine 20); vm_compute; reflexivity]. exists marked_toks.
  assert (spells marked_schema marked_toks) as SP.
  2:{ split; [exact SP|]. apply lay_ok; [now apply (proper_module marked_schema)|vm_compute; reflexivity]. }
  apply (sp_module false); [reflexivity|].
  apply (sp_assignment _ _ _ ([I "top"; K "INTEGER"; K "{"; I "most"; K "("; D "9"; K ")"; K "}"; K "::="; D "9"] ++ _)).
  { apply sp_type; [reflexivity| |discriminate].
    apply (sp_integer _ (K "{" :: [I "one"; K "("; D "1"; K ")"; K ","; I "less"; K "("; K "-"; D "2"; K ")"; K ","; I "most"; K "("; I "top"; K ")"] ++ [K "}"])).
    - constructor. apply (sp_mark_more _ [I "one"; K "("; D "1"; K ")"]); [now apply (sp_mark _ "one" 1)|].
      apply (sp_mark_more _ [I "less"; K "("; K "-"; D "2"; K ")"]); [now apply (sp_mark _ "less" (-2))|]. constructor. now constructor.
    - apply (sp_values _ [D "1"; K ".."; I "top"]). apply (sp_range (Range (BNum 1) (BRef "top") false)); cbn; trivial; discriminate. }
  apply sp_assignment.
  { apply (sp_value "top" (AInteger None) (LNum 9) (K "INTEGER" :: (K "{" :: [I "most"; K "("; D "9"; K ")"] ++ [K "}"]) ++ [])); [reflexivity| |exact Logic.I].
    apply sp_integer; [|constructor]. constructor. constructor. now apply (sp_mark _ "most" 9). }
  change [R "B"; K "::="; K "BIT STRING"; K "{"; I "first"; K "("; D "0"; K ")"; K ","; I "second"; K "("; D "1"; K ")"; K "}";
    K "("; K "SIZE"; K "("; D "2"; K ")"; K ")"] with ((R "B" :: K "::=" :: K "BIT STRING" :: (K "{" :: [I "first"; K "("; D "0"; K ")"; K ","; I "second"; K "("; D "1"; K ")"] ++ [K "}"]) ++
      [K "("; K "SIZE"; K "("; D "2"; K ")"; K ")"]) ++ []).
  apply sp_assignment; [|constructor]. apply sp_type; [reflexivity| |discriminate]. apply sp_bitstr.
  - constructor. apply (sp_mark_more _ [I "first"; K "("; D "0"; K ")"]); [apply (sp_mark _ "first" 0); [reflexivity|lia]|]. constructor. apply (sp_mark _ "second" 1); [reflexivity|lia].
  - apply (sp_size _ [D "2"]). apply (sp_single (Range (BNum 2) (BNum 2) false)); cbn; trivial; discriminate.
Qed.
