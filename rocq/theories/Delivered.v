(** The whole of parse_asn1_schema: from a text to a file that Python imports
    (property C76). *)
From Coq Require Import ZArith List String Ascii Bool Arith Lia.
Import ListNotations.
From Verif Require Import PyBase Schema Encoder Decoder Spec Reading Valid X691 Safe Standard Peers Names Generator Emit Exec Meaning Modules Generated Transcript Leftovers Printed Printing
  GoldenVectors GoldenSchemas TextOut Imported FineCheck Documented Files Grammar Texts Tokens ReadTexts GrammarTests Written WrittenTests Agreement Spellings Parties.
Open Scope string_scope.
Open Scope list_scope.
Open Scope nat_scope.

(** [delivers old s f g]: with the class variables [old] left by earlier calls,
    parse_asn1_schema reads the text [s] and writes one file into the folder [f],
    named after the first item of the text; importing that file gives the names
    [g].  Whatever else is on the disk. *)
Definition delivers (old : gstate) (s f : string) (g : space) : Prop :=
  exists n0 st, forall n, n0 <= n -> exists m, type_word m = true /\ heads (of_codes (remove_comments (to_codes s))) m /\
    forall opens d, opens (path_join f (m ++ ".py")) = true ->
      exists d' text, call n old s (Some f) opens d = (Returned st None, d') /\
        d' (path_join f (m ++ ".py")) = Some text /\ import text = Ok g /\
        forall q, q <> path_join f (m ++ ".py") -> d' q = d q.

(** What earlier calls may have left behind (C57): no type named like a type of the
    library's own, no constant named like a default that is not one. *)
Definition harmless (old : gstate) (S : schema) : Prop :=
  (forall n, In n (map fst (types old)) -> ~ In n inner_names) /\
  (forall a d, In a S -> In d (fallbacks (parsed_as a)) -> ~ In d (consts old)).

(** Every text of a schema of C49 becomes a file that Python imports, and there
    every name is bound to what it means. *)
Theorem C76_file_partial : forall S s t r f old, strip s t -> plain_lines s -> text_of S t r -> fine_schema S -> sortable S ->
  harmless old S -> f <> "" ->
  exists g, delivers old s f g /\
    (forall n t, In (TypeA n t) S -> exists T, means S t T /\ binds g (underscore n) T) /\
    (forall n t l, In (ValueA n t l) S -> exists T v, lookup (underscore n) g = Some (OInst T v) /\ lit_is S t l v).
Proof.
  intros S s t r f old ST P T FS SS (HT & HC) F.
  destruct (C75_text_to_text_partial S s t r ST P T FS SS) as (r' & n0 & objects & out & g & RD & E & IM & X).
  destruct (C50_comments_partial S s t r ST P T) as (r1 & n1 & RD1).
  assert (Q : objects = map parsed_as S).
  { specialize (RD (n0 + n1) ltac:(lia)). specialize (RD1 (n0 + n1) ltac:(lia)). congruence. }
  subst objects. clear RD1. exists g. split; [|exact X].
  destruct (C57_second_schema_partial old S FS SS HT HC) as (st & out' & _ & E1 & E2 & _). assert (out' = out) as -> by congruence.
  exists n0, st. intros n Ln. pose proof (named_reads n s) as NR. rewrite (RD (Datatypes.S n) ltac:(lia)) in NR.
  destruct (read_named n s) as [r2 [m ps]| |] eqn:RN; try discriminate. injection NR as <- <-.
  destruct (named_heads _ _ _ _ _ RN) as (TW & HD). exists m. split; [exact TW|]. split; [exact HD|].
  intros opens d O. exists (stored d (path_join f (m ++ ".py")) (module_text out)), (module_text out).
  split.
  - unfold call. rewrite RN, E2. destruct f as [|c f]; [now destruct F|]. cbv zeta. now rewrite O.
  - unfold stored. split; [now rewrite String.eqb_refl|]. split; [exact IM|]. intros q N. now rewrite (proj2 (String.eqb_neq _ _) N).
Qed.

(** The first call of a process leaves nothing behind to begin with. *)
Lemma harmless_fresh S : harmless fresh S.
Proof. split; [intros n []|intros a d _ _ []]. Qed.

Lemma delivers_one old s f g g' : delivers old s f g -> delivers old s f g' -> g = g'.
Proof.
  intros (n0 & st & DL) (n1 & st' & DL'). destruct (DL (n0 + n1) ltac:(lia)) as (m & TW & HD & W).
  destruct (DL' (n0 + n1) ltac:(lia)) as (m' & TW' & HD' & W').
  destruct (W (fun _ => true) (fun _ => None) eq_refl) as (d1 & x & C1 & D1 & I1 & _).
  destruct (W' (fun _ => true) (fun _ => None) eq_refl) as (d2 & y & C2 & D2 & I2 & O2).
  rewrite C1 in C2. injection C2 as <- <-.
  destruct (String.eqb_spec (path_join f (m ++ ".py")) (path_join f (m' ++ ".py"))) as [EQ|NE].
  - rewrite EQ in D1. congruence.
  - rewrite (O2 _ NE) in D1. discriminate.
Qed.

(** The names are those of [a_module] (C52, C66, C70). *)
Lemma module_delivers S s t r f old g : strip s t -> plain_lines s -> text_of S t r -> fine_schema S -> sortable S ->
  harmless old S -> f <> "" -> a_module s g -> delivers old s f g.
Proof.
  intros ST P T FS SS HL F MG. destruct (C76_file_partial S s t r f old ST P T FS SS HL F) as (g' & DL & _).
  assert (EQ : g = g'); [|now subst].
  destruct (C75_written_text S s t r g ST P T (distinct_objects S FS) MG) as (r1 & n1 & objects & out & RD & E & _ & IM).
  destruct HL as (HT & HC). destruct (C57_second_schema_partial old S FS SS HT HC) as (st & out' & _ & E1 & E2 & _).
  destruct (C50_comments_partial S s t r ST P T) as (r2 & n2 & RD2).
  assert (Q : objects = map parsed_as S).
  { specialize (RD (n1 + n2) ltac:(lia)). specialize (RD2 (n1 + n2) ltac:(lia)). congruence. }
  subst objects. assert (out' = out) as -> by congruence.
  destruct DL as (n0 & st' & DL). destruct (DL (n0 + n2) ltac:(lia)) as (m & TW & HD & W).
  destruct (W (fun _ => true) (fun _ => None) eq_refl) as (d1 & x & C1 & D1 & I1 & _).
  pose proof (named_reads (n0 + n2) s) as NR. rewrite (RD2 (Datatypes.S (n0 + n2)) ltac:(lia)) in NR.
  unfold call in C1. destruct (read_named (n0 + n2) s) as [r3 [m' ps]| |] eqn:RN; try discriminate. injection NR as <- <-.
  rewrite E2 in C1. destruct f as [|c f]; [now destruct F|]. cbv zeta in C1. injection C1 as _ <-.
  unfold stored in D1. destruct (String.eqb _ _); [|discriminate]. congruence.
Qed.

(** Two parties, each with a text of its own of the schema, a folder, and a process
    in which other schemas may have been read before.  Each imports the file it
    gets.  The checks on the one's class tell that every message reaches the other.
    Missing: the texts outside C50. *)
Theorem C76_two_parties_partial : forall S S' s s' t t' r r' f f' old old',
  strip s t -> plain_lines s -> text_of S t r -> fine_schema S -> sortable S -> harmless old S -> f <> "" ->
  strip s' t' -> plain_lines s' -> text_of S' t' r' -> fine_schema S' -> sortable S' -> harmless old' S' -> f' <> "" ->
  exists g g', delivers old s f g /\ delivers old' s' f' g' /\
  forall n u n' u', In (TypeA n u) S -> In (TypeA n' u') S' -> Spellings.spells S S' u u' ->
  exists T T', binds g (underscore n) T /\ binds g' (underscore n') T' /\
  (trusted T = true -> forall v, message T v ->
     exists bs v', encode T v = Ok bs /\ PER T (reading T v) bs /\ decode bs T' = Ok v' /\ reading T v' = reading T v).
Proof.
  intros S S' s s' t t' r r' f f' old old' ST PL TX FS SS HL F ST' PL' TX' FS' SS' HL' F'.
  destruct (C70_two_texts_partial S S' s s' t t' r r' ST PL TX FS SS ST' PL' TX' FS' SS') as (g & g' & MG & MG' & X).
  exists g, g'. split; [now apply (module_delivers S s t r)|]. split; [now apply (module_delivers S' s' t' r')|exact X].
Qed.

(** The packets of Parties.v, in a process that has read the README's protocol. *)
Definition left_behind : gstate := Eval vm_compute in
  match emit_after fresh (map parsed_as GoldenSchemas.asn_SimpleProtocol) with Ok (st, _) => st | Err _ => fresh end.

Example C76_case : exists g, delivers left_behind packets_text "out" g /\ exists T, binds g "Packet" T /\ trusted T = true.
Proof.
  destruct C70_texts_case as (g & T & MG & BN & TR & _). exists g. split; [|now exists T].
  destruct (is_text_ok true "Packets" packets packets_plain) as (r & TX); [vm_compute; reflexivity|].
  destruct (checked_fine 20 packets) as [FS SS]; [vm_compute; reflexivity|].
  apply (module_delivers packets packets_text packets_plain r); try assumption; try discriminate.
  - apply (stripped_ok 2000). vm_compute. reflexivity.
  - vm_compute. reflexivity.
  - split.
    + intros n IN. unfold left_behind in IN. cbn [types map fst In] in IN. intros J. cbn [inner_names In] in J.
      repeat (destruct IN as [<-|IN]; [repeat (destruct J as [J|J]; [discriminate J|]); destruct J|]). destruct IN.
    + intros a d _ _. cbn [left_behind consts]. intros [].
Qed.

(** A text has one first item. *)
Lemma words_meet : forall m m' r r', all_chars is_word m = true -> all_chars is_word m' = true -> starts is_word r = false -> starts is_word r' = false ->
  (m ++ r)%string = (m' ++ r')%string -> m = m'.
Proof.
  induction m as [|c m IH]; intros [|c' m'] r r' A A' W W' E; cbn [append all_chars] in *.
  - reflexivity.
  - subst r. cbn [starts] in W. apply andb_prop in A' as [A' _]. congruence.
  - subst r'. cbn [starts] in W'. apply andb_prop in A as [A _]. congruence.
  - injection E as <- E. apply andb_prop in A as [_ A]. apply andb_prop in A' as [_ A']. f_equal. exact (IH m' r r' A A' W W' E).
Qed.
Lemma word_first m : type_word m = true -> all_chars is_word m = true /\ exists c w, m = String c w /\ is_white c = false.
Proof.
  intros TW. split; [apply name_chars; now rewrite TW|]. destruct m as [|c w]; [discriminate|]. exists c, w. split; [reflexivity|].
  cbn [type_word] in TW. apply andb_prop in TW as [U _]. destruct (is_white c) eqn:W; [|reflexivity]. exfalso. revert U W.
  destruct c as [[|] [|] [|] [|] [|] [|] [|] [|]]; vm_compute; discriminate.
Qed.
Lemma heads_unique s m m' : type_word m = true -> type_word m' = true -> heads s m -> heads s m' -> m = m'.
Proof.
  intros TW TW' (ws & r & E & W & ST) (ws' & r' & E' & W' & ST'). destruct (word_first m TW) as (A & c & w & Em & NW).
  destruct (word_first m' TW') as (A' & c' & w' & Em' & NW'). revert ws' s E E' W W'. induction ws as [|x ws IH]; intros [|y ws'] s E E' W W'; cbn [append all_chars] in *.
  - apply (words_meet m m' r r'); auto. congruence.
  - subst s m. cbn [append] in E'. injection E' as -> _. apply andb_prop in W' as [W' _]. congruence.
  - subst s m'. cbn [append] in E'. injection E' as -> _. apply andb_prop in W as [W _]. congruence.
  - subst s. injection E' as <- E'. apply andb_prop in W as [_ W]. apply andb_prop in W' as [_ W']. exact (IH ws' _ eq_refl E' W W').
Qed.

Lemma file_written S s t r old st out m : strip s t -> plain_lines s -> text_of S t r -> emit_after old (map parsed_as S) = Ok (st, out) ->
  type_word m = true -> heads (of_codes (remove_comments (to_codes s))) m ->
  exists n0, forall n f opens d, n0 <= n -> f <> "" -> opens (path_join f (m ++ ".py")) = true ->
    call n old s (Some f) opens d = (Returned st None, stored d (path_join f (m ++ ".py")) (module_text out)).
Proof.
  intros ST PL TX E TW HD. destruct (C50_comments_partial S s t r ST PL TX) as (r1 & n1 & RD). exists n1. intros n f opens d Ln F O.
  pose proof (named_reads n s) as NR. rewrite (RD (Datatypes.S n) ltac:(lia)) in NR.
  destruct (read_named n s) as [r2 [m' ps]| |] eqn:RN; try discriminate. injection NR as <- <-.
  destruct (named_heads _ _ _ _ _ RN) as (TW' & HD'). rewrite (heads_unique _ _ _ TW TW' HD HD') in *.
  unfold call. rewrite RN, E. destruct f as [|c f]; [now destruct F|]. cbv zeta. now rewrite O.
Qed.

(** The README's example from beginning to end: its text, the file SimpleProtocol.py
    as it is in the test suite, and the messages. *)
Theorem C76_readme : exists n0 st g, forall n f opens d, n0 <= n -> f <> "" -> opens (path_join f "SimpleProtocol.py") = true ->
  exists d', call n fresh text_SimpleProtocol (Some f) opens d = (Returned st None, d') /\
    d' (path_join f "SimpleProtocol.py") = Some module_SimpleProtocol /\ import module_SimpleProtocol = Ok g /\
    binds g "SimpleMessage" simple_message /\ told_apart simple_message.
Proof.
  destruct C75_readme as (g & IM & BN & TA).
  destruct (is_text_ok true "SimpleProtocol" asn_SimpleProtocol text_SimpleProtocol) as (r & TX); [vm_compute; reflexivity|].
  assert (ST : strip text_SimpleProtocol text_SimpleProtocol) by (apply (stripped_ok 2000); vm_compute; reflexivity).
  assert (PL : plain_lines text_SimpleProtocol) by (vm_compute; reflexivity).
  assert (EM : match emit_after fresh (map parsed_as asn_SimpleProtocol) with Ok (_, out) => String.eqb (module_text out) module_SimpleProtocol | Err _ => false end = true)
    by (vm_compute; reflexivity).
  destruct (emit_after fresh (map parsed_as asn_SimpleProtocol)) as [[st out]|] eqn:E; [|discriminate]. apply String.eqb_eq in EM.
  assert (HD : heads (of_codes (remove_comments (to_codes text_SimpleProtocol))) "SimpleProtocol").
  { exists "", (substring 14 4000 (of_codes (remove_comments (to_codes text_SimpleProtocol)))). split; [vm_compute; reflexivity|]. split; [reflexivity|vm_compute; reflexivity]. }
  destruct (file_written asn_SimpleProtocol _ _ r fresh st out "SimpleProtocol" ST PL TX E eq_refl HD) as (n0 & W).
  exists n0, st, g. intros n f opens d Ln F O. exists (stored d (path_join f "SimpleProtocol.py") module_SimpleProtocol).
  split; [rewrite <- EM; exact (W n f opens d Ln F O)|]. unfold stored. split; [now rewrite String.eqb_refl|]. auto.
Qed.
