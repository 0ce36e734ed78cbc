(** The file parse_asn1_schema writes when it is given a folder (property C64). *)

From Coq Require Import ZArith List String Ascii Bool Arith Lia.
Import ListNotations.
From Verif Require Import PyBase Generator Emit Exec Meaning Fast Texts Tokens Settled GrammarFaults Transcript Leftovers Grammar.

Open Scope string_scope.
Open Scope list_scope.
Open Scope nat_scope.

(** * Model *)

(** The tokens of the module (module_def.py 197-208), before the parse action. *)
Definition g_parts : pexp := PAnd
  [PAnd [typereference]; lit "DEFINITIONS"; POr [PEmpty]; POr [lit "AUTOMATIC TAGS"; PEmpty]; POr [PEmpty];
   lit "::="; lit "BEGIN"; PGroup g_body; lit "END"].

(** parse_ModuleDefinition (parse_actions.py 14-21), the name and the body.
    [toks['ModuleIdentifier']] is the list of the tokens of the first element (an
    And keeps its tokens as a list), [0] the first of them. *)
Definition named_module (l : list tok) : res (string * list ptype) :=
  match l with
  | Str m :: _ =>
    let* body := act_on ToModule l in
    match only_objs body with Some ps => Ok (m, ps) | None => Err NotModelled end
  | _ => Err NotModelled
  end.

(** asn1PERser/__init__.py 13-14 as in Grammar.v, with the name. *)
Definition read_named (n : nat) (s : string) : outcome (string * list ptype) :=
  match run n true g_parts (expandtabs 0 (of_codes (remove_comments (to_codes s)))) with
  | Match r l => match named_module l with Ok x => Match r x | Err e => Raise e end
  | NoMatch => NoMatch
  | Raise e => Raise e
  end.

(** os.path.join of two parts (posixpath). *)
Fixpoint ends_with_slash (s : string) : bool :=
  match s with
  | EmptyString => false
  | String c EmptyString => Ascii.eqb c "/"
  | String _ r => ends_with_slash r
  end.
Definition path_join (a b : string) : string :=
  if starts (fun c => Ascii.eqb c "/") b then b
  else if String.eqb a "" || ends_with_slash a then (a ++ b)%string
  else (a ++ "/" ++ b)%string.

(** The files: what each path holds. *)
Definition disk : Type := string -> option string.
Definition stored (d : disk) (p t : string) : disk := fun q => if String.eqb q p then Some t else d q.

(** How a call ends: with a text or None; with a ParseException; with another
    exception; with an OSError of [open]. *)
Inductive answer : Type :=
| Returned (st : gstate) (t : option string)
| Unparsed
| Raised (e : exn)
| NotOpened.

(** create_python_template (module.py 24-29) behind parse_asn1_schema
    (asn1PERser/__init__.py 12-15).  [opens p]: the system lets the process open
    [p] for writing.  The text is complete before the file is opened; errors of
    [write] itself (a full disk) are not modelled. *)
Definition call (n : nat) (old : gstate) (s : string) (folder : option string) (opens : string -> bool) (d : disk) : answer * disk :=
  match read_named n s with
  | Match _ (m, ps) =>
    match emit_after old ps with
    | Err e => (Raised e, d)
    | Ok (st, out) =>
      let t := module_text out in
      match folder with
      | None | Some EmptyString => (Returned st (Some t), d)
      | Some f => let p := path_join f (m ++ ".py") in
                  if opens p then (Returned st None, stored d p t) else (NotOpened, d)
      end
    end
  | NoMatch => (Unparsed, d)
  | Raise e => (Raised e, d)
  end.

(** * The name *)

Lemma skip_tabs : forall s col, exists col', skip (expandtabs col s) = expandtabs col' (skip s).
Proof.
  assert (SP : forall k x, skip (append (string_of_list_ascii (repeat " "%char k)) x) = skip x).
  { induction k as [|k IH]; intros x; [reflexivity|]. cbn [repeat string_of_list_ascii append skip]. now rewrite IH. }
  induction s as [|c s IH]; intros col; [now exists col|]. cbn [expandtabs].
  destruct (Ascii.eqb_spec c (ascii_of_nat 9)) as [->|N].
  - rewrite SP. apply IH.
  - destruct (is_white c) eqn:W.
    + cbn [skip]. rewrite W. destruct (_ || _); cbn [skip]; rewrite W; apply IH.
    + exists col. cbn [skip]. rewrite W. cbn [expandtabs]. rewrite (proj2 (Ascii.eqb_neq _ _) N).
      destruct (_ || _); cbn [skip]; now rewrite W.
Qed.

Lemma word_not_white c : is_word c = true -> is_white c = false.
Proof. destruct c as [[] [] [] [] [] [] [] []]; vm_compute; congruence. Qed.

Lemma tab_word c r col : is_word c = true -> exists col', expandtabs col (String c r) = String c (expandtabs col' r).
Proof.
  intros W. cbn [expandtabs]. destruct (Ascii.eqb_spec c (ascii_of_nat 9)) as [->|N]; [discriminate|].
  destruct (_ || _); eauto.
Qed.

Lemma tab_other u col : starts is_word (expandtabs col u) = starts is_word u.
Proof.
  destruct u as [|c u]; [reflexivity|]. cbn [expandtabs]. destruct (Ascii.eqb_spec c (ascii_of_nat 9)) as [->|N].
  - cbn [starts]. assert (K : exists k, 8 - col mod 8 = S k).
    { exists (7 - col mod 8). pose proof (Nat.mod_upper_bound col 8). lia. }
    destruct K as (k & ->). reflexivity.
  - destruct (_ || _); reflexivity.
Qed.

Lemma tab_front m : all_chars is_word m = true -> forall u col b,
  expandtabs col u = (m ++ b)%string -> starts is_word b = false ->
  exists b', u = (m ++ b')%string /\ starts is_word b' = false.
Proof.
  induction m as [|c m IH]; intros M u col b E ST.
  - exists u. split; [reflexivity|]. cbn [append] in E. rewrite <- E in ST. now rewrite tab_other in ST.
  - cbn [all_chars] in M. apply andb_prop in M as (C & M). cbn [append] in E. destruct u as [|x u]; [discriminate|].
    assert (X : x = c).
    { cbn [expandtabs] in E. destruct (Ascii.eqb_spec x (ascii_of_nat 9)) as [->|N].
      - assert (K : exists k, 8 - col mod 8 = S k).
        { exists (7 - col mod 8). pose proof (Nat.mod_upper_bound col 8). lia. }
        destruct K as (k & K). rewrite K in E. cbn [repeat string_of_list_ascii append] in E. injection E as <- _. discriminate.
      - destruct (_ || _); now injection E as -> _. }
    subst x. destruct (tab_word c u col C) as (col' & T). rewrite T in E. injection E as E.
    destruct (IH M _ _ _ E ST) as (b' & -> & S'). exists b'. auto.
Qed.

Lemma skip_front s : exists ws, s = (ws ++ skip s)%string /\ all_chars is_white ws = true.
Proof.
  induction s as [|c s IH]; [now exists ""|]. cbn [skip]. destruct (is_white c) eqn:W.
  - destruct IH as (ws & E & A). exists (String c ws). cbn [append all_chars]. rewrite W. split; [congruence|exact A].
  - now exists "".
Qed.

(** The first item of a text: blanks, a word that begins with a capital letter, and
    no further letter, digit or hyphen. *)
Definition heads (s m : string) : Prop :=
  exists ws rest, s = (ws ++ m ++ rest)%string /\ all_chars is_white ws = true /\ starts is_word rest = false.

Lemma parts_name n s r l : run n true g_parts s = Match r l ->
  exists m l', l = Str m :: l' /\ type_word m = true /\ exists b, skip s = (m ++ b)%string /\ starts is_word b = false.
Proof.
  intros E. destruct n as [|n]; [discriminate|]. unfold g_parts in E. cbn [run step] in E.
  apply and_inv in E as (s1 & a1 & c1 & E1 & _ & ->). destruct n as [|n]; [discriminate|]. cbn [run step] in E1.
  apply and_inv in E1 as (s2 & a2 & c2 & E2 & E3 & ->). cbn [run_and] in E3. injection E3 as _ <-.
  apply run_term in E2 as (m & T & ->). rewrite !skip_skip in T. cbn [term] in T.
  apply word_inv in T as (c & w & -> & C & A & P & ST). exists (String c w), ([] ++ c1). split; [reflexivity|]. split.
  - cbn [type_word]. now rewrite C.
  - exists s2. auto.
Qed.

(** The name is the first item of the text without its comments. *)
Lemma named_heads n s r m ps : read_named n s = Match r (m, ps) ->
  type_word m = true /\ heads (of_codes (remove_comments (to_codes s))) m.
Proof.
  unfold read_named. set (u := of_codes _). intros E.
  destruct (run n true g_parts (expandtabs 0 u)) as [r0 l| |] eqn:X; try discriminate.
  destruct (parts_name _ _ _ _ X) as (m0 & l' & -> & TW & b & SK & ST). cbn [named_module] in E.
  destruct (act_on ToModule _) as [bd|]; [|discriminate]. cbn [bind] in E. destruct (only_objs bd); [|discriminate].
  injection E as <- <- <-. split; [exact TW|]. destruct (skip_tabs u 0) as (col & K). rewrite K in SK.
  destruct (tab_front m0) with (u := skip u) (col := col) (b := b) as (b' & E' & S'); auto.
  { apply name_chars. now rewrite TW. }
  destruct (skip_front u) as (ws & U & W). exists ws, b'. rewrite U, E'. auto.
Qed.

(** The objects are those of Grammar.v. *)
Lemma named_reads n s : match read_named n s with
  | Match r (m, ps) => read_schema (S n) s = Match r ps
  | NoMatch => read_schema (S n) s = NoMatch
  | Raise e => read_schema (S n) s = Raise e
  end.
Proof.
  unfold read_named, read_schema, parse_module, g_module. set (u := of_codes _). fold g_parts.
  assert (R : run n true g_parts (skip (expandtabs 0 u)) = run n true g_parts (expandtabs 0 u)).
  { destruct n; [reflexivity|]. cbn [run]. now rewrite skip_skip. }
  cbn [run]. change (step (run n) (run_or (run n)) n true (PAct ToModule g_parts) (skip (expandtabs 0 u)))
    with (match run n true g_parts (skip (expandtabs 0 u)) with
          | Match r l => match act_on ToModule l with Ok l' => Match r l' | Err x => Raise x end | o => o end).
  rewrite R. destruct (run n true g_parts (expandtabs 0 u)) as [r l| |e] eqn:X; auto.
  destruct (parts_name _ _ _ _ X) as (m & l' & -> & _). cbn [named_module].
  destruct (act_on ToModule _) as [bd|e] eqn:AC; cbn [bind]; auto. destruct (only_objs bd); auto.
Qed.

(** * C64 *)

(** What the call without a folder returns, the call with one writes: into one file
    of that folder, named after the first item of the text, and into no other.
    Nothing is written where the file cannot be opened. *)
Theorem C64_one_file : forall n old s opens d st t d0 f,
  call n old s None opens d = (Returned st (Some t), d0) -> f <> "" ->
  d0 = d /\ exists m, type_word m = true /\ heads (of_codes (remove_comments (to_codes s))) m /\
  let p := path_join f (m ++ ".py") in
  (opens p = true -> exists d', call n old s (Some f) opens d = (Returned st None, d') /\
     d' p = Some t /\ forall q, q <> p -> d' q = d q) /\
  (opens p = false -> call n old s (Some f) opens d = (NotOpened, d)).
Proof.
  intros n old s opens d st t d0 f E F. unfold call in *. destruct (read_named n s) as [r [m ps]| |] eqn:RN; try discriminate.
  destruct (named_heads _ _ _ _ _ RN) as (TW & HD). destruct (emit_after old ps) as [[st1 out]|]; [|discriminate].
  injection E as <- <- <-. split; [reflexivity|]. exists m. split; [exact TW|]. split; [exact HD|].
  destruct f as [|c f]; [now destruct F|]. cbv zeta. split; intros O; rewrite O; [|reflexivity].
  eexists. split; [reflexivity|]. unfold stored. split; [now rewrite String.eqb_refl|].
  intros q Q. now rewrite (proj2 (String.eqb_neq _ _) Q).
Qed.

(** A call that fails without a folder fails with one in the same way, and leaves
    every file alone. *)
Theorem C64_failures : forall n old s opens d a d0 f,
  call n old s None opens d = (a, d0) -> (forall st t, a <> Returned st t) ->
  call n old s f opens d = (a, d).
Proof.
  intros n old s opens d a d0 f E N. unfold call in *. destruct (read_named n s) as [r [m ps]| |]; [|now injection E as <- <-..].
  destruct (emit_after old ps) as [[st1 out]|]; [|now injection E as <- <-]. injection E as <- <-. now destruct (N st1 (Some (module_text out))).
Qed.

Lemma word_no_slash m : type_word m = true -> all_chars (fun c => is_word c || Ascii.eqb c ".") (m ++ ".py") = true /\
  starts (fun c => Ascii.eqb c "/") (m ++ ".py") = false.
Proof.
  intros TW. assert (A : all_chars is_word m = true) by (apply name_chars; now rewrite TW).
  destruct m as [|c m]; [discriminate|]. split.
  - clear TW. revert A. generalize (String c m). intros w. induction w as [|x w IH]; intros A; [reflexivity|].
    cbn [all_chars append] in *. apply andb_prop in A as (-> & A). cbn [orb andb]. now apply IH.
  - cbn [append starts]. cbn [all_chars] in A. apply andb_prop in A as (A & _).
    destruct (Ascii.eqb_spec c "/") as [->|]; [discriminate|reflexivity].
Qed.

(** The part of a path behind the last slash. *)
Definition in_folder (f p : string) : Prop :=
  exists b, all_chars (fun c => negb (Ascii.eqb c "/")) b = true /\ b <> "" /\ b <> "." /\ b <> ".." /\
    (p = (f ++ b)%string /\ ends_with_slash f = true \/ p = (f ++ "/" ++ b)%string).

(** No text makes the library write outside the folder it was given: whatever file
    a call changes lies directly in it. *)
Theorem C64_inside : forall n old s f opens d a d' q,
  call n old s (Some f) opens d = (a, d') -> d' q <> d q -> f <> "" /\ in_folder f q /\ opens q = true.
Proof.
  intros n old s f opens d a d' q E Q. unfold call in E. destruct (read_named n s) as [r [m ps]| |] eqn:RN; [|now injection E as <- <-..].
  destruct (named_heads _ _ _ _ _ RN) as (TW & _). destruct (emit_after old ps) as [[st out]|]; [|now injection E as <- <-].
  destruct f as [|c f]; [now injection E as <- <-|]. set (F := String c f) in *. split; [discriminate|].
  destruct (opens (path_join F (m ++ ".py"))) eqn:O; [|now injection E as <- <-]. injection E as <- <-. unfold stored in Q.
  destruct (String.eqb_spec q (path_join F (m ++ ".py"))) as [->|]; [|now destruct Q]. split; [|exact O].
  destruct (word_no_slash m TW) as (A & S0). exists (m ++ ".py")%string. split.
  - revert A. generalize (m ++ ".py")%string. intros w. induction w as [|x w IH]; intros A; [reflexivity|].
    cbn [all_chars] in *. apply andb_prop in A as (X & A). rewrite (IH A), andb_true_r.
    destruct (Ascii.eqb_spec x "/") as [->|]; [discriminate|reflexivity].
  - destruct m as [|x m]; [discriminate|]. cbn [append]. cbn [type_word] in TW. apply andb_prop in TW as (U & _). repeat split.
    + discriminate.
    + destruct m; discriminate.
    + intros [= -> _]. discriminate.
    + cbn [append] in S0. unfold path_join. rewrite S0. cbn [String.eqb F orb]. fold F. destruct (ends_with_slash F); auto.
Qed.

(** ** Two modules in one folder *)

Lemma append_right a b c : (a ++ c)%string = (b ++ c)%string -> a = b.
Proof.
  assert (L : forall x y, String.length (append x y) = String.length x + String.length y).
  { induction x as [|ch x IH]; intros y; cbn [append String.length]; [reflexivity|now rewrite IH]. }
  revert b. induction a as [|x a IH]; intros [|y b] E; auto.
  - apply (f_equal String.length) in E. rewrite !L in E. cbn [String.length] in E. lia.
  - apply (f_equal String.length) in E. rewrite !L in E. cbn [String.length] in E. lia.
  - cbn [append] in E. injection E as -> E. f_equal. now apply IH.
Qed.
Lemma append_left a b c : (a ++ b)%string = (a ++ c)%string -> b = c.
Proof. induction a as [|x a IH]; cbn [append]; auto. intros [= E]. auto. Qed.

Lemma join_inj f a b : type_word a = true -> type_word b = true ->
  path_join f (a ++ ".py") = path_join f (b ++ ".py") -> a = b.
Proof.
  intros A B E. destruct (word_no_slash a A) as (_ & A0). destruct (word_no_slash b B) as (_ & B0).
  unfold path_join in E. rewrite A0, B0 in E. destruct (_ || _).
  - apply append_left in E. now apply append_right in E.
  - apply append_left in E. cbn [append] in E. injection E as E. now apply append_right in E.
Qed.

Lemma heads_unique s a b : heads s a -> heads s b -> type_word a = true -> type_word b = true -> a = b.
Proof.
  intros (w1 & r1 & -> & W1 & S1) (w2 & r2 & E & W2 & S2) A B.
  assert (X : forall w c r, all_chars is_white w = true -> type_word c = true -> skip (w ++ c ++ r) = (c ++ r)%string).
  { clear. intros w c r W C. induction w as [|x w IH]; cbn [append].
    - destruct c as [|x c]; [discriminate|]. cbn [append skip]. cbn [type_word] in C. apply andb_prop in C as (C & _).
      rewrite word_not_white; [reflexivity|]. unfold is_word. now rewrite C.
    - cbn [all_chars] in W. apply andb_prop in W as (X & W). cbn [skip]. rewrite X. auto. }
  apply (f_equal skip) in E. rewrite !X in E by auto. clear X W1 W2 w1 w2.
  assert (A' : all_chars is_word a = true) by (apply name_chars; now rewrite A).
  assert (B' : all_chars is_word b = true) by (apply name_chars; now rewrite B). clear A B.
  revert b E A' B'. induction a as [|x a IH]; intros [|y b] E A B; auto; cbn [all_chars append] in *.
  - apply andb_prop in B as (B & _). subst r1. cbn [starts] in S1. congruence.
  - apply andb_prop in A as (A & _). subst r2. cbn [starts] in S2. congruence.
  - injection E as -> E. apply andb_prop in A as (_ & A), B as (_ & B). f_equal. auto.
Qed.

(** Modules with different names do not disturb each other.  Missing: two modules
    of one name (refuted below). *)
Theorem C64_both_kept_partial : forall n1 n2 old1 old2 s1 s2 f opens d st1 st2 d1 d2 m1 m2,
  call n1 old1 s1 (Some f) opens d = (Returned st1 None, d1) ->
  call n2 old2 s2 (Some f) opens d1 = (Returned st2 None, d2) ->
  heads (of_codes (remove_comments (to_codes s1))) m1 -> type_word m1 = true ->
  heads (of_codes (remove_comments (to_codes s2))) m2 -> type_word m2 = true -> m1 <> m2 ->
  exists t1 t2 e1 e2,
    call n1 old1 s1 None opens d = (Returned st1 (Some t1), e1) /\ call n2 old2 s2 None opens d1 = (Returned st2 (Some t2), e2) /\
    d2 (path_join f (m1 ++ ".py")) = Some t1 /\ d2 (path_join f (m2 ++ ".py")) = Some t2.
Proof.
  intros n1 n2 old1 old2 s1 s2 f opens d st1 st2 d1 d2 m1 m2 E1 E2 H1 T1 H2 T2 N.
  assert (X : forall n old s dd st d' m, call n old s (Some f) opens dd = (Returned st None, d') ->
            heads (of_codes (remove_comments (to_codes s))) m -> type_word m = true ->
            exists t, call n old s None opens dd = (Returned st (Some t), dd) /\ d' = stored dd (path_join f (m ++ ".py")) t).
  { clear. intros n old s dd st d' m E H T. unfold call in *. destruct (read_named n s) as [r [m' ps]| |] eqn:RN; try discriminate.
    destruct (named_heads _ _ _ _ _ RN) as (TW & HD). assert (m' = m) as -> by (eapply heads_unique; eauto).
    destruct (emit_after old ps) as [[st1 out]|]; [|discriminate]. destruct f as [|c f]; [discriminate|].
    destruct (opens _); [|discriminate]. injection E as <- <-. eauto. }
  destruct (X _ _ _ _ _ _ _ E1 H1 T1) as (t1 & C1 & ->). destruct (X _ _ _ _ _ _ _ E2 H2 T2) as (t2 & C2 & ->).
  exists t1, t2, d, (stored d (path_join f (m1 ++ ".py")) t1). split; [exact C1|]. split; [exact C2|]. unfold stored. split.
  - destruct (String.eqb_spec (path_join f (m1 ++ ".py")) (path_join f (m2 ++ ".py"))) as [E|].
    + now apply join_inj in E.
    + now rewrite String.eqb_refl.
  - now rewrite String.eqb_refl.
Qed.

(** ** Cases *)

Definition anywhere (_ : string) : bool := true.
Definition nothing : disk := fun _ => None.
Definition protocol : string := "  Simple-1 -- a comment, My-Module DEFINITIONS
  DEFINITIONS ::= BEGIN A ::= INTEGER (0..7) END".

Ltac call_fast := unfold call, read_named; rewrite run_fast; vm_compute; reflexivity.

(** A module name may have hyphens (X.680 12.5), a Python name may not: the module
    that is written cannot be named in an import statement. *)
Theorem C64_importable_refuted : exists s n st d' t,
  call n fresh s (Some "gen") anywhere nothing = (Returned st None, d') /\
  d' "gen/Simple-1.py" = Some t /\ py_name "Simple-1" = false.
Proof.
  exists protocol, 300. eexists _, _, _. split; [call_fast|]. split; [vm_compute; reflexivity|reflexivity].
Qed.

(** Exactly these names can be imported. *)
Theorem C64_importable_partial : forall m, type_word m = true ->
  (py_name m = true <-> all_chars (fun c => negb (Ascii.eqb c "-")) m = true /\ ~ In m ["None"; "True"; "False"]).
Proof.
  intros m T. assert (A : all_chars is_word m = true) by (apply name_chars; now rewrite T).
  destruct m as [|c m]; [discriminate|]. cbn [type_word] in T. apply andb_prop in T as (U & _).
  unfold py_name. replace (start_char c) with true by (unfold start_char; now rewrite U).
  cbn [all_chars] in A |- *. apply andb_prop in A as (_ & A).
  replace (negb (Ascii.eqb c "-")) with true.
  2:{ destruct (Ascii.eqb_spec c "-") as [->|]; [discriminate|reflexivity]. }
  cbn [andb]. rewrite andb_true_iff, negb_true_iff.
  assert (X : all_chars (fun c => start_char c || is_digit c) m = all_chars (fun c => negb (Ascii.eqb c "-")) m).
  { clear U. induction m as [|x m IH]; [reflexivity|]. cbn [all_chars] in *. apply andb_prop in A as (W & A). rewrite IH by auto. f_equal.
    clear - W. destruct x as [[] [] [] [] [] [] [] []]; vm_compute in W |- *; congruence. }
  rewrite X. split; intros (P & Q); (split; [exact P|]).
  - intros K. destruct K as [K|[K|[K|[]]]]; rewrite <- K in Q; discriminate Q.
  - match goal with |- ?x = false => destruct x eqn:M; [|reflexivity] end. destruct Q. unfold mem in M. apply existsb_exists in M as (k & K & E).
    apply String.eqb_eq in E. rewrite E. unfold Exec.keywords in K. subst k.
    repeat (destruct K as [K|K]; [injection K as <- <-; try discriminate U; cbn [In]; tauto|]). destruct K.
Qed.

Definition version_1 : string := "Proto DEFINITIONS ::= BEGIN A ::= BOOLEAN END".
Definition version_2 : string := "Proto DEFINITIONS ::= BEGIN B ::= INTEGER END".

(** The second module of a name takes the place of the first one, without a word. *)
Theorem C64_both_kept_refuted : exists s1 s2 n st1 t1 st d1 d2,
  call n fresh s1 None anywhere nothing = (Returned st1 (Some t1), nothing) /\
  call n fresh s1 (Some "gen/") anywhere nothing = (Returned st1 None, d1) /\ d1 "gen/Proto.py" = Some t1 /\
  call n fresh s2 (Some "gen/") anywhere d1 = (Returned st None, d2) /\
  forall q, d2 q <> Some t1.
Proof.
  exists version_1, version_2, 300. eexists _, _, _, _, _. split; [call_fast|]. split; [call_fast|]. split; [vm_compute; reflexivity|].
  split; [call_fast|]. intros q. cbv beta.
  repeat match goal with |- (if ?b then _ else _) <> _ => destruct b; [discriminate|] end. discriminate.
Qed.

(** The bound [n] on the depth of calls does not matter. *)
Theorem C64_answers : forall old s f opens d, exists n0 a d', forall n, n0 <= n -> call n old s f opens d = (a, d').
Proof.
  intros old s f opens d. destruct (settled g_parts (expandtabs 0 (of_codes (remove_comments (to_codes s)))) true eq_refl) as (o & _ & n0 & E).
  exists n0. destruct (call n0 old s f opens d) as [a d'] eqn:C. exists a, d'. intros n L. rewrite <- C. unfold call, read_named.
  now rewrite (E n L), (E n0 (Nat.le_refl n0)).
Qed.

(** A text with a comment in front of the header, written to a folder and returned;
    a text that is cut short changes nothing. *)
Example C64_case : exists st d' t,
  call 300 fresh protocol None anywhere nothing = (Returned st (Some t), nothing) /\
  call 300 fresh protocol (Some "/tmp/gen") anywhere nothing = (Returned st None, d') /\
  d' "/tmp/gen/Simple-1.py" = Some t /\ d' "/tmp/gen/My-Module.py" = None /\
  call 300 fresh "Simple-1 DEFINITIONS ::= BEGIN A ::= INTEGER (0..7)" (Some "/tmp/gen") anywhere d' = (Unparsed, d').
Proof.
  eexists _, _, _. split; [call_fast|]. split; [call_fast|]. split; [vm_compute; reflexivity|]. split; [vm_compute; reflexivity|]. call_fast.
Qed.
