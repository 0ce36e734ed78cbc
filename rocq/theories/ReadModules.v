(** Whole modules: a text of a schema is read as the objects of Meaning.v, whatever
    its layout. *)

From Coq Require Import ZArith List String Ascii Bool Arith Lia.
Import ListNotations.
From Verif Require Import PyBase Generator Emit Exec Meaning Subtypes Grammar Texts Tokens Reads Nests ReadTypes ReadBodies.

Open Scope string_scope.
Open Scope list_scope.
Open Scope nat_scope.

(** ** Assignments *)

Definition g_assignment : pexp := POr [g_type_assignment; g_value_assignment].

(** What may follow an assignment. *)
Definition after_assignment (l : list token) : Prop :=
  exists d l', l = d :: l' /\ (d = K "END" \/ (exists n, d = R n) \/ (exists n, d = I n)).
Lemma assignment_type : forall l, after_assignment l -> after_type l.
Proof. intros l (d & l' & -> & [->|[(n & ->)|(n & ->)]]); (eexists; eexists; repeat split; reflexivity). Qed.
Lemma assignment_value : forall l, after_assignment l -> undotted l.
Proof. intros l (d & l' & -> & [->|[(n & ->)|(n & ->)]]); (eexists; eexists; split; reflexivity). Qed.
Lemma assignment_cons : forall l, after_assignment l -> l <> [].
Proof. intros l (d & l' & -> & _). discriminate. Qed.

Lemma type_object : forall n t, (forall m r, t = ARef m r -> ~ In m builtin_types) ->
  (if mem (typeref (obj t)) builtin_types then set_ref n (obj t) else set_ident n (obj t)) = parsed_as (TypeA n t).
Proof.
  intros n t NR. destruct t as [r| |r|r|root adds|ext root adds groups|ext root adds groups|r e|m r]; try reflexivity.
  specialize (NR m r eq_refl). cbn [obj own_ref built typeref kind_of]. destruct (mem m builtin_types) eqn:M; [|reflexivity].
  elim NR. now apply mem_spec.
Qed.

Lemma yes_assignment : forall a l rest, spells_assignment a l -> after_assignment rest ->
  Yes g_assignment (l ++ rest) rest Tight [Obj (parsed_as a)].
Proof.
  intros a l rest SP A. destruct SP as [n t l W ST NR|n t v l W ST GL].
  - destruct (types_read t l ST) as (_ & Y). specialize (Y rest (assignment_type _ A)). cbn [app]. alt 0; [|others|others].
    assert (l ++ rest <> []) as NN by (destruct l; [now apply assignment_cons|discriminate]).
    apply (yes_act _ _ _ _ _ [Str n; Str "::="; Grp [Obj (obj t)]]); [discriminate| |].
    + apply yes_and. eapply all_eq; [eapply all_cons; [apply yes_type|eapply all_cons; [apply yes_lit|apply all_last, Y|exact NN|dull]|discriminate|dull]|reflexivity].
    + cbn [act_on first_obj bind]. now rewrite type_object.
  - destruct (types_read t l ST) as (_ & Y). assert (after_type (K "::=" :: lit_toks v ++ rest)) as AT by (eexists; eexists; repeat split; reflexivity).
    specialize (Y _ AT). cbn [app]. rewrite <- app_assoc. cbn [app].
    assert (lit_toks v ++ rest <> []) as NN by (destruct (lit_toks v); [now apply assignment_cons|discriminate]).
    assert (l ++ K "::=" :: lit_toks v ++ rest <> []) as NN2 by (destruct l; discriminate).
    alt 1; [|others|others]. apply (yes_act _ _ _ _ _ [Str n; Grp [Obj (obj t)]; Str "::="; Str (lit_text v)]); [discriminate| |].
    + apply yes_and. eapply all_eq; [eapply all_cons; [apply yes_ident|eapply all_cons; [exact Y|eapply all_cons; [apply yes_lit|
        apply all_last, yes_rule, value_lit, assignment_value, A|exact NN|dull]|discriminate|dull]|exact NN2|dull]|reflexivity].
    + cbn [act_on first_obj bind last parsed_as]. destruct t; reflexivity.
Qed.
Lemma assignment_first : forall a l rest, spells_assignment a l -> after_assignment (l ++ rest).
Proof. intros a l rest SP. destruct SP; cbn [app]; eexists; eexists; (split; [reflexivity|]); eauto. Qed.

(** END is no assignment: what follows is not "::=". *)
Lemma no_assignment : No g_assignment [K "END"].
Proof.
  apply no_or. apply Forall_cons; [|apply Forall_cons; [gone|apply Forall_nil]]. apply no_act. intros s r L. apply fail_and.
  destruct (yes_type_word "END" [] eq_refl) as (c & E & Y). rewrite app_nil_r in E. subst c.
  eapply ands_later; [exact (Y s r L)|]. apply ands_fail, fail_term. cbn [cut].
  destruct (laid_inv _ _ _ _ L) as (_ & _ & _ & L'). inversion L' as [s' EN|]; subst. cbn [term]. rewrite EN. reflexivity.
Qed.

Lemma read_assignments : forall S l, spells_assignments S l -> S <> [] ->
  Reads g_assignment (l ++ [K "END"]) [K "END"] Tight (map Obj (map parsed_as S)).
Proof.
  intros S l SP. induction SP as [|a S l l' SA SP IH]; intros N; [congruence|]. rewrite <- app_assoc. destruct SP as [|a' S l1 l2 SA' SP'].
  - cbn [map app]. apply reads_last; [|apply no_assignment|discriminate]. apply yes_assignment; [exact SA|]. eexists; eexists; split; [reflexivity|]. now left.
  - cbn [map]. change (Obj (parsed_as a) :: ?x) with ([Obj (parsed_as a)] ++ x). eapply reads_cons; [apply yes_assignment; [exact SA|]|apply IH; discriminate| |].
    + rewrite <- app_assoc. eapply assignment_first, SA'.
    + destruct (l1 ++ l2); discriminate.
    + dull.
Qed.
Lemma yes_assignments : forall S l, spells_assignments S l -> S <> [] ->
  Yes g_assignments (l ++ [K "END"]) [K "END"] Tight (map Obj (map parsed_as S)).
Proof.
  intros S l SP N. destruct SP as [|a S l l' SA SP]; [congruence|]. rewrite <- app_assoc. destruct SP as [|a' S l1 l2 SA' SP'].
  - cbn [map app]. apply (yes_once g_assignment); [|apply no_assignment|discriminate]. apply yes_assignment; [exact SA|]. eexists; eexists; split; [reflexivity|]. now left.
  - cbn [map]. change (Obj (parsed_as a) :: ?x) with ([Obj (parsed_as a)] ++ x).
    eapply (yes_reads g_assignment); [apply yes_assignment; [exact SA|]|apply (read_assignments (a' :: S) (l1 ++ l2)); [now constructor|discriminate]| |].
    + rewrite <- app_assoc. eapply assignment_first, SA'.
    + destruct (l1 ++ l2); discriminate.
    + dull.
Qed.

(** ** The module *)

Lemma yes_nothing : forall l, Yes (POr [PEmpty]) l l Skipped [].
Proof. intros l. alt 0; [apply yes_empty|others|others]. Qed.

Lemma yes_body : forall S l, spells_assignments S l -> exists p, Yes g_body (l ++ [K "END"]) [K "END"] p (map Obj (map parsed_as S)).
Proof.
  intros S l SP. destruct S as [|a S].
  - inversion SP; subst. exists Skipped. cbn [app map]. alt 0; [|others|].
    + apply yes_and. eapply all_eq; [eapply all_cons; [apply yes_nothing|eapply all_cons; [apply yes_nothing|apply all_last, yes_many_none, no_assignment|discriminate|dull]|discriminate|dull]|reflexivity].
    + apply Forall_cons; [|apply Forall_nil]. eapply loses_same, yes_empty.
  - assert (exists k l', l = k :: l') as (k & l' & ->).
    { inversion SP as [|? ? l1 l2 SA _ E]; subst. destruct SA; cbn [app]; eexists; eexists; reflexivity. }
    pose proof (yes_assignments _ _ SP) as Y. exists Tight. alt 0; [|others|].
    + apply yes_and. eapply all_eq; [eapply all_cons; [apply yes_nothing|eapply all_cons; [apply yes_nothing|apply all_last, Y; discriminate|discriminate|]|discriminate|]|reflexivity].
      * intros _ _ E. apply (f_equal (@List.length token)) in E. rewrite app_length in E. cbn [List.length] in E. lia.
      * intros _ _ E. apply (f_equal (@List.length token)) in E. rewrite app_length in E. cbn [List.length] in E. lia.
    + apply Forall_cons; [|apply Forall_nil]. eapply (loses_less _ _ _ _ k l'), yes_empty.
Qed.

Theorem module_reads : forall S l, spells S l -> Yes g_module l [] Tight (map Obj (map parsed_as S)).
Proof.
  intros S l SP. destruct SP as [tags n S l W SA]. destruct (yes_body S l SA) as (p & Y).
  assert (l ++ [K "END"] <> []) as NN by (destruct l; discriminate).
  apply (yes_act _ _ _ _ _ ([Str n; Str "DEFINITIONS"] ++ (if tags then [Str "AUTOMATIC TAGS"] else []) ++ [Str "::="; Str "BEGIN"; Grp (map Obj (map parsed_as S)); Str "END"])); [discriminate| |].
  - assert (All [lit "::="; lit "BEGIN"; PGroup g_body; lit "END"] (K "::=" :: K "BEGIN" :: l ++ [K "END"]) [] Tight
              [Str "::="; Str "BEGIN"; Grp (map Obj (map parsed_as S)); Str "END"]) as YT.
    { eapply all_eq; [eapply all_cons; [apply yes_lit|eapply all_cons; [apply yes_lit|eapply all_cons; [apply yes_group, Y|apply all_last, yes_lit|discriminate|dull]|exact NN|dull]|discriminate|dull]|reflexivity]. }
    apply yes_and. eapply all_eq; [eapply all_cons; [apply yes_and, all_last, yes_type|eapply all_cons; [apply yes_lit|eapply all_cons; [apply yes_nothing|
      | |]| |dull]|discriminate|dull]|reflexivity]; [|destruct tags; discriminate|dull|destruct tags; discriminate].
    destruct tags; cbn [app].
    + eapply (all_cons _ _ _ _ _ Tight _ [Str "AUTOMATIC TAGS"]); [|eapply (all_cons _ _ _ _ _ Skipped Tight []); [apply yes_nothing|exact YT|discriminate|dull]|discriminate|dull].
      alt 0; [apply yes_lit|others|]. apply Forall_cons; [|apply Forall_nil]. eapply (loses_less _ _ _ _ (K "AUTOMATIC TAGS") []), yes_empty.
    + eapply (all_cons _ _ _ _ _ Skipped _ []); [|eapply (all_cons _ _ _ _ _ Skipped Tight []); [apply yes_nothing|exact YT|discriminate|dull]|discriminate|dull].
      alt 1; [apply yes_empty|others|others].
  - cbn [act_on]. destruct tags; reflexivity.
Qed.
