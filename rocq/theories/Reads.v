(** What the parser of Grammar.v does with the items that spell a schema. *)

From Coq Require Import ZArith List String Ascii Bool Arith Lia.
Import ListNotations.
From Verif Require Import PyBase Generator Emit Exec Meaning Subtypes Grammar Texts Tokens.

Open Scope string_scope.
Open Scope list_scope.
Open Scope nat_scope.

(** * Tactics *)

Ltac gone := first [apply loses_no | idtac]; apply (no_dead 30); reflexivity.
Ltac dull := first [discriminate | (intros _ _; let E := fresh in intro E; apply (f_equal (@List.length token)) in E;
  cbn [List.length] in E; rewrite ?app_length in E; cbn [List.length] in E; rewrite ?app_length in E; cbn [List.length] in E; lia)
  | (intros _; discriminate) | (intros; discriminate)].
Lemma yes_eq : forall e l l' b ts ts', Yes e l l' b ts -> ts = ts' -> Yes e l l' b ts'.
Proof. now intros; subst. Qed.
Lemma all_eq : forall e l l' b ts ts', All e l l' b ts -> ts = ts' -> All e l l' b ts'.
Proof. now intros; subst. Qed.

(** The alternative number [k] is the one that matches. *)
Ltac alt k :=
  lazymatch goal with |- Yes ?e ?l ?l' ?b ?ts =>
    let e' := eval hnf in e in
    lazymatch e' with POr ?es =>
      let a := eval cbv [firstn] in (firstn k es) in
      let z := eval cbv [skipn] in (skipn k es) in
      lazymatch z with ?x :: ?y =>
        change (Yes (POr (a ++ x :: y)) l l' b ts); apply yes_or
      end
    end
  end.
(** The other alternatives. *)
Ltac others := lazymatch goal with
  | |- Forall _ (_ :: _) => apply Forall_cons; [first [solve [gone] | idtac]|others]
  | |- Forall _ [] => apply Forall_nil
  | _ => idtac
  end.

(** * Values *)

(** What may follow a value. *)
Definition after_value (l : list token) : Prop :=
  exists d l', l = d :: l' /\ (disjoint (COne ".") (tok_cls d) || String.eqb (t_text d) "..") = true.

Lemma no_real : forall n l, after_value l -> No (PTerm UReal) (D n :: l).
Proof.
  intros n l (d & l' & -> & F) s r L. apply fail_term. apply (misses_ok UReal (D n) (d :: l') s r); [|exact L]. unfold misses. cbn [hd_error]. now rewrite F, orb_true_r.
Qed.
Lemma no_g_real : forall n l, after_value l -> No g_real_value (D n :: l).
Proof.
  intros n l F. apply no_or. constructor; [|constructor; [|constructor]].
  - apply no_or. constructor; [now apply no_real|]. repeat constructor; gone.
  - gone.
Qed.

Lemma value_number : forall n l, after_value l -> Yes g_value (D n :: l) l Tight [Str n].
Proof.
  intros n l F. alt 0; [|others|others].
  alt 2; [|others|others].
  - alt 0; [|others|others]. apply (yes_act _ _ _ _ _ [Str n]); [discriminate| |reflexivity]. alt 0; [|others|others]. apply yes_number.
  - apply loses_no. now apply no_g_real.
Qed.
Lemma value_minus : forall n l, after_value l -> Yes g_value (K "-" :: D n :: l) l Tight [Str ("-" ++ n)].
Proof.
  intros n l F. alt 0; [|others|others].
  alt 2; [|others|others].
  - alt 0; [|others|others]. apply (yes_act _ _ _ _ _ [Str "-"; Str n]); [discriminate| |reflexivity]. alt 1; [|others|others].
    apply yes_and. apply (all_cons _ _ _ (D n :: l) _ Tight _ [Str "-"] [Str n]); [apply yes_lit| |discriminate|dull].
    apply all_last, yes_number.
  - apply loses_no, no_or. others. apply no_or. others. apply no_and. eapply allno_later; [apply yes_lit| |discriminate].
    apply allno_now. now apply no_real.
Qed.
Lemma value_name : forall n l, Yes g_value (I n :: l) l Tight [Str n].
Proof.
  intros n l. alt 0; [|others|others].
  - alt 2; [|others|others]. alt 1; [|others|others]. apply yes_ident.
  - apply (loses_same _ _ _ _ [Str n]). alt 0; [|others|others]. alt 1; [|others|others]. apply yes_ident.
Qed.
Lemma no_lit : forall c q d l, disjoint (COne c) (tok_cls d) = true -> No (lit (String c q)) (d :: l).
Proof.
  intros c q d l F s r L. apply fail_term. apply (misses_ok _ d l s r); [|exact L]. unfold misses. cbn [term_cls head_cls].
  rewrite F. reflexivity.
Qed.
Lemma no_sup : forall e l, No e l -> No (PSup e) l.
Proof. intros e l F s r L. exact (fail_sup _ _ (F s r L)). Qed.
Lemma no_dotted : forall k l d l' e, type_word k = true -> l = d :: l' -> disjoint (COne ".") (tok_cls d) = true ->
  No (PAnd [typereference; lit "."; e]) (K k :: l).
Proof.
  intros k l d l' e W -> F. apply no_and. eapply allno_later; [now apply yes_type_word| |discriminate].
  apply allno_now. now apply no_lit.
Qed.
Lemma value_word_k : forall k l d l', k = "TRUE" \/ k = "FALSE" -> l = d :: l' -> disjoint (COne ".") (tok_cls d) = true ->
  Yes g_value (K k :: l) l Tight [Str k].
Proof.
  intros k l d l' E EL F.
  assert (No (POr [g_defined_value]) (K k :: l)) as N.
  { apply no_or. others. apply no_or. others.
    - apply (no_dotted k l d l'); [now destruct E; subst|exact EL|exact F].
    - destruct E; subst; gone. }
  destruct E; subst k.
  - alt 0; [|others|others]; [|now apply loses_no]. alt 0; [|others|others]. alt 0; [|others|others]. apply yes_lit.
  - alt 0; [|others|others]; [|now apply loses_no]. alt 0; [|others|others]. alt 1; [|others|others]. apply yes_lit.
Qed.
Lemma value_bits : forall n l, Yes g_value (B n :: l) l Tight [Str (t_text (B n))].
Proof.
  intros n l. alt 0; [|others|others]. alt 4; [|others|others]. alt 0; [|others|others]. apply yes_bits.
Qed.
Lemma value_hex : forall n l, Yes g_value (H n :: l) l Tight [Str (t_text (H n))].
Proof.
  intros n l. alt 0; [|others|others]. alt 4; [|others|others]. alt 1; [|others|others]. apply yes_hex.
Qed.

Definition undotted (l : list token) : Prop := exists d l', l = d :: l' /\ disjoint (COne ".") (tok_cls d) = true.
Lemma undotted_value : forall l, undotted l -> after_value l.
Proof. intros l (d & l' & -> & F). exists d, l'. now rewrite F. Qed.

Lemma num_text_neg : forall z, (z < 0)%Z -> num_text z = ("-" ++ num_text (- z))%string.
Proof. intros [|p|p] L; try lia. reflexivity. Qed.
Lemma value_num : forall z l, after_value l -> Yes g_value (num_toks z ++ l) l Tight [Str (num_text z)].
Proof.
  intros z l F. unfold num_toks. destruct (Z.ltb_spec z 0) as [L|L]; cbn [app].
  - rewrite (num_text_neg z L). now apply value_minus.
  - now apply value_number.
Qed.
Lemma value_lit : forall v l, undotted l -> Yes g_value (lit_toks v ++ l) l Tight [Str (lit_text v)].
Proof.
  intros v l F. pose proof (undotted_value l F) as F'. destruct F as (d & l' & E & F). destruct v as [z|[|]|b|h|n|n]; cbn [lit_toks lit_text app].
  - now apply value_num.
  - now apply (value_word_k "TRUE" l d l'); auto.
  - now apply (value_word_k "FALSE" l d l'); auto.
  - apply value_bits.
  - apply value_hex.
  - apply value_name.
  - apply value_name.
Qed.

(** * Constraints *)

Definition plain_bound (b : bound) : Prop := b <> BMin /\ b <> BMax.
Lemma value_bound : forall b l, plain_bound b -> after_value l -> Yes g_value (bound_toks b ++ l) l Tight [Str (bound_text b)].
Proof.
  intros [| |z|n] l [A C] F; cbn [bound_toks bound_text]; try congruence; [now apply value_num|apply value_name].
Qed.

Lemma laid_dots : forall l s r, laid (K ".." :: l) s r -> laid (K "." :: K "." :: l) s r.
Proof.
  intros l s r L. inversion L as [|g t' l' s' r' BL P AP L']; subst. cbn [t_text append].
  apply (laid_cons g (K ".") (K "." :: l) (String "." s') r BL eq_refl); [discriminate|].
  apply (laid_cons "" (K ".") l s' r eq_refl eq_refl); [discriminate|exact L'].
Qed.
(** MIN and MAX are not values. *)
Definition after_word (l : list token) : Prop :=
  exists d l', l = d :: l' /\ (disjoint (COne ".") (tok_cls d) = true \/ d = K "..") /\ disjoint (COne "U") (tok_cls d) = true.
Lemma no_value_word : forall k l, k = "MIN" \/ k = "MAX" \/ k = "ALL" -> after_word l -> No g_value (K k :: l).
Proof.
  intros k l E (d & l' & EL & F & U).
  assert (No g_defined_value (K k :: l)) as N.
  { apply no_or. others; [|destruct E as [->|[->| ->]]; gone]. destruct F as [F|F].
    - apply (no_dotted k l d l'); [now destruct E as [->|[->| ->]]|exact EL|exact F].
    - subst l d. apply no_and. eapply allno_later; [apply yes_type_word; now destruct E as [->|[->| ->]]| |discriminate].
      intros s r L. apply laid_dots in L. revert s r L. change (AllNo [lit "."; identifier] (K "." :: K "." :: l')).
      eapply allno_later; [apply yes_lit| |discriminate]. apply allno_now. gone. }
  apply no_or. others; [|apply no_or; others; exact N].
  destruct E as [->|[->| ->]]; [|gone..]. apply no_or. others. apply no_or. others. apply no_or. others.
  subst l. intros s r L. apply fail_term. apply (misses_ok (ULit "MINUS-INFINITY") (K "MIN") (d :: l') s r); [exact U|exact L].
Qed.

Lemma yes_lower_value : forall b l, b <> BMax -> after_value l -> after_word l ->
  Yes g_lower_value (bound_toks b ++ l) l Tight [Str (bound_text b)].
Proof.
  intros b l N F F'. destruct b as [| |z|n]; [|congruence| |].
  - alt 1; [apply yes_lit| |others]. others. apply loses_no, no_rule. now apply no_value_word; auto.
  - alt 0; [|others|].
    + now apply yes_rule, (value_bound (BNum z)).
    + cbn [bound_toks]. unfold num_toks. destruct (z <? 0)%Z; others.
  - alt 0; [|others|others]. now apply yes_rule, (value_bound (BRef n)).
Qed.
Lemma yes_upper_value : forall b l, b <> BMin -> undotted l -> after_word l ->
  Yes g_upper_value (bound_toks b ++ l) l Tight [Str (bound_text b)].
Proof.
  intros b l N F F''. pose proof (undotted_value _ F) as F'. destruct b as [| |z|n]; [congruence| | |].
  - alt 1; [apply yes_lit| |others]. others. apply loses_no, no_rule. now apply no_value_word; auto.
  - alt 0; [|others|].
    + now apply yes_rule, (value_bound (BNum z)).
    + cbn [bound_toks]. unfold num_toks. destruct (z <? 0)%Z; others.
  - alt 0; [|others|others]. now apply yes_rule, (value_bound (BRef n)).
Qed.

(** What may follow an element. *)
Definition stop (ks : list string) (l : list token) : Prop := exists k l', l = K k :: l' /\ In k ks.
Definition element_stops : list string := [")"; ","; "|"; "^"; "EXCEPT"].
Ltac stops S := let k := fresh "k" in let l' := fresh "l'" in let E := fresh "E" in let N := fresh "N" in
  destruct S as (k & l' & E & N); subst; cbn [In element_stops] in N;
  repeat (destruct N as [N|N]; [subst k|]); [..|contradiction].
Lemma stop_undotted : forall l, stop element_stops l -> undotted l.
Proof. intros l S. stops S; eexists; eexists; split; reflexivity. Qed.
Lemma stop_word : forall l, stop element_stops l -> after_word l.
Proof. intros l S. stops S; (eexists; eexists; split; [reflexivity|]); (split; [left|]); reflexivity. Qed.
Lemma stop_in : forall k l ks, In k ks -> stop ks (K k :: l).
Proof. intros k l ks N. now exists k, l. Qed.

Lemma first_bound : forall b l, exists k x, bound_toks b ++ l = k :: x /\
  (k = K "MIN" \/ k = K "MAX" \/ k = K "-" \/ (exists n, k = D n) \/ exists n, k = I n).
Proof.
  intros [| |z|n] l; cbn [bound_toks app]; [eauto 9..| |eauto 9]. unfold num_toks. destruct (z <? 0)%Z; cbn [app]; eauto 9.
Qed.
Ltac firsts b l := let k := fresh "k" in let x := fresh "x" in let E := fresh "E" in
  destruct (first_bound b l) as (k & x & E & [->|[->|[->|[(? & ->)|(? & ->)]]]]); rewrite E in *.

Lemma yes_lower : forall b (a : bool) l, b <> BMax ->
  Yes g_lower (bound_toks b ++ (if a then [K "<"] else []) ++ K ".." :: l) (K ".." :: l) Tight
    (Str (bound_text b) :: if a then [Str "<"] else []).
Proof.
  intros b a l N. destruct a; cbn [app].
  - alt 1; [| |others].
    + apply yes_and. apply (all_cons _ _ _ (K "<" :: K ".." :: l) _ Tight _ [Str (bound_text b)] [Str "<"]); [| |discriminate|dull].
      * apply yes_lower_value; [exact N|eexists; eexists; split; reflexivity|]. eexists; eexists; split; [reflexivity|]. split; [now left|reflexivity].
      * apply all_last, yes_lit.
    + others. apply (loses_less _ _ _ _ (K "<") [] _ Tight [Str (bound_text b)]).
      apply yes_lower_value; [exact N|eexists; eexists; split; reflexivity|]. eexists; eexists; split; [reflexivity|]. split; [now left|reflexivity].
  - assert (Yes g_lower_value (bound_toks b ++ K ".." :: l) (K ".." :: l) Tight [Str (bound_text b)]) as Y.
    { apply yes_lower_value; [exact N|eexists; eexists; split; reflexivity|]. eexists; eexists; split; [reflexivity|]. split; [now right|reflexivity]. }
    alt 0; [exact Y|others|others]. apply loses_no, no_and. eapply allno_later; [exact Y| |discriminate]. apply allno_now. gone.
Qed.
Lemma yes_upper : forall b (a : bool) l, b <> BMin -> stop element_stops l ->
  Yes g_upper ((if a then [K "<"] else []) ++ bound_toks b ++ l) l Tight
    ((if a then [Str "<"] else []) ++ [Str (bound_text b)]).
Proof.
  intros b a l N S.
  assert (Yes g_upper_value (bound_toks b ++ l) l Tight [Str (bound_text b)]) as Y.
  { apply yes_upper_value; [exact N|now apply stop_undotted|now apply stop_word]. }
  destruct a; cbn [app].
  - alt 1; [| |others].
    + apply yes_and. apply (all_cons _ _ _ (bound_toks b ++ l) _ Tight _ [Str "<"] [Str (bound_text b)]); [apply yes_lit| | |dull].
      * now apply all_last.
      * firsts b l; discriminate.
    + others.
  - alt 0; [exact Y|others|]. firsts b l; others.
Qed.

Lemma yes_element : forall e l, good_element e -> stop element_stops l ->
  Yes g_elements (element_toks e ++ l) l Tight (map Str (element_items e)).
Proof.
  intros [b|lo a b hi] l G S; cbn [good_element element_toks element_items] in *.
  - destruct G as (GB & N1 & N2). assert (Yes (PRule RValue) (bound_toks b ++ l) l Tight [Str (bound_text b)]) as Y.
    { apply yes_rule. apply value_bound; [now split|]. now apply undotted_value, stop_undotted. }
    alt 0; [|others|firsts b l; others]. alt 0; [exact Y|others|]. apply Forall_cons; [|firsts b l; others].
    apply loses_no, no_and.
    assert (Yes g_lower_value (bound_toks b ++ l) l Tight [Str (bound_text b)]) as Y'.
    { apply yes_lower_value; [exact N2|now apply undotted_value, stop_undotted|now apply stop_word]. }
    assert (Yes g_lower (bound_toks b ++ l) l Tight [Str (bound_text b)]) as Y2.
    { alt 0; [exact Y'|others|others]. apply loses_no, no_and. eapply allno_later; [exact Y'| |stops S; discriminate].
      apply allno_now. stops S; gone. }
    eapply allno_later; [exact Y2| |stops S; discriminate]. apply allno_now. stops S; gone.
  - destruct G as (GL & GH & NL & NH). rewrite <- !app_assoc. cbn [app]. rewrite <- !app_assoc.
    pose proof (yes_lower lo a ((if b then [K "<"] else []) ++ bound_toks hi ++ l) NL) as YL.
    pose proof (yes_upper hi b l NH S) as YU.
    alt 0; [|others|].
    + alt 1.
      * apply yes_and. eapply all_eq.
        { eapply all_cons; [exact YL| |discriminate|dull]. eapply all_cons; [apply yes_lit|apply all_last; exact YU| |dull].
          destruct b; [discriminate|]. cbn [app]. firsts hi l; discriminate. }
        { cbn [app map]. destruct a, b; reflexivity. }
      * others. destruct lo as [| |z|n]; [|congruence| |].
        { apply loses_no, no_rule. cbn [bound_toks app]. apply no_value_word; [auto|].
          destruct a; cbn [app]; eexists; eexists; (split; [reflexivity|]); (split; [|reflexivity]); [now left|now right]. }
        { assert (plain_bound (BNum z)) as PB by now split. destruct a; cbn [app].
          - apply (loses_less _ _ _ _ (K "<") (K ".." :: (if b then [K "<"] else []) ++ bound_toks hi) _ Tight [Str (bound_text (BNum z))]).
            cbn [app]. rewrite <- app_assoc. apply yes_rule, (value_bound (BNum z)); [exact PB|]. eexists; eexists; split; reflexivity.
          - apply (loses_less _ _ _ _ (K "..") ((if b then [K "<"] else []) ++ bound_toks hi) _ Tight [Str (bound_text (BNum z))]).
            rewrite <- app_assoc. apply yes_rule, (value_bound (BNum z)); [exact PB|]. eexists; eexists; split; reflexivity. }
        { assert (plain_bound (BRef n)) as PB by now split. destruct a; cbn [app].
          - apply (loses_less _ _ _ _ (K "<") (K ".." :: (if b then [K "<"] else []) ++ bound_toks hi) _ Tight [Str (bound_text (BRef n))]).
            cbn [app]. rewrite <- app_assoc. apply yes_rule, (value_bound (BRef n)); [exact PB|]. eexists; eexists; split; reflexivity.
          - apply (loses_less _ _ _ _ (K "..") ((if b then [K "<"] else []) ++ bound_toks hi) _ Tight [Str (bound_text (BRef n))]).
            rewrite <- app_assoc. apply yes_rule, (value_bound (BRef n)); [exact PB|]. eexists; eexists; split; reflexivity. }
      * firsts lo ((if a then [K "<"] else []) ++ K ".." :: (if b then [K "<"] else []) ++ bound_toks hi ++ l); others.
    + firsts lo ((if a then [K "<"] else []) ++ K ".." :: (if b then [K "<"] else []) ++ bound_toks hi ++ l); others.
Qed.

Definition inter_stops : list string := [")"; ","; "|"; "^"].
Definition inters_stops : list string := [")"; ","; "|"].
Definition set_stops : list string := [")"; ","].
Lemma stop_weaken : forall ks ks' l, incl ks ks' -> stop ks l -> stop ks' l.
Proof. intros ks ks' l I' (k & l' & -> & N). exists k, l'. auto. Qed.
Ltac stopw := match goal with |- stop ?ks ?l => (match goal with H : stop ?ks' l |- _ => apply (stop_weaken ks' ks l); [|exact H] end);
  intros ? ?; cbn [In inter_stops element_stops inters_stops set_stops] in *; tauto end.
Ltac stopi := apply stop_in; cbn [In inter_stops element_stops inters_stops set_stops]; tauto.
Lemma stop_not_nil : forall ks l, stop ks l -> l <> [].
Proof. intros ks l (k & l' & -> & _). discriminate. Qed.
Ltac stopz S := let k := fresh "k" in let l' := fresh "l'" in let E := fresh "E" in let N := fresh "N" in
  destruct S as (k & l' & E & N); subst; cbn [In inter_stops element_stops inters_stops set_stops] in N;
  repeat (destruct N as [N|N]; [subst k|]); [..|contradiction].

Lemma first_element : forall e l, exists k x, element_toks e ++ l = k :: x /\
  (k = K "MIN" \/ k = K "MAX" \/ k = K "-" \/ (exists n, k = D n) \/ exists n, k = I n).
Proof.
  intros [b|lo a b hi] l; cbn [element_toks]; [apply first_bound|]. rewrite <- !app_assoc. apply first_bound.
Qed.
Ltac firste e l := let k := fresh "k" in let x := fresh "x" in let E := fresh "E" in
  destruct (first_element e l) as (k & x & E & [->|[->|[->|[(? & ->)|(? & ->)]]]]); rewrite E in *.
Lemma element_not_nil : forall e l, element_toks e ++ l <> [].
Proof. intros e l. firste e l; discriminate. Qed.

Lemma yes_exclusions : forall e l, good_element e -> stop element_stops l ->
  Yes g_exclusions (K "EXCEPT" :: element_toks e ++ l) l Tight (map Str ("EXCEPT" :: element_items e)).
Proof.
  intros e l G S. apply yes_and. eapply all_eq.
  - eapply all_cons; [apply yes_lit|apply all_last, yes_element; [exact G|exact S]|apply element_not_nil|dull].
  - reflexivity.
Qed.
Definition inter_pos (i : inter) : pos := match i_except i with Some _ => Tight | None => Skipped end.
Lemma yes_inter : forall i l, good_inter i -> stop inter_stops l ->
  Yes g_inter_elements (inter_toks i ++ l) l (inter_pos i) (map Str (inter_items i)).
Proof.
  intros [e [x|]] l [G GX] S; cbn [i_elem i_except inter_toks inter_items inter_pos] in *; unfold inter_toks, inter_items, inter_pos; cbn [i_elem i_except].
  - rewrite <- app_assoc, map_app. alt 0; [|others|others]. apply yes_and. eapply all_cons; [apply yes_element; [exact G|stopi]| |discriminate|dull].
    apply all_last, yes_opt. cbn [app]. apply yes_exclusions; [now apply GX|stopw].
  - rewrite !app_nil_r. rewrite <- (app_nil_r (map Str _)). alt 0; [|others|others]. apply yes_and.
    eapply all_cons; [apply yes_element; [exact G|stopw]| |now apply (stop_not_nil _ _ S)|dull].
    apply all_last, yes_opt_none. stopz S; gone.
Qed.
Lemma first_inter : forall i l, exists k x, inter_toks i ++ l = k :: x /\
  (k = K "MIN" \/ k = K "MAX" \/ k = K "-" \/ (exists n, k = D n) \/ exists n, k = I n).
Proof. intros i l. unfold inter_toks. rewrite <- app_assoc. apply first_element. Qed.
Ltac firsti i l := let k := fresh "k" in let x := fresh "x" in let E := fresh "E" in
  destruct (first_inter i l) as (k & x & E & [->|[->|[->|[(? & ->)|(? & ->)]]]]); rewrite E in *.
Lemma inter_not_nil : forall i l, inter_toks i ++ l <> [].
Proof. intros i l. firsti i l; discriminate. Qed.

(** One or two operands. *)
Definition good_inters (i : list inter) : Prop := (List.length i = 1 \/ List.length i = 2) /\ Forall good_inter i.
Definition inters_toks (i : list inter) : list token := with_mark "^" (map inter_toks i).
Definition inters_items (i : list inter) : list string := joined "^" (map inter_items i).
Lemma no_inter : forall l, stop inters_stops l -> No g_inter_elements l.
Proof. intros l S. stopz S; gone. Qed.
Lemma yes_inters : forall i l, good_inters i -> stop inters_stops l -> exists p,
  Yes g_intersections (inters_toks i ++ l) l p (map Str (inters_items i)).
Proof.
  intros i l [LN G] S. pose proof (stop_not_nil _ _ S) as NN.
  assert (No (PAnd [g_inter_elements; POpt (PAnd [g_inter_mark; g_inter_elements])]) l) as NO.
  { apply no_and, allno_now. now apply no_inter. }
  destruct i as [|x [|y [|? ?]]]; cbn [List.length] in LN; try lia; unfold inters_toks, inters_items; cbn [map with_mark joined].
  - inversion G as [|? ? GX _]; subst. exists Skipped. alt 0; [|others|others].
    apply (yes_once (PAnd [g_inter_elements; POpt (PAnd [g_inter_mark; g_inter_elements])])); [|exact NO|exact NN].
    apply yes_and. rewrite <- (app_nil_r (map Str _)). eapply all_cons; [apply yes_inter; [exact GX|stopw]| |exact NN|dull].
    apply all_last, yes_opt_none. stopz S; gone.
  - inversion G as [|? ? GX G']; subst. inversion G' as [|? ? GY _]; subst. exists (inter_pos y). alt 0; [|others|others].
    apply (yes_once (PAnd [g_inter_elements; POpt (PAnd [g_inter_mark; g_inter_elements])])); [|exact NO|exact NN].
    rewrite <- app_assoc. cbn [app]. rewrite map_app. cbn [map].
    apply yes_and. eapply all_cons; [apply yes_inter; [exact GX|stopi]| |discriminate|dull].
    apply all_last, yes_opt, yes_and. change (Str "^" :: map Str (inter_items y)) with ([Str "^"] ++ map Str (inter_items y)).
    eapply all_cons; [alt 0; [apply yes_lit|others|others]|apply all_last, yes_inter; [exact GY|stopw]|apply inter_not_nil|dull].
Qed.
Lemma first_inters : forall i l, good_inters i -> exists k x, inters_toks i ++ l = k :: x /\
  (k = K "MIN" \/ k = K "MAX" \/ k = K "-" \/ (exists n, k = D n) \/ exists n, k = I n).
Proof.
  intros i l [LN _]. destruct i as [|x [|y i]]; [cbn in LN; lia|..]; unfold inters_toks; cbn [map with_mark]; [apply first_inter|].
  rewrite <- app_assoc. apply first_inter.
Qed.
Ltac firstii i l G := let k := fresh "k" in let x := fresh "x" in let E := fresh "E" in
  destruct (first_inters i l G) as (k & x & E & [->|[->|[->|[(? & ->)|(? & ->)]]]]); rewrite E in *.
Lemma inters_not_nil : forall i l, good_inters i -> inters_toks i ++ l <> [].
Proof. intros i l G. firstii i l G; discriminate. Qed.

Definition g_operand := PAnd [g_intersections; POpt g_union_mark].
Lemma operand_last : forall i l, good_inters i -> stop set_stops l ->
  Yes g_operand (inters_toks i ++ l) l Skipped (map Str (inters_items i)).
Proof.
  intros i l G S. assert (stop inters_stops l) as S' by stopw. destruct (yes_inters i l G S') as (p & Y).
  apply yes_and. rewrite <- (app_nil_r (map Str _)). eapply all_cons; [exact Y| |now apply (stop_not_nil _ _ S)|dull].
  apply all_last, yes_opt_none. stopz S; gone.
Qed.
Lemma operand_more : forall i l, good_inters i ->
  Yes g_operand (inters_toks i ++ K "|" :: l) l Tight (map Str (inters_items i) ++ [Str "|"]).
Proof.
  intros i l G. assert (stop inters_stops (K "|" :: l)) as S' by stopi. destruct (yes_inters i _ G S') as (p & Y).
  apply yes_and. eapply all_cons; [exact Y| |discriminate|dull].
  apply all_last, yes_opt. alt 0; [apply yes_lit|others|others].
Qed.
Definition unions_toks (u : list (list inter)) : list token := with_mark "|" (map inters_toks u).
Definition unions_items (u : list (list inter)) : list string := joined "|" (map inters_items u).
Lemma unions_cons : forall i j u, unions_toks (i :: j :: u) = inters_toks i ++ K "|" :: unions_toks (j :: u) /\
  map Str (unions_items (i :: j :: u)) = (map Str (inters_items i) ++ [Str "|"]) ++ map Str (unions_items (j :: u)).
Proof. intros i j u. split; [reflexivity|]. unfold unions_items. cbn [map joined]. now rewrite map_app, <- app_assoc. Qed.
Lemma unions_not_nil : forall u l, u <> [] -> Forall good_inters u -> unions_toks u ++ l <> [].
Proof.
  intros [|i [|j u]] l N G; [congruence|..]; inversion G; subst.
  - now apply inters_not_nil.
  - rewrite (proj1 (unions_cons i j u)), <- app_assoc. now apply inters_not_nil.
Qed.
Lemma no_operand : forall l, stop set_stops l -> No g_operand l.
Proof. intros l S. stopz S; gone. Qed.
Lemma reads_unions : forall u l, u <> [] -> Forall good_inters u -> stop set_stops l ->
  Reads g_operand (unions_toks u ++ l) l Skipped (map Str (unions_items u)).
Proof.
  induction u as [|i u IH]; intros l N G S; [congruence|]. inversion G as [|? ? GI GU]; subst. destruct u as [|j u].
  - apply reads_last; [now apply operand_last|now apply no_operand|now apply (stop_not_nil _ _ S)].
  - destruct (unions_cons i j u) as [-> ->]. rewrite <- app_assoc. cbn [app].
    eapply reads_cons; [now apply operand_more|now apply IH|now apply unions_not_nil|dull].
Qed.
Lemma yes_unions : forall u l, u <> [] -> Forall good_inters u -> stop set_stops l ->
  Yes g_unions (unions_toks u ++ l) l Skipped (map Str (unions_items u)).
Proof.
  intros u l N G S. alt 0; [|others|others]. destruct u as [|i [|j u]]; [congruence|..]; inversion G as [|? ? GI GU]; subst.
  - apply (yes_once g_operand); [now apply operand_last|now apply no_operand|now apply (stop_not_nil _ _ S)].
  - destruct (unions_cons i j u) as [-> ->]. rewrite <- app_assoc. cbn [app].
    eapply (yes_reads g_operand); [now apply operand_more|now apply reads_unions|now apply unions_not_nil|dull].
Qed.

Lemma yes_set : forall s l, good_set s -> stop set_stops l -> exists p, Yes g_set (set_toks s ++ l) l p (map Str (set_items s)).
Proof.
  intros [u|e] l G S; cbn [good_set set_toks set_items] in *.
  - destruct G as [N G]. exists Skipped. alt 0; [now apply yes_unions|others|]. apply Forall_cons; [|others].
    destruct u as [|i [|j u]]; [congruence|..]; inversion G as [|? ? GI GU]; subst; cbn [map with_mark].
    + change (with_mark "^" (map inter_toks i)) with (inters_toks i). firstii i l GI; gone.
    + rewrite <- app_assoc. change (with_mark "^" (map inter_toks i)) with (inters_toks i).
      match goal with |- context [inters_toks i ++ ?x] => firstii i x GI; gone end.
  - exists Tight. alt 1; [| |others].
    + cbn [app]. apply yes_and. change (map Str ("ALL" :: "EXCEPT" :: element_items e)) with ([Str "ALL"] ++ map Str ("EXCEPT" :: element_items e)).
      eapply all_cons; [apply yes_lit|apply all_last, yes_exclusions; [exact G|stopw]|discriminate|dull].
    + apply Forall_cons; [|others]. apply loses_no, no_or. others. intros s r L. apply fail_more. revert s r L.
      match goal with |- forall s r, laid ?l s r -> Fail ?e s => change (No e l) end.
      apply no_and, allno_now, no_or. others. intros s r L. apply fail_more. revert s r L.
      match goal with |- forall s r, laid ?l s r -> Fail ?e s => change (No e l) end.
      apply no_and, allno_now, no_or. others. apply no_and, allno_now, no_or. others. apply no_or.
      assert (No g_value (K "ALL" :: K "EXCEPT" :: element_toks e ++ l)) as NV.
      { apply no_value_word; [auto|]. eexists; eexists; split; [reflexivity|]. split; [now left|reflexivity]. }
      cbn [app]. others.
      * now apply no_rule.
      * apply no_and, allno_now, no_or. apply Forall_cons; [|apply Forall_cons; [|apply Forall_nil]].
        { apply no_or. others. now apply no_rule. }
        { apply no_and, allno_now, no_or. others. now apply no_rule. }
Qed.
Lemma set_not_nil : forall s l, good_set s -> set_toks s ++ l <> [].
Proof.
  intros [u|e] l G; cbn [good_set set_toks] in *; [|discriminate]. destruct G as [N G]. now apply unions_not_nil.
Qed.

(** The lexical items that are left: all but the commas. *)
Definition good_strs (c : cspec) : list string :=
  set_items (c_root c) ++
  match c_marker c with NoMarker => [] | Marker => ["..."] | Additional s => "..." :: set_items s end.

Lemma yes_constraint : forall c, good_cspec c ->
  Yes g_constraint (K "(" :: cspec_toks c ++ [K ")"]) [] Tight (map Str (good_strs c)).
Proof.
  intros [root m] [G GM]. unfold cspec_toks, good_strs. cbn [c_root c_marker] in *. rewrite <- app_assoc.
  apply yes_and. rewrite <- (app_nil_l (map Str _)). eapply all_cons; [eapply yes_sup, yes_lit| |now apply set_not_nil|dull].
  rewrite <- (app_nil_r (map Str _)).
  match goal with |- All _ (?x ++ ?y ++ [K ")"]) _ _ _ => assert (exists p, Yes (PRule RSets) (x ++ y ++ [K ")"]) [K ")"] p
    (map Str (set_items root ++ match m with NoMarker => [] | Marker => ["..."] | Additional s => "..." :: set_items s end))) as (p & Y) end.
  { destruct m as [| |s]; cbn [app].
    - assert (stop set_stops [K ")"]) as S by stopi. destruct (yes_set root _ G S) as (p & Y). rewrite app_nil_r. exists p. apply yes_rule.
      alt 0; [now apply yes_rule|others|others].
      + apply loses_no, no_and. eapply allno_later; [apply yes_rule, Y| |discriminate]. apply allno_now. gone.
      + apply loses_no, no_and. eapply allno_later; [apply yes_rule, Y| |discriminate]. apply allno_now. gone.
    - assert (stop set_stops (K "," :: K "..." :: [K ")"])) as S by stopi. destruct (yes_set root _ G S) as (p & Y). exists Tight. apply yes_rule.
      alt 1.
      + apply yes_and. rewrite map_app. eapply all_cons; [apply yes_rule, Y| |discriminate|dull].
        eapply all_eq; [eapply all_cons; [eapply yes_sup, yes_lit|apply all_last, yes_lit|discriminate|dull]|reflexivity].
      + others. apply (loses_less _ _ _ _ (K ",") [K "..."] _ p (map Str (set_items root))). apply yes_rule, Y.
      + others. apply loses_no, no_and. eapply allno_later; [apply yes_rule, Y| |discriminate].
        eapply allno_later; [eapply yes_sup, yes_lit| |discriminate]. eapply allno_later; [apply yes_lit| |discriminate].
        apply allno_now. gone.
    - assert (stop set_stops (K "," :: K "..." :: K "," :: set_toks s ++ [K ")"])) as S by stopi. destruct (yes_set root _ G S) as (p & Y).
      assert (stop set_stops [K ")"]) as S' by stopi. destruct (yes_set s _ GM S') as (p' & Y'). exists p'. apply yes_rule.
      alt 2.
      + apply yes_and. rewrite map_app. eapply all_cons; [apply yes_rule, Y| |discriminate|dull].
        eapply all_eq; [eapply all_cons; [eapply yes_sup, yes_lit| |discriminate|dull]|reflexivity].
        eapply all_eq; [eapply all_cons; [apply yes_lit| |discriminate|dull]|].
        * eapply all_cons; [eapply yes_sup, yes_lit|apply all_last, yes_rule, Y'|now apply set_not_nil|dull].
        * reflexivity.
      + others.
        * apply (loses_less _ _ _ _ (K ",") (K "..." :: K "," :: set_toks s) _ p (map Str (set_items root))). apply yes_rule, Y.
        * apply (loses_less _ _ _ _ (K ",") (set_toks s) _ Tight (map Str (set_items root) ++ [Str "..."])).
          apply yes_and. eapply all_cons; [apply yes_rule, Y| |discriminate|dull].
          eapply all_eq; [eapply all_cons; [eapply yes_sup, yes_lit|apply all_last, yes_lit|discriminate|dull]|reflexivity].
      + others. }
  eapply all_cons; [alt 0; [exact Y|others|others]| |discriminate|dull].
  eapply all_eq; [eapply all_cons; [alt 0; [apply yes_empty|others|others]|apply all_last; eapply yes_sup, yes_lit|discriminate|dull]|reflexivity].
Qed.
