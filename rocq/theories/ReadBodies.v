(** The structured types: what the parser of Grammar.v does with SEQUENCE, CHOICE,
    SEQUENCE OF and ENUMERATED; every type is read as the object of Meaning.v. *)

From Coq Require Import ZArith List String Ascii Bool Arith Lia.
Import ListNotations.
From Verif Require Import PyBase Generator Emit Exec Meaning Subtypes Grammar Texts Tokens Reads Nests ReadTypes.

Open Scope string_scope.
Open Scope list_scope.
Open Scope nat_scope.

Lemma b_enumer : forall root adds l0 l, spells_type (AEnumer root adds) (K "ENUMERATED" :: K "{" :: l0 ++ [K "}"]) ->
  Yes g_builtin (K "ENUMERATED" :: K "{" :: l0 ++ K "}" :: l) l Tight [Obj (obj (AEnumer root adds))].
Proof.
  intros root adds l0 l SP. destruct (enum_body root adds l0 l SP) as (p & Y). alt 5; [|others|others].
  apply (yes_act _ _ _ _ _ (Str "ENUMERATED" :: map Str (root ++ match adds with Some a => "..." :: a | None => [] end))); [discriminate| |].
  - apply yes_and. eapply all_eq; [eapply all_cons; [apply yes_lit|eapply all_cons; [eapply yes_sup, yes_lit|eapply all_cons; [exact Y|
      apply all_last; eapply yes_sup, yes_lit|discriminate|dull]| |]|discriminate|]|].
    + destruct l0; discriminate.
    + dull.
    + dull.
    + cbn [app]. now rewrite app_nil_r.
  - cbn [act_on tl]. rewrite enum_strs. cbn [bind]. unfold obj, built, set_members, new_obj. rewrite map_app. destruct adds; reflexivity.
Qed.
Lemma type_enumer : forall root adds l0 l, spells_type (AEnumer root adds) (K "ENUMERATED" :: K "{" :: l0 ++ [K "}"]) -> after_type l ->
  Yes (PRule RType) (K "ENUMERATED" :: K "{" :: l0 ++ K "}" :: l) l Tight [Grp [Obj (obj (AEnumer root adds))]].
Proof.
  intros root adds l0 l SP A. apply type_plain; [now apply b_enumer| |gone|exact A].
  replace (l0 ++ K "}" :: l) with ((l0 ++ [K "}"]) ++ l) by now rewrite <- app_assoc.
  apply word_less; [reflexivity|]. eexists; eexists; split; reflexivity.
Qed.

(** ** SEQUENCE OF *)

Lemma type_seqof : forall e l0 l, No identifier (l0 ++ l) -> Yes (PRule RType) (l0 ++ l) l Tight [Grp [Obj (obj e)]] -> after_type l ->
  Yes (PRule RType) (K "SEQUENCE OF" :: l0 ++ l) l Tight [Grp [Obj (obj (ASeqOf None e))]].
Proof.
  intros e l0 l NI Y A.
  assert (l0 ++ l <> []) as NN by (destruct l0; [now apply after_not_nil|discriminate]).
  apply type_plain; [| | |exact A].
  - alt 11; [|others|others].
    + apply (yes_act _ _ _ _ _ [Str "SEQUENCE OF"; Grp [Obj (obj e)]]); [discriminate| |reflexivity]. alt 0; [|others|].
      * apply yes_and. eapply all_eq; [eapply all_cons; [apply yes_lit|apply all_last, Y|exact NN|dull]|reflexivity].
      * apply Forall_cons; [|apply Forall_nil]. apply loses_no, no_and. eapply allno_later; [apply yes_lit| |exact NN].
        apply allno_now, no_and, allno_now, NI.
    + apply loses_no. apply (no_split "SEQUENCE" "OF"); [reflexivity|reflexivity|]. apply no_act, no_or.
      repeat apply Forall_cons; try apply Forall_nil; (apply no_and; eapply allno_later; [apply yes_lit| |discriminate]; apply allno_now; gone).
  - apply (word_first_less false "SEQUENCE" "OF"); reflexivity.
  - apply (no_split "SEQUENCE" "OF"); [reflexivity|reflexivity|]. apply no_act, no_or.
    repeat apply Forall_cons; try apply Forall_nil; [gone| |gone|]; (apply no_and; eapply allno_later; [apply yes_lit| |discriminate]; apply allno_now; gone).
Qed.
Lemma type_seqof_size : forall r e l1 l0 l, spells_size (Some r) l1 -> No identifier (l0 ++ l) -> Yes (PRule RType) (l0 ++ l) l Tight [Grp [Obj (obj e)]] ->
  after_type l -> Yes (PRule RType) (K "SEQUENCE" :: l1 ++ K "OF" :: l0 ++ l) l Tight [Grp [Obj (obj (ASeqOf (Some r) e))]].
Proof.
  intros r e l1 l0 l SP NI Y A. inversion SP as [|r' c SR E1 E2]; subst.
  assert (l0 ++ l <> []) as NN by (destruct l0; [now apply after_not_nil|discriminate]).
  pose proof (yes_nest_size c _ (K "OF" :: l0 ++ l) (range_ok r c SR)) as YN.
  cbn [app]. rewrite <- app_assoc. cbn [app].
  assert (forall e', No g_builtin (K "SEQUENCE" :: K "(" :: e')) as NB.
  { intros e'. apply no_or. repeat apply Forall_cons; try apply Forall_nil; try gone.
    apply no_act, no_or. repeat apply Forall_cons; try apply Forall_nil; (apply no_and; eapply allno_later; [apply yes_lit| |discriminate]; apply allno_now; gone). }
  apply yes_rule. alt 2; [|others|apply Forall_nil].
  - apply yes_group.
    apply (yes_act _ _ _ _ _ [Obj (obj (ASeqOf None e)); Con (bound_text (lower r), bound_text (upper r), extensible r)]); [discriminate| |reflexivity].
    alt 1; [| |others].
    + apply (yes_act _ _ _ _ _ [Str "SEQUENCE"; Con (bound_text (lower r), bound_text (upper r), extensible r); Str "OF"; Grp [Obj (obj e)]]); [discriminate| |reflexivity].
      alt 1; [|others|others].
      * apply yes_and. eapply all_eq; [eapply all_cons; [apply yes_lit|eapply all_cons; [exact YN|
          eapply all_cons; [apply yes_lit|apply all_last, Y|exact NN|dull]|discriminate|dull]|discriminate|dull]|reflexivity].
      * apply loses_no, no_and. eapply allno_later; [apply yes_lit| |discriminate]. eapply allno_later; [exact YN| |discriminate].
        eapply allno_later; [apply yes_lit| |exact NN]. apply allno_now, no_and, allno_now, NI.
    + apply Forall_cons; [|apply Forall_nil]. apply loses_no, no_and, allno_now, NB.
  - apply loses_no, no_group, NB.
  - assert (K "SIZE" :: K "(" :: c ++ K ")" :: K ")" :: K "OF" :: l0 ++ l = (K "SIZE" :: K "(" :: c ++ K ")" :: K ")" :: K "OF" :: l0) ++ l) as ->
      by (cbn [app]; now rewrite <- app_assoc).
    apply word_less; [reflexivity|]. eexists; eexists; split; reflexivity.
Qed.

(** ** Components *)

Lemma skip_same : forall s, String.length (skip s) = String.length s -> skip s = s.
Proof.
  intros [|c s] E; [reflexivity|]. cbn [skip] in *. destruct (is_white c); [|reflexivity].
  pose proof (skip_length s). cbn [String.length] in E. lia.
Qed.

Lemma yes_marker : forall l, (exists d l', l = d :: l' /\ disjoint (COne "!") (tok_cls d) = true) ->
  Yes g_marker (K "..." :: l) l Skipped [Str "..."].
Proof.
  intros l B'. destruct (yes_lit "..." l) as (c & E & Y).
  assert (Yes (PAnd [ellipsis; g_exception]) (K "..." :: l) l Skipped [Str "..."]) as (c2 & E2 & Y2).
  { apply yes_and. eapply all_eq; [eapply all_cons; [apply yes_lit|apply all_last, yes_exception, B'| |dull]|reflexivity].
    destruct B' as (? & ? & -> & _). discriminate. }
  assert (c = [K "..."]) as -> by (apply (app_inv_tail l); now rewrite <- E).
  assert (c2 = [K "..."]) as -> by (apply (app_inv_tail l); now rewrite <- E2).
  exists [K "..."]. split; [reflexivity|]. intros s r L. specialize (Y s r L). specialize (Y2 s r L). cbn [cut] in *.
  destruct (Nat.eq_dec (String.length (skip (after [K "..."] s))) (String.length (after [K "..."] s))) as [EQ|NE].
  - assert (skip (after [K "..."] s) = after [K "..."] s) as ES by now apply skip_same.
    rewrite ES in *. change g_marker with (POr ([] ++ ellipsis :: [PAnd [ellipsis; g_exception]])). apply got_or; [exact Y|apply Forall_nil|].
    apply Forall_cons; [|apply Forall_nil]. eapply beaten_got; [exact Y2|]. apply Nat.le_refl.
  - change g_marker with (POr ([ellipsis] ++ PAnd [ellipsis; g_exception] :: [])). apply got_or; [exact Y2| |apply Forall_nil].
    apply Forall_cons; [|apply Forall_nil]. eapply beaten_got; [exact Y|]. cbv iota. pose proof (skip_length (after [K "..."] s)). lia.
Qed.

(** What may follow a component. *)
Definition part_end (l : list token) : Prop := exists k l', l = K k :: l' /\ In k [","; "}"; "]]"].
Ltac ends F := let k := fresh "k" in let l' := fresh "l'" in let N := fresh "N" in
  destruct F as (k & l' & -> & N); cbn [In] in N; repeat (destruct N as [<-|N]); [..|contradiction].
Lemma part_end_type : forall l, part_end l -> after_type l.
Proof. intros l F. ends F; (eexists; eexists; repeat split; reflexivity). Qed.
Lemma part_end_value : forall l, part_end l -> undotted l.
Proof. intros l F. ends F; (eexists; eexists; split; reflexivity). Qed.
Lemma part_end_in : forall k l, In k [","; "}"; "]]"] -> part_end (K k :: l).
Proof. intros k l I'. now exists k, l. Qed.

Definition member (p : part asn) : string + ptype := match p with Part n s t => inr (built (own_ref t) n s t) end.
Definition body_of (ext : bool) (root adds : list (part asn)) (groups : list (list (part asn))) : list (string + ptype) :=
  map member root ++
  (if ext then
     inl "..." :: map member adds ++
     flat_map (fun g => inl "[[" :: map member g ++ [inl "]]"]) groups
   else []).
Lemma obj_sequence : forall ext root adds groups,
  obj (ASequence ext root adds groups) = set_members (body_of ext root adds groups) (new_obj KSeq "SequenceType").
Proof. reflexivity. Qed.
Lemma obj_choice : forall ext root adds groups,
  obj (AChoice ext root adds groups) = set_members (body_of ext root adds groups) (new_obj KChoice "ChoiceType").
Proof. reflexivity. Qed.
Lemma named_obj : forall n t, set_ident n (obj t) = built (own_ref t) n Mandatory t.
Proof. intros n t. destruct t; reflexivity. Qed.

Definition to_tok (m : string + ptype) : tok := match m with inl s => Str s | inr p => Obj p end.
Lemma members_back : forall ms, member_list (map to_tok ms) = Ok ms.
Proof. induction ms as [|[s|p] ms IH]; [reflexivity| |]; cbn [map to_tok member_list]; rewrite IH; reflexivity. Qed.

(** A named type, a component. *)
Definition TypeReads (t : asn) (l : list token) : Prop :=
  (forall rest, No identifier (l ++ rest)) /\
  forall rest, after_type rest -> Yes (PRule RType) (l ++ rest) rest Tight [Grp [Obj (obj t)]].
Lemma typereads_cons : forall t l rest, TypeReads t l -> after_type rest -> exists k l', l ++ rest = k :: l'.
Proof.
  intros t l rest _ A. destruct l as [|k l]; [|eexists; eexists; reflexivity]. destruct A as (d & l' & -> & _). eexists; eexists; reflexivity.
Qed.
Lemma yes_named : forall n t l rest, TypeReads t l -> after_type rest ->
  Yes g_named_type (I n :: l ++ rest) rest Tight [Str n; Grp [Obj (obj t)]].
Proof.
  intros n t l rest T A. apply yes_and. eapply all_eq; [eapply all_cons; [apply yes_ident|apply all_last, T, A| |dull]|reflexivity].
  destruct (typereads_cons t l rest T A) as (k & l' & ->). discriminate.
Qed.
Lemma yes_component : forall n s t l l' rest, TypeReads t l -> spells_status s l' -> part_end rest ->
  Yes g_component (I n :: (l ++ l') ++ rest) rest Tight [Obj (built (own_ref t) n s t)].
Proof.
  intros n s t l l' rest T SP F. rewrite <- app_assoc. destruct SP as [| |v GL].
  - pose proof (yes_named n t l rest T (part_end_type _ F)) as Y. cbn [app].
    apply (yes_act _ _ _ _ _ [Str n; Grp [Obj (obj t)]]); [discriminate| |cbn [act_on first_obj bind]; now rewrite named_obj].
    alt 0; [exact Y|others|]. repeat apply Forall_cons; try apply Forall_nil;
    (apply loses_no, no_and; eapply allno_later; [exact Y| |ends F; discriminate]; apply allno_now; ends F; gone).
  - assert (after_type (K "OPTIONAL" :: rest)) as A by (eexists; eexists; repeat split; reflexivity).
    pose proof (yes_named n t l _ T A) as Y. cbn [app].
    apply (yes_act _ _ _ _ _ [Str n; Grp [Obj (obj t)]; Str "OPTIONAL"]); [discriminate| |cbn [act_on first_obj bind]; rewrite named_obj; destruct t; reflexivity].
    alt 1.
    + apply yes_and. eapply all_eq; [eapply all_cons; [exact Y|apply all_last, yes_lit|discriminate|dull]|reflexivity].
    + apply Forall_cons; [|apply Forall_nil]. exact (loses_less _ _ _ _ (K "OPTIONAL") [] rest _ _ Y).
    + apply Forall_cons; [|apply Forall_nil]. apply loses_no, no_and. eapply allno_later; [exact Y| |discriminate]. apply allno_now; gone.
  - cbn [app]. assert (after_type (K "DEFAULT" :: lit_toks v ++ rest)) as A by (eexists; eexists; repeat split; reflexivity).
    pose proof (yes_named n t l _ T A) as Y.
    apply (yes_act _ _ _ _ _ [Str n; Grp [Obj (obj t)]; Str "DEFAULT"; Str (lit_text v)]); [discriminate| |cbn [act_on first_obj bind]; rewrite named_obj; destruct t; reflexivity].
    alt 2; [| |apply Forall_nil].
    + apply yes_and. eapply all_eq; [eapply all_cons; [exact Y|eapply all_cons; [apply yes_lit|apply all_last; apply yes_rule, value_lit, part_end_value, F| |dull]|discriminate|dull]|reflexivity].
      destruct (lit_toks v); [ends F; discriminate|discriminate].
    + apply Forall_cons; [|apply Forall_cons; [|apply Forall_nil]].
      * exact (loses_less _ _ _ _ (K "DEFAULT") (lit_toks v) rest _ _ Y).
      * apply loses_no, no_and. eapply allno_later; [exact Y| |discriminate]. apply allno_now; gone.
Qed.

(** *** Lists of components *)
Definition part_rule (choice : bool) : pexp := if choice then g_named_type else g_component.
Definition part_toks (choice : bool) (p : part asn) : list tok :=
  if choice then match p with Part n _ t => [Str n; Grp [Obj (obj t)]] end else [to_tok (member p)].
Definition add_rule (choice : bool) : pexp := if choice then g_alt_addition else g_addition.
Definition starts_name (l : list token) : Prop := exists n l', l = I n :: l' /\ value_word n = true.

Definition PartReads (choice : bool) (p : part asn) (l : list token) : Prop :=
  starts_name l /\ match p with Part n s _ => value_word n = true /\ (choice = true -> s = Mandatory) end /\
  item_ok (part_rule choice) part_end (l, part_toks choice p).
Definition PartsRead (choice : bool) (ps : list (part asn)) (l : list token) : Prop :=
  starts_name l /\ Forall (fun p => match p with Part n s _ => value_word n = true /\ (choice = true -> s = Mandatory) end) ps /\
  exists x xs, l = fst x ++ commas (map fst xs) /\ item_ok (part_rule choice) part_end x /\ Forall (item_ok (part_rule choice) part_end) xs /\
    snd x ++ List.concat (map snd xs) = flat_map (part_toks choice) ps.
Definition AddsRead (choice : bool) (adds : list (part asn)) (groups : list (list (part asn))) (l : list token) : Prop :=
  exists xs, l = commas (map fst xs) /\ Forall (item_ok (add_rule choice) part_end) xs /\
    List.concat (map snd xs) = map to_tok (map member adds ++ flat_map (fun g => inl "[[" :: map member g ++ [inl "]]"]) groups).

Lemma part_reads : forall choice n s t l l', value_word n = true -> TypeReads t l -> spells_status s l' -> (choice = true -> s = Mandatory) ->
  PartReads choice (Part n s t) (I n :: l ++ l').
Proof.
  intros choice n s t l l' W T SP C. split; [now exists n, (l ++ l')|]. split; [now split|]. intros rest F. cbn [fst snd]. destruct choice; cbn [part_rule part_toks].
  - rewrite C in SP by reflexivity. inversion SP; subst. rewrite app_nil_r. now apply yes_named, part_end_type.
  - now apply yes_component.
Qed.
Lemma parts_one : forall choice p l, PartReads choice p l -> PartsRead choice [p] l.
Proof.
  intros choice p l (N & V & OK). split; [exact N|]. split; [now constructor|]. exists (l, part_toks choice p), []. cbn [fst snd map commas flat_map List.concat].
  rewrite app_nil_r. repeat split; auto.
Qed.
Lemma parts_more : forall choice p ps l l', PartReads choice p l -> PartsRead choice ps l' -> PartsRead choice (p :: ps) (l ++ K "," :: l').
Proof.
  intros choice p ps l l' (N & V & OK) (_ & V' & x & xs & -> & OX & OXS & E). split.
  - destruct N as (n & l1 & -> & W). now exists n, (l1 ++ K "," :: fst x ++ commas (map fst xs)).
  - split; [now constructor|]. exists (l, part_toks choice p), (x :: xs). cbn [fst snd map commas flat_map List.concat]. fold (commas (map fst xs)). rewrite E. repeat split; auto.
Qed.

Lemma yes_parts : forall choice ps l rest, PartsRead choice ps l -> part_end rest -> No (PAnd [comma; part_rule choice]) rest ->
  exists p, Yes (separated (part_rule choice)) (l ++ rest) rest p (flat_map (part_toks choice) ps).
Proof.
  intros choice ps l rest (_ & _ & x & xs & -> & OX & OXS & <-) F NO. apply (yes_separated _ part_end); auto.
  - intros l. apply part_end_in. now left.
  - ends F; discriminate.
Qed.
Lemma yes_version : forall n l, Yes g_version (I n :: l) (I n :: l) Skipped [].
Proof. intros n l. alt 0; [apply yes_empty|others|others]. Qed.

(** The objects of the parts of a CHOICE. *)
Definition proper_part (choice : bool) (p : part asn) : Prop :=
  match p with Part n s _ => value_word n = true /\ (choice = true -> s = Mandatory) end.
Lemma not_mark : forall n m, value_word n = true -> starts is_lower m = false -> is_str m (Str n) = false.
Proof.
  intros n m W S. cbn [is_str]. destruct (String.eqb_spec n m) as [->|]; [|reflexivity]. destruct m as [|c m]; [discriminate|].
  cbn [value_word starts] in *. apply andb_prop in W as [W _]. congruence.
Qed.
Lemma pairs_parts : forall ps, Forall (proper_part true) ps -> pairs (flat_map (part_toks true) ps) = Ok (map to_tok (map member ps)).
Proof.
  intros ps F. induction F as [|[n s t] ps (W & C) F IH]; [reflexivity|]. cbn [flat_map part_toks app pairs map member to_tok first_obj bind].
  rewrite IH. cbn [bind]. rewrite named_obj. now rewrite C.
Qed.
Lemma no_marks : forall m ps, Forall (proper_part true) ps -> starts is_lower m = false -> existsb (is_str m) (flat_map (part_toks true) ps) = false.
Proof.
  intros m ps F S. induction F as [|[n s t] ps (W & C) F IH]; [reflexivity|]. cbn [flat_map part_toks app existsb].
  rewrite (not_mark n m W S), IH. reflexivity.
Qed.
Lemma drop_none : forall m l z, existsb (is_str m) l = false -> drop_first m (l ++ Str m :: z) = l ++ z.
Proof.
  intros m l z E. induction l as [|x l IH]; cbn [app drop_first].
  - cbn [is_str]. now rewrite String.eqb_refl.
  - cbn [existsb] in E. apply orb_false_elim in E as [-> E]. now rewrite IH.
Qed.
Lemma plain_parts : forall ps, flat_map (part_toks false) ps = map to_tok (map member ps).
Proof. induction ps as [|[n s t] ps IH]; [reflexivity|]. cbn [flat_map part_toks app map]. now rewrite IH. Qed.

(** *** Additions *)
Lemma no_adds : forall choice, AddsRead choice [] [] [].
Proof. intros choice. exists []. repeat split; auto. Qed.
Lemma add_reads : forall choice p ps gs l l', PartReads choice p l -> AddsRead choice ps gs l' -> AddsRead choice (p :: ps) gs (K "," :: l ++ l').
Proof.
  intros choice p ps gs l l' (N & V & OK) (xs & -> & OXS & E). exists ((l, [to_tok (member p)]) :: xs). cbn [fst snd map commas flat_map List.concat app].
  fold (commas (map fst xs)). rewrite E. repeat split; auto. apply Forall_cons; [|exact OXS]. intros rest F. specialize (OK rest F). cbn [fst snd] in *.
  destruct N as (n & l1 & -> & W). destruct p as [n' s t]. destruct choice; cbn [add_rule part_rule part_toks] in *.
  - apply (yes_act _ _ _ _ _ [Str n'; Grp [Obj (obj t)]]); [discriminate| |].
    + alt 1; [exact OK|others|others].
    + destruct V as (V & C). cbn [act_on]. unfold additions. cbn [existsb]. rewrite (not_mark n' "[[" V) by reflexivity. cbn [is_str orb].
      cbn [pairs first_obj bind]. rewrite named_obj, C by reflexivity. reflexivity.
  - alt 0; [exact OK|others|others].
Qed.
Lemma group_reads : forall choice g gs l l', PartsRead choice g l -> AddsRead choice [] gs l' -> AddsRead choice [] (g :: gs) (K "," :: K "[[" :: l ++ K "]]" :: l').
Proof.
  intros choice g gs l l' PR (xs & -> & OXS & E).
  exists ((K "[[" :: l ++ [K "]]"], map to_tok (inl "[[" :: map member g ++ [inl "]]"])) :: xs). cbn [fst snd map commas flat_map List.concat app].
  fold (commas (map fst xs)). split; [now rewrite <- app_assoc|]. split; [|rewrite E; cbn [map app flat_map to_tok]; now rewrite !map_app].
  apply Forall_cons; [|exact OXS]. intros rest F. cbn [fst snd].
  assert (part_end (K "]]" :: rest)) as F' by (apply part_end_in; cbn; tauto).
  assert (No (PAnd [comma; part_rule choice]) (K "]]" :: rest)) as NO by (destruct choice; gone).
  destruct (yes_parts choice g l (K "]]" :: rest) PR F' NO) as (p & Y). destruct PR as ((n & l1 & -> & W) & V & _).
  cbn [app] in *. rewrite <- app_assoc. cbn [app].
  assert (forall e, e = part_rule choice -> Yes (PAnd [lit "[["; g_version; separated e; lit "]]"]) (K "[[" :: I n :: l1 ++ K "]]" :: rest) rest Tight
    (Str "[[" :: flat_map (part_toks choice) g ++ [Str "]]"])) as YG.
  { intros e ->. apply yes_and. eapply all_eq; [eapply all_cons; [apply yes_lit|eapply all_cons; [apply yes_version|
      eapply all_cons; [exact Y|apply all_last, yes_lit|discriminate|dull]|discriminate|dull]|discriminate|dull]|reflexivity]. }
  destruct choice; cbn [add_rule part_rule] in *.
  - eapply yes_act; [discriminate| |].
    + alt 0; [apply (YG g_named_type eq_refl)|others|others].
    + cbn [act_on]. unfold additions. cbn [existsb is_str String.eqb Ascii.eqb Bool.eqb orb drop_first].
      rewrite drop_none by (apply no_marks; [exact V|reflexivity]). rewrite app_nil_r, pairs_parts by exact V. cbn [bind]. cbn [map to_tok]. now rewrite map_app.
  - alt 1; [|others|others]. eapply yes_eq; [apply (YG g_component eq_refl)|]. rewrite plain_parts. cbn [map to_tok]. now rewrite map_app.
Qed.

Definition adds_rule (choice : bool) : pexp := if choice then g_alt_additions else g_additions.
Lemma yes_additions : forall choice adds groups l rest, AddsRead choice adds groups l ->
  exists p, Yes (adds_rule choice) (l ++ K "}" :: rest) (K "}" :: rest) p
    (map to_tok (map member adds ++ flat_map (fun g => inl "[[" :: map member g ++ [inl "]]"]) groups)).
Proof.
  intros choice adds groups l rest (xs & -> & OXS & <-). destruct xs as [|x xs].
  - exists Skipped. cbn [map commas flat_map List.concat app]. destruct choice; cbn [adds_rule]; (alt 1; [apply yes_empty|others|others]).
  - inversion OXS as [|? ? OX OXS']; subst. cbn [map commas flat_map List.concat app]. fold (commas (map fst xs)).
    assert (forall k x, In k [","; "}"; "]]"] -> part_end (K k :: x)) as PE by (intros; now apply part_end_in).
    assert (exists p, Yes (separated (add_rule choice)) ((fst x ++ commas (map fst xs)) ++ K "}" :: rest) (K "}" :: rest) p (snd x ++ List.concat (map snd xs))) as (p & Y).
    { apply (yes_separated _ part_end); auto.
      - intros l. apply PE. cbn. tauto.
      - apply PE. cbn. tauto.
      - discriminate.
      - destruct choice; gone. }
    assert ((fst x ++ commas (map fst xs)) ++ K "}" :: rest <> []) as NN by (destruct (fst x ++ commas (map fst xs)); discriminate).
    exists p. assert (forall e, e = add_rule choice -> Yes (PAnd [comma; separated e]) (K "," :: (fst x ++ commas (map fst xs)) ++ K "}" :: rest) (K "}" :: rest) p (snd x ++ List.concat (map snd xs))) as YA.
    { intros e ->. apply yes_and. eapply all_eq; [eapply all_cons; [eapply yes_sup, yes_lit|apply all_last, Y|exact NN|dull]|reflexivity]. }
    destruct choice; cbn [adds_rule add_rule] in *; (alt 0; [now apply YA|others|]);
      (apply Forall_cons; [|apply Forall_nil]; eapply loses_less; apply yes_empty).
Qed.
Lemma yes_end : forall rest, Yes g_optional_marker (K "}" :: rest) (K "}" :: rest) Skipped [].
Proof. intros rest. alt 1; [apply yes_empty|others|others]. Qed.
Lemma no_end : forall es rest, AllNo (g_end_marker :: es) (K "}" :: rest).
Proof. intros es rest. apply allno_now. gone. Qed.

(** *** The whole of it *)
Lemma unbang : forall l rest, (exists xs : list (list token * list tok), l = commas (map fst xs)) ->
  exists d l', l ++ K "}" :: rest = d :: l' /\ disjoint (COne "!") (tok_cls d) = true.
Proof.
  intros l rest (xs & ->). destruct xs as [|x xs]; cbn [map commas flat_map app]; (eexists; eexists; split; reflexivity).
Qed.
Definition lists_rule (choice : bool) : pexp := if choice then g_alt_lists else g_component_lists.
Definition BodyReads (choice ext : bool) (root adds : list (part asn)) (groups : list (list (part asn))) (l : list token) : Prop :=
  starts_name l /\ forall rest, exists p, Yes (lists_rule choice) (l ++ K "}" :: rest) (K "}" :: rest) p (map to_tok (body_of ext root adds groups)).

(** The root components, as the rule for them has it. *)
Definition root_rule (choice : bool) : pexp := if choice then g_alternatives else g_components.
Lemma yes_root : forall choice ps l rest, PartsRead choice ps l -> part_end rest -> No (PAnd [comma; part_rule choice]) rest ->
  exists p, Yes (root_rule choice) (l ++ rest) rest p (map to_tok (map member ps)).
Proof.
  intros choice ps l rest PR F NO. destruct (yes_parts choice ps l rest PR F NO) as (p & Y). exists p. destruct PR as (_ & V & _).
  destruct choice; cbn [root_rule part_rule] in *.
  - eapply yes_act; [discriminate|exact Y|]. cbn [act_on]. now apply pairs_parts.
  - rewrite plain_parts in Y. exact Y.
Qed.
Lemma body_closed : forall choice root l, PartsRead choice root l -> BodyReads choice false root [] [] l.
Proof.
  intros choice root l PR. split; [apply PR|]. intros rest. assert (part_end (K "}" :: rest)) as F by (apply part_end_in; cbn; tauto).
  assert (No (PAnd [comma; part_rule choice]) (K "}" :: rest)) as NO by (destruct choice; gone).
  destruct (yes_root choice root l (K "}" :: rest) PR F NO) as (p & Y). exists p. unfold body_of. rewrite app_nil_r.
  destruct PR as ((n & l1 & -> & W) & _). destruct choice; cbn [lists_rule root_rule app] in *.
  - alt 0; [exact Y|others|]. apply Forall_cons; [|apply Forall_nil]. apply loses_no, no_and. eapply allno_later; [exact Y| |discriminate]. apply allno_now; gone.
  - alt 0; [exact Y|others|]. others; (apply loses_no, no_and; eapply allno_later; [exact Y| |discriminate]; apply allno_now; gone).
Qed.
Lemma body_open : forall choice root adds groups l l', PartsRead choice root l -> AddsRead choice adds groups l' ->
  BodyReads choice true root adds groups (l ++ K "," :: K "..." :: l').
Proof.
  intros choice root adds groups l l' PR AR. split.
  { destruct PR as ((n & l1 & -> & W) & _). now exists n, (l1 ++ K "," :: K "..." :: l'). }
  intros rest. rewrite <- app_assoc. cbn [app]. assert (part_end (K "," :: K "..." :: l' ++ K "}" :: rest)) as F by (apply part_end_in; cbn; tauto).
  assert (No (PAnd [comma; part_rule choice]) (K "," :: K "..." :: l' ++ K "}" :: rest)) as NO.
  { apply no_and. eapply allno_later; [eapply yes_sup, yes_lit| |discriminate]. apply allno_now. destruct choice; gone. }
  destruct (yes_root choice root l _ PR F NO) as (p & Y). destruct (yes_additions choice adds groups l' rest AR) as (p2 & Y2).
  assert (Yes g_marker (K "..." :: l' ++ K "}" :: rest) (l' ++ K "}" :: rest) Skipped [Str "..."]) as YM.
  { apply yes_marker, unbang. destruct AR as (xs & -> & _). eauto. }
  assert (l' ++ K "}" :: rest <> []) as NN by (destruct l'; discriminate).
  assert (forall e a, e = root_rule choice -> a = adds_rule choice -> Yes (PAnd [e; comma; g_marker; a; g_optional_marker]) (l ++ K "," :: K "..." :: l' ++ K "}" :: rest) (K "}" :: rest) Skipped (map to_tok (body_of true root adds groups))) as YA.
  { intros e a -> ->. apply yes_and. eapply all_eq; [eapply all_cons; [exact Y|eapply all_cons; [eapply yes_sup, yes_lit|eapply all_cons; [exact YM|
      eapply all_cons; [exact Y2|apply all_last, yes_end|discriminate|dull]|exact NN|dull]|discriminate|dull]|discriminate|dull]|].
    unfold body_of. rewrite !map_app. cbn [map app to_tok]. now rewrite !map_app, app_nil_r. }
  exists Skipped.
  pose proof (loses_less true Skipped _ _ (K ",") (K "..." :: l') (K "}" :: rest) _ _ Y) as LL.
  destruct PR as ((n & l1 & -> & W) & _). destruct choice; cbn [lists_rule root_rule adds_rule app] in *.
  - alt 1; [now apply YA| |apply Forall_nil]. apply Forall_cons; [exact LL|apply Forall_nil].
  - alt 1; [now apply YA| |others]; [apply Forall_cons; [exact LL|apply Forall_nil]|].
    apply loses_no, no_and. eapply allno_later; [exact Y| |discriminate]. eapply allno_later; [eapply yes_sup, yes_lit| |discriminate].
    eapply allno_later; [exact YM| |exact NN]. eapply allno_later; [exact Y2| |discriminate]. apply no_end.
Qed.

(** ** SEQUENCE and CHOICE *)

Lemma type_braced : forall k b l p, type_word k = true -> (forall rest, Yes g_builtin (K k :: K "{" :: b ++ K "}" :: rest) rest Tight [Obj p]) ->
  (forall rest, No g_sized_list (K k :: K "{" :: rest)) -> after_type l ->
  Yes (PRule RType) (K k :: K "{" :: (b ++ [K "}"]) ++ l) l Tight [Grp [Obj p]].
Proof.
  intros k b l p W Y N A. rewrite <- app_assoc. cbn [app]. apply type_plain; [apply Y| |apply N|exact A].
  replace (b ++ K "}" :: l) with ((b ++ [K "}"]) ++ l) by now rewrite <- app_assoc.
  apply word_less; [exact W|]. eexists; eexists; split; reflexivity.
Qed.
Lemma no_sized_sequence : forall rest, No g_sized_list (K "SEQUENCE" :: K "{" :: rest).
Proof.
  intros rest. apply no_act, no_or. repeat apply Forall_cons; try apply Forall_nil; [gone| |gone|];
    (apply no_and; eapply allno_later; [apply yes_lit| |discriminate]; apply allno_now; gone).
Qed.
Lemma members_act : forall a k w ms, (a = ToSequence /\ k = new_obj KSeq "SequenceType" \/ a = ToChoice /\ k = new_obj KChoice "ChoiceType") ->
  act_on a (Str w :: map to_tok ms) = Ok [Obj (set_members ms k)].
Proof.
  intros a k w ms [[-> ->]|[-> ->]]; cbn [act_on tl]; rewrite members_back; reflexivity.
Qed.

Lemma yes_braced : forall k e b rest p ts, Yes e (b ++ K "}" :: rest) (K "}" :: rest) p ts -> 
  Yes (PAnd [lit k; sup "{"; e; sup "}"]) (K k :: K "{" :: b ++ K "}" :: rest) rest Tight (Str k :: ts).
Proof.
  intros k e b rest p ts Y. assert (b ++ K "}" :: rest <> []) as NN by (destruct b; discriminate).
  apply yes_and. eapply all_eq; [eapply all_cons; [apply yes_lit|eapply all_cons; [eapply yes_sup, yes_lit|eapply all_cons; [exact Y|
      apply all_last; eapply yes_sup, yes_lit|discriminate|dull]|exact NN|dull]|discriminate|dull]|].
  cbn [app]. now rewrite app_nil_r.
Qed.
Lemma no_of : forall rest, No g_sequence_of (K "SEQUENCE" :: K "{" :: rest).
Proof. intros rest. gone. Qed.

Lemma sequence_body : forall b ms rest, No (sup "}") (b ++ K "}" :: rest) ->
  (exists p, Yes g_component_lists (b ++ K "}" :: rest) (K "}" :: rest) p (map to_tok ms)) ->
  Yes g_builtin (K "SEQUENCE" :: K "{" :: b ++ K "}" :: rest) rest Tight [Obj (set_members ms (new_obj KSeq "SequenceType"))].
Proof.
  intros b ms rest N (p & Y). alt 10; [|others|others].
  apply (yes_act _ _ _ _ _ (Str "SEQUENCE" :: map to_tok ms)); [discriminate| |apply members_act; now left]. alt 1; [|others|others].
  - exact (yes_braced _ _ _ _ _ _ Y).
  - apply loses_no, no_and. eapply allno_later; [apply yes_lit| |discriminate]. eapply allno_later; [eapply yes_sup, yes_lit| |destruct b; discriminate]. apply allno_now, N.
Qed.
Lemma sequence_empty : forall rest,
  Yes g_builtin (K "SEQUENCE" :: K "{" :: [] ++ K "}" :: rest) rest Tight [Obj (set_members [] (new_obj KSeq "SequenceType"))].
Proof.
  intros rest. cbn [app]. alt 10; [|others|others].
  apply (yes_act _ _ _ _ _ (Str "SEQUENCE" :: map to_tok [])); [discriminate| |apply members_act; now left]. alt 0; [|others|others].
  - apply yes_and. eapply all_eq; [eapply all_cons; [apply yes_lit|eapply all_cons; [eapply yes_sup, yes_lit|
      apply all_last; eapply yes_sup, yes_lit|discriminate|dull]|discriminate|dull]|reflexivity].
  - apply loses_no, no_and. eapply allno_later; [apply yes_lit| |discriminate]. eapply allno_later; [eapply yes_sup, yes_lit| |discriminate]. apply allno_now. gone.
Qed.
Lemma open_body : forall adds groups l rest, AddsRead false adds groups l ->
  exists p, Yes g_component_lists ((K "..." :: l) ++ K "}" :: rest) (K "}" :: rest) p (map to_tok (body_of true [] adds groups)).
Proof.
  intros adds groups l rest AR. cbn [app]. destruct (yes_additions false adds groups l rest AR) as (p2 & Y2). cbn [adds_rule] in Y2.
  assert (Yes g_marker (K "..." :: l ++ K "}" :: rest) (l ++ K "}" :: rest) Skipped [Str "..."]) as YM.
  { apply yes_marker, unbang. destruct AR as (xs & -> & _). eauto. }
  assert (l ++ K "}" :: rest <> []) as NN by (destruct l; discriminate).
  exists Skipped. alt 4; [|others|others].
  - apply yes_and. eapply all_eq; [eapply all_cons; [exact YM|eapply all_cons; [exact Y2|apply all_last, yes_end|discriminate|dull]|exact NN|dull]|].
    unfold body_of. cbn [map app to_tok]. now rewrite app_nil_r.
  - apply loses_no, no_and. eapply allno_later; [exact YM| |exact NN]. eapply allno_later; [exact Y2| |discriminate]. apply no_end.
Qed.
Lemma choice_body : forall b ms rest,
  (exists p, Yes g_alt_lists (b ++ K "}" :: rest) (K "}" :: rest) p (map to_tok ms)) ->
  Yes g_builtin (K "CHOICE" :: K "{" :: b ++ K "}" :: rest) rest Tight [Obj (set_members ms (new_obj KChoice "ChoiceType"))].
Proof.
  intros b ms rest (p & Y). alt 3; [|others|others].
  apply (yes_act _ _ _ _ _ (Str "CHOICE" :: map to_tok ms)); [discriminate| |apply members_act; now right].
  exact (yes_braced _ _ _ _ _ _ Y).
Qed.

(** ** Every type *)

Scheme type_mut := Minimality for spells_type Sort Prop
with part_mut := Minimality for spells_part Sort Prop
with parts_mut := Minimality for spells_parts Sort Prop
with adds_mut := Minimality for spells_adds Sort Prop
with body_mut := Minimality for spells_body Sort Prop.

Theorem types_read : forall t l, spells_type t l -> TypeReads t l.
Proof.
  apply (type_mut TypeReads PartReads PartsRead AddsRead BodyReads).
  - intros r m l SM SP. split; [intros; gone|]. intros rest A. now apply type_integer.
  - split; [intros; gone|]. intros rest A. now apply type_boolean.
  - intros r l SP. split; [intros; gone|]. intros rest A. now apply type_octets.
  - intros r m l SM SP. split; [intros; gone|]. intros rest A. now apply type_bits.
  - intros root l SP. split; [intros; gone|]. intros rest A. cbn [app]. rewrite <- app_assoc. apply type_enumer; [now constructor|exact A].
  - intros root l SP. split; [intros; gone|]. intros rest A. cbn [app].
    replace ((l ++ [K ","; K "..."; K "}"]) ++ rest) with ((l ++ [K ","; K "..."]) ++ K "}" :: rest) by now rewrite <- !app_assoc.
    apply type_enumer; [|exact A]. rewrite <- app_assoc. now constructor.
  - intros root adds l l' SP SP'. split; [intros; gone|]. intros rest A. cbn [app].
    replace ((l ++ K "," :: K "..." :: K "," :: l' ++ [K "}"]) ++ rest) with ((l ++ K "," :: K "..." :: K "," :: l') ++ K "}" :: rest)
      by (rewrite <- !app_assoc; cbn [app]; now rewrite <- !app_assoc).
    apply type_enumer; [|exact A]. rewrite <- app_assoc. cbn [app]. now constructor.
  - intros ext root adds groups l _ ((n & l1 & -> & W) & BR). split; [intros; gone|]. intros rest A. rewrite obj_sequence.
    apply (type_braced "SEQUENCE"); [reflexivity| |apply no_sized_sequence|exact A]. intros rest'. apply sequence_body; [gone|apply BR].
  - split; [intros; gone|]. intros rest A. rewrite obj_sequence.
    apply (type_braced "SEQUENCE" []); [reflexivity| |apply no_sized_sequence|exact A]. intros rest'. apply sequence_empty.
  - intros adds groups l _ AR. split; [intros; gone|]. intros rest A. rewrite obj_sequence.
    apply (type_braced "SEQUENCE" (K "..." :: l)); [reflexivity| |apply no_sized_sequence|exact A]. intros rest'. apply sequence_body; [gone|now apply open_body].
  - intros ext root adds groups l _ (_ & BR). split; [intros; gone|]. intros rest A. rewrite obj_choice.
    apply (type_braced "CHOICE"); [reflexivity| |intros; gone|exact A]. intros rest'. apply choice_body, BR.
  - intros e l _ (NI & Y). split; [intros; gone|]. intros rest A. apply type_seqof; auto.
  - intros r e l l' SP _ (NI & Y). split; [intros; gone|]. intros rest A. cbn [app]. rewrite <- app_assoc. cbn [app]. apply type_seqof_size; auto.
  - intros n W NR. split; [intros; gone|]. intros rest A. now apply type_ref.
  - intros choice n s t l l' W _ T SP C. now apply part_reads.
  - intros choice p l _ PR. now apply parts_one.
  - intros choice p ps l l' _ PR _ PRS. now apply parts_more.
  - intros choice. apply no_adds.
  - intros choice p ps gs l l' _ PR _ AR. now apply add_reads.
  - intros choice g gs l l' _ PRS _ AR. now apply group_reads.
  - intros choice root l _ PRS. now apply body_closed.
  - intros choice root adds groups l l' _ PRS _ AR. now apply body_open.
Qed.
