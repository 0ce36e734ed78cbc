(** The types: what the parser of Grammar.v does with the items of a type. *)

From Coq Require Import ZArith List String Ascii Bool Arith Lia.
Import ListNotations.
From Verif Require Import PyBase Generator Emit Exec Meaning Subtypes Grammar Texts Tokens Reads Nests.

Open Scope string_scope.
Open Scope list_scope.
Open Scope nat_scope.

(** What may follow a type. *)
Definition after_type (l : list token) : Prop :=
  exists d l', l = d :: l' /\ disjoint (COne "(") (tok_cls d) = true /\ disjoint (COne "{") (tok_cls d) = true /\
               disjoint (COne ".") (tok_cls d) = true.
Definition not_brace (l : list token) : Prop := exists d l', l = d :: l' /\ disjoint (COne "{") (tok_cls d) = true.
Definition not_paren (l : list token) : Prop := exists d l', l = d :: l' /\ disjoint (COne "(") (tok_cls d) = true.
Lemma after_brace : forall l, after_type l -> not_brace l.
Proof. intros l (d & l' & E & _ & X & _). now exists d, l'. Qed.
Lemma after_paren : forall l, after_type l -> not_paren l.
Proof. intros l (d & l' & E & X & _ & _). now exists d, l'. Qed.
Lemma after_dot : forall l, after_type l -> undotted l.
Proof. intros l (d & l' & E & _ & _ & X). now exists d, l'. Qed.
Lemma after_not_nil : forall l, after_type l -> l <> [].
Proof. intros l (d & l' & -> & _). discriminate. Qed.

Lemma no_nest : forall l, not_paren l -> No g_nest l.
Proof. intros l (d & l' & -> & F). apply (no_dead 2). exact F. Qed.
Lemma no_open : forall l, not_brace l -> No (sup "{") l.
Proof. intros l (d & l' & -> & F). apply no_sup, no_lit, F. Qed.

Definition defined (n : string) : ptype := new_obj KDefined n.

(** ** The alternatives of Type *)

Lemma type_plain : forall k l0 l p, Yes g_builtin (k :: l0) l Tight [Obj p] -> Loses false Tight (k :: l0) l (PGroup g_referenced) ->
  No g_sized_list (k :: l0) -> after_type l -> Yes (PRule RType) (k :: l0) l Tight [Grp [Obj p]].
Proof.
  intros k l0 l p Y L N A. apply yes_rule. alt 0; [now apply yes_group|others|]. apply Forall_cons; [exact L|]. apply Forall_cons; [|apply Forall_nil].
  apply loses_no, no_group, no_act, no_or. apply Forall_cons; [|apply Forall_cons; [exact N|apply Forall_nil]].
  apply no_and. eapply allno_later; [exact Y| |now apply after_not_nil]. apply allno_now, no_nest. now apply after_paren.
Qed.
Lemma type_with : forall k l0 m l p c, Yes g_builtin (k :: l0) (K "(" :: m ++ l) Tight [Obj p] -> Yes g_nest (K "(" :: m ++ l) l Tight [Con c] ->
  Loses true Tight (k :: l0) l (PGroup g_referenced) -> No g_sized_list (k :: l0) ->
  Yes (PRule RType) (k :: l0) l Tight [Grp [Obj (set_con c p)]].
Proof.
  intros k l0 m l p c Y YN L N. apply yes_rule. alt 2; [| |apply Forall_nil].
  - apply yes_group. apply (yes_act _ _ _ _ _ [Obj p; Con c]); [discriminate| |reflexivity]. alt 0.
    + apply yes_and. apply (all_cons _ _ _ _ _ _ _ [Obj p] [Con c] Y); [now apply all_last|discriminate|dull].
    + apply Forall_nil.
    + apply Forall_cons; [now apply loses_no|apply Forall_nil].
  - apply Forall_cons; [|apply Forall_cons; [exact L|apply Forall_nil]]. eapply loses_less. apply yes_group. exact Y.
Qed.

(** ** References *)

Lemma yes_referenced : forall k l, undotted l -> (exists n, k = R n) \/ (exists n, k = K n /\ type_word n = true) ->
  Yes g_referenced (k :: l) l Tight [Obj (defined (t_text k))].
Proof.
  intros k l U E. alt 0; [|others|others]. apply (yes_act _ _ _ _ _ [Str (t_text k)]); [discriminate| |reflexivity].
  assert (Yes typereference (k :: l) l Tight [Str (t_text k)]) as Y.
  { destruct E as [(n & ->)|(n & -> & W)]; [apply yes_type|now apply yes_type_word]. }
  alt 1; [exact Y| |others]. apply Forall_cons; [|apply Forall_nil]. apply loses_no, no_and. destruct U as (d & l' & -> & U).
  eapply allno_later; [exact Y| |discriminate]. apply allno_now, no_lit, U.
Qed.

(** ** Lists *)

Definition commas (xs : list (list token)) : list token := flat_map (fun x => K "," :: x) xs.
Section Lists.
Variables (e : pexp) (F : list token -> Prop).
Hypothesis FC : forall l, F (K "," :: l).
Definition item_ok (x : list token * list tok) : Prop := forall l, F l -> Yes e (fst x ++ l) l Tight (snd x).

Lemma yes_comma : forall x l, item_ok x -> F l -> l <> [] -> Yes (PAnd [comma; e]) (K "," :: fst x ++ l) l Tight (snd x).
Proof.
  intros x l OK FL N. apply yes_and. rewrite <- (app_nil_l (snd x)). eapply all_cons; [eapply yes_sup, yes_lit|apply all_last, OK, FL| |dull].
  destruct (fst x); [exact N|discriminate].
Qed.
Lemma reads_commas : forall xs l, xs <> [] -> Forall item_ok xs -> F l -> l <> [] -> No (PAnd [comma; e]) l ->
  Reads (PAnd [comma; e]) (commas (map fst xs) ++ l) l Tight (List.concat (map snd xs)).
Proof.
  induction xs as [|x xs IH]; intros l N OK FL NL NO; [congruence|]. inversion OK as [|? ? OX OXS]; subst. cbn [map commas flat_map List.concat app]. fold (commas (map fst xs)).
  rewrite <- app_assoc. destruct xs as [|y xs].
  - cbn [map commas flat_map List.concat app]. rewrite app_nil_r. apply reads_last; [now apply yes_comma|exact NO|exact NL].
  - eapply reads_cons; [apply yes_comma; [exact OX|apply FC|discriminate]|apply IH; auto; discriminate|discriminate|dull].
Qed.
Lemma yes_separated : forall x xs l, item_ok x -> Forall item_ok xs -> F l -> l <> [] -> No (PAnd [comma; e]) l -> exists p,
  Yes (separated e) ((fst x ++ commas (map fst xs)) ++ l) l p (snd x ++ List.concat (map snd xs)).
Proof.
  intros x xs l OX OXS FL NL NO. rewrite <- app_assoc. destruct xs as [|y xs].
  - exists Skipped. alt 0; [|others|others]. cbn [map commas flat_map List.concat app]. apply yes_and.
    eapply all_cons; [now apply OX| |exact NL|dull]. apply all_last. now apply yes_many_none.
  - exists Tight. alt 0; [|others|others]. apply yes_and. inversion OXS as [|? ? OY OYS]; subst.
    eapply all_cons; [apply OX; apply FC| |discriminate|dull]. apply all_last. cbn [map commas flat_map List.concat app]. fold (commas (map fst xs)). rewrite <- app_assoc.
    destruct xs as [|w xs].
    + cbn [map commas flat_map List.concat app]. rewrite app_nil_r. apply (yes_once (PAnd [comma; e])); [now apply yes_comma|exact NO|exact NL].
    + eapply (yes_reads (PAnd [comma; e])); [apply yes_comma; [exact OY|apply FC|discriminate]|apply reads_commas; auto; discriminate|discriminate|dull].
Qed.
End Lists.

(** ** Names of values and bits *)

Lemma yes_signed : forall z l, Yes g_signed (num_toks z ++ l) l Tight [Str (num_text z)].
Proof.
  intros z l. unfold num_toks. destruct (Z.ltb_spec z 0) as [LT|GE]; cbn [app].
  - rewrite (num_text_neg z LT). apply (yes_act _ _ _ _ _ [Str "-"; Str (num_text (- z))]); [discriminate| |reflexivity]. alt 1; [|others|others].
    apply yes_and. apply (all_cons _ _ _ (D (num_text (- z)) :: l) _ Tight _ [Str "-"] [Str (num_text (- z))]); [apply yes_lit|apply all_last, yes_number|discriminate|dull].
  - apply (yes_act _ _ _ _ _ [Str (num_text z)]); [discriminate| |reflexivity]. alt 0; [|others|others]. apply yes_number.
Qed.
Lemma no_defined_num : forall z l, No g_defined_value (num_toks z ++ l).
Proof. intros z l. unfold num_toks. destruct (z <? 0)%Z; cbn [app]; gone. Qed.
Lemma no_type_num : forall z l, No g_defined_type (num_toks z ++ l).
Proof. intros z l. unfold num_toks. destruct (z <? 0)%Z; cbn [app]; gone. Qed.
Lemma yes_mark : forall l, spells_mark false l -> exists ts, forall l', Yes g_named_number (l ++ l') l' Tight ts.
Proof.
  intros l M. inversion M as [? n z W _ E1 E2|n m W W' E1 E2]; subst.
  - exists [Grp [Str n; Str (num_text z)]]. intros l'. cbn [app]. rewrite <- app_assoc. cbn [app]. alt 0; [|others|].
    + apply yes_group, yes_and. eapply all_eq; [eapply all_cons; [apply yes_ident| |discriminate|dull]|reflexivity].
      eapply all_eq; [eapply all_cons; [eapply yes_sup, yes_lit| |destruct (num_toks z); discriminate|dull]|reflexivity].
      eapply all_eq; [eapply all_cons; [apply yes_signed| |discriminate|dull]|reflexivity]. apply all_last. eapply yes_sup, yes_lit.
    + apply Forall_cons; [|apply Forall_nil]. apply loses_no, no_group, no_and. eapply allno_later; [apply yes_ident| |discriminate].
      eapply allno_later; [eapply yes_sup, yes_lit| |destruct (num_toks z); discriminate]. apply allno_now, no_defined_num.
  - exists [Grp [Str n; Str m]]. intros l'. cbn [app]. alt 1; [| |others].
    + apply yes_group, yes_and. eapply all_eq; [eapply all_cons; [apply yes_ident| |discriminate|dull]|reflexivity].
      eapply all_eq; [eapply all_cons; [eapply yes_sup, yes_lit| |discriminate|dull]|reflexivity].
      assert (Yes g_defined_value (I m :: K ")" :: l') (K ")" :: l') Tight [Str m]) as YM by (alt 1; [apply yes_ident|others|others]).
      eapply all_eq; [eapply all_cons; [exact YM|apply all_last; eapply yes_sup, yes_lit|discriminate|dull]|reflexivity].
    + apply Forall_cons; [|apply Forall_nil]. apply loses_no, no_group, no_and. eapply allno_later; [apply yes_ident| |discriminate].
      eapply allno_later; [eapply yes_sup, yes_lit| |discriminate]. apply allno_now. gone.
Qed.
Lemma yes_bit : forall l, spells_mark true l -> exists ts, forall l', Yes g_named_bit (l ++ l') l' Tight ts.
Proof.
  intros l M. inversion M as [? n z W P E1 E2|n m W W' E1 E2]; subst. exists [Str n; Str (num_text z)]. intros l'. cbn [app]. rewrite <- app_assoc.
  pose proof (no_type_num z ([K ")"] ++ l')) as NT. revert NT. unfold num_toks. destruct (Z.ltb_spec z 0) as [LT|GE]; [specialize (P eq_refl); lia|]. cbn [app]. intros NT. alt 0; [|others|].
  + apply yes_and. eapply all_eq; [eapply all_cons; [apply yes_ident| |discriminate|dull]|reflexivity].
    eapply all_eq; [eapply all_cons; [eapply yes_sup, yes_lit| |discriminate|dull]|reflexivity].
    eapply all_eq; [eapply all_cons; [apply yes_number| |discriminate|dull]|reflexivity]. apply all_last. eapply yes_sup, yes_lit.
  + apply Forall_cons; [|apply Forall_nil]. apply loses_no, no_and. eapply allno_later; [apply yes_ident| |discriminate].
    eapply allno_later; [eapply yes_sup, yes_lit| |discriminate]. apply allno_now, NT.
Qed.
Lemma yes_marks : forall bits e, (forall l, spells_mark bits l -> exists ts, forall l', Yes e (l ++ l') l' Tight ts) ->
  forall l, spells_marks bits l -> exists x xs, l = fst x ++ commas (map fst xs) /\
  item_ok e (fun _ => True) x /\ Forall (item_ok e (fun _ => True)) xs.
Proof.
  intros bits e one l SM. induction SM as [b l M|b l l' M SM IH].
  - destruct (one l M) as (ts & Y). exists (l, ts), []. cbn [fst map commas flat_map]. rewrite app_nil_r. split; [reflexivity|]. split; [|constructor]. intros l' _. apply Y.
  - destruct (one l M) as (ts & Y). destruct (IH one) as (x & xs & -> & OX & OXS). exists (l, ts), (x :: xs). split; [reflexivity|]. split; [|now constructor].
    intros l1 _. apply Y.
Qed.
Lemma yes_braces : forall bits e, (forall l, spells_mark bits l -> exists ts, forall l', Yes e (l ++ l') l' Tight ts) ->
  forall l l' k, spells_marks bits l -> No (PAnd [comma; e]) (K "}" :: l') -> exists ts,
  Yes (PAnd [lit k; sup "{"; separated e; sup "}"]) (K k :: K "{" :: l ++ K "}" :: l') l' Tight ts.
Proof.
  intros bits e one l l' k SM NO. destruct (yes_marks bits e one l SM) as (x & xs & -> & OX & OXS).
  destruct (yes_separated e (fun _ => True) (fun _ => Logic.I) x xs (K "}" :: l') OX OXS Logic.I) as (p & Y); [discriminate|exact NO|].
  assert ((fst x ++ commas (map fst xs)) ++ K "}" :: l' <> []) as NN by (destruct (fst x ++ commas (map fst xs)); discriminate).
  eexists. apply yes_and. eapply all_cons; [apply yes_lit| |discriminate|dull].
  eapply all_cons; [eapply yes_sup, yes_lit| |exact NN|dull]. eapply all_cons; [exact Y|apply all_last; eapply yes_sup, yes_lit|discriminate|dull].
Qed.

(** ** The simple types *)

Lemma b_boolean : forall l, Yes g_builtin (K "BOOLEAN" :: l) l Tight [Obj (new_obj KBool "BooleanType")].
Proof.
  intros l. alt 1; [|others|others]. apply (yes_act _ _ _ _ _ [Str "BOOLEAN"]); [discriminate|apply yes_lit|reflexivity].
Qed.
Lemma b_integer : forall m l, spells_marked false m -> not_brace l -> Yes g_builtin (K "INTEGER" :: m ++ l) l Tight [Obj (new_obj KInt "IntegerType")].
Proof.
  intros m l SM B'. alt 6; [|others|others]. inversion SM as [b E|b m0 MS E E2]; subst.
  - apply (yes_act _ _ _ _ _ [Str "INTEGER"]); [discriminate| |reflexivity].
    alt 0; [apply yes_lit|others|]. apply Forall_cons; [|apply Forall_nil]. apply loses_no, no_and.
    eapply allno_later; [apply yes_lit| |destruct B' as (? & ? & -> & _); discriminate]. now apply allno_now, no_open.
  - assert (No (PAnd [comma; g_named_number]) (K "}" :: l)) as NO by gone.
    cbn [app]. rewrite <- app_assoc. cbn [app]. destruct (yes_braces false g_named_number yes_mark m0 l "INTEGER" MS NO) as (ts & Y).
    apply (yes_act _ _ _ _ _ ts); [discriminate| |reflexivity]. alt 1; [exact Y| |others]. apply Forall_cons; [|apply Forall_nil].
    replace (K "{" :: m0 ++ K "}" :: l) with (K "{" :: (m0 ++ [K "}"]) ++ l) by now rewrite <- app_assoc.
    eapply loses_less. apply yes_lit.
Qed.
Lemma b_octets : forall l, Yes g_builtin (K "OCTET STRING" :: l) l Tight [Obj (new_obj KOcts "OctetStringType")].
Proof.
  intros l. alt 8; [|others|others]. apply (yes_act _ _ _ _ _ [Str "OCTET STRING"]); [discriminate|apply yes_lit|reflexivity].
Qed.
Lemma b_bits : forall m l, spells_marked true m -> not_brace l -> Yes g_builtin (K "BIT STRING" :: m ++ l) l Tight [Obj (new_obj KBits "BitStringType")].
Proof.
  intros m l SM B'. alt 0; [|others|others]. inversion SM as [b E|b m0 MS E E2]; subst.
  - apply (yes_act _ _ _ _ _ [Str "BIT STRING"]); [discriminate| |reflexivity].
    alt 0; [apply yes_lit|others|]. apply Forall_cons; [|apply Forall_nil]. apply loses_no, no_and.
    eapply allno_later; [apply yes_lit| |destruct B' as (? & ? & -> & _); discriminate]. now apply allno_now, no_open.
  - assert (No (PAnd [comma; g_named_bit]) (K "}" :: l)) as NO by gone.
    cbn [app]. rewrite <- app_assoc. cbn [app]. destruct (yes_braces true g_named_bit yes_bit m0 l "BIT STRING" MS NO) as (ts & Y).
    apply (yes_act _ _ _ _ _ ts); [discriminate| |reflexivity]. alt 1; [exact Y| |others]. apply Forall_cons; [|apply Forall_nil].
    replace (K "{" :: m0 ++ K "}" :: l) with (K "{" :: (m0 ++ [K "}"]) ++ l) by now rewrite <- app_assoc.
    eapply loses_less. apply yes_lit.
Qed.

(** The words in front of a type, seen as a reference. *)
Lemma word_same : forall k l, type_word k = true -> undotted l -> Loses false Tight (K k :: l) l (PGroup g_referenced).
Proof.
  intros k l W U. eapply loses_same. apply yes_group. apply yes_referenced; [exact U|eauto].
Qed.
Lemma word_less : forall b k t m l, type_word k = true -> undotted (t :: m ++ l) -> Loses b Tight (K k :: t :: m ++ l) l (PGroup g_referenced).
Proof.
  intros b k t m l W U. eapply loses_less. apply yes_group. apply yes_referenced; [exact U|eauto].
Qed.
Lemma word_first_less : forall b a z m l, type_word a = true -> wordlike z = true -> disjoint (COne ".") (tok_cls (K z)) = true ->
  Loses b Tight (K (a ++ " " ++ z) :: m ++ l) l (PGroup g_referenced).
Proof.
  intros b a z m l W WZ DZ. apply (loses_split b Tight a z (m ++ l) m l).
  - destruct a as [|c a]; [discriminate|]. cbn [type_word] in W. apply andb_prop in W as [W _]. unfold wordlike. cbn [starts]. now rewrite W.
  - exact WZ.
  - reflexivity.
  - apply (word_less b a (K z) m l W). exists (K z), (m ++ l). now split.
Qed.

(** ** A reference is none of the other types *)

Definition Partly (P : string -> Prop) (s : string) (e : pexp) : Prop := Fail e s \/ exists s' ts, Got e s s' ts /\ P s'.

Lemma best_of_all : forall P s es, Forall (Partly P s) es -> Forall (fun e => Fail e s) es \/
  exists es1 e es2 s' ts, es = es1 ++ e :: es2 /\ Got e s s' ts /\ P s' /\
    Forall (Beaten true (String.length s') s) es1 /\ Forall (Beaten false (String.length s') s) es2.
Proof.
  intros P s es F. induction F as [|e es PE F IH]; [now left|]. destruct PE as [FE|(s1 & ts1 & G1 & P1)].
  - destruct IH as [IH|(es1 & x & es2 & s' & ts & -> & G & PS & B1 & B2)]; [left; now constructor|]. right.
    exists (e :: es1), x, es2, s', ts. split; [reflexivity|]. split; [exact G|]. split; [exact PS|]. split; [|exact B2]. constructor; [now apply beaten_fail|exact B1].
  - right. destruct IH as [IH|(es1 & x & es2 & s' & ts & -> & G & PS & B1 & B2)].
    + exists [], e, es, s1, ts1. split; [reflexivity|]. split; [exact G1|]. split; [exact P1|]. split; [constructor|].
      eapply Forall_impl; [|exact IH]. intros y FY. now apply beaten_fail.
    + destruct (le_lt_dec (String.length s1) (String.length s')) as [LE|LT].
      * exists [], e, (es1 ++ x :: es2), s1, ts1. split; [reflexivity|]. split; [exact G1|]. split; [exact P1|]. split; [constructor|].
        apply Forall_app. split; [|constructor].
        { eapply Forall_impl; [|exact B1]. intros y [FY|(z & tz & EZ & LZ)]; [now left|]. right. exists z, tz. split; [exact EZ|]. lia. }
        { apply (beaten_got _ _ _ _ _ _ G). exact LE. }
        { eapply Forall_impl; [|exact B2]. intros y [FY|(z & tz & EZ & LZ)]; [now left|]. right. exists z, tz. split; [exact EZ|]. lia. }
      * exists (e :: es1), x, es2, s', ts. split; [reflexivity|]. split; [exact G|]. split; [exact PS|]. split; [|exact B2].
        constructor; [|exact B1]. apply (beaten_got _ _ _ _ _ _ G1). exact LT.
Qed.
Lemma partly_or : forall P s es, Forall (Partly P s) es -> Partly P s (POr es).
Proof.
  intros P s es F. destruct (best_of_all P s es F) as [A|(es1 & e & es2 & s' & ts & -> & G & PS & B1 & B2)].
  - left. now apply fail_or.
  - right. exists s', ts. split; [|exact PS]. now apply got_or.
Qed.
Lemma partly_act : forall P s a e, a <> ToConstraint -> (forall ts, exists ts', act_on a ts = Ok ts') -> Partly P s e -> Partly P s (PAct a e).
Proof.
  intros P s a e N A [F|(s' & ts & G & PS)]; [left; now apply fail_act|]. right. destruct (A ts) as (ts' & E). exists s', ts'. split; [|exact PS].
  exact (got_act _ _ _ _ _ _ N G E).
Qed.

(** Inside the name. *)
Definition Inside (z : string) (s : string) : Prop := starts is_word s = true /\ String.length z < String.length s.

Lemma prefixed_word : forall kw n z, all_chars is_word kw = true -> all_chars is_word n = true -> starts is_word z = false ->
  prefixed kw (n ++ z) = None \/ (kw = n /\ prefixed kw (n ++ z) = Some z) \/
  exists s', prefixed kw (n ++ z) = Some s' /\ Inside z s'.
Proof.
  induction kw as [|c kw IH]; intros n z AK AN Z'.
  - destruct n as [|d n]; [right; now left|]. right. right. eexists. split; [reflexivity|]. cbn [all_chars append starts] in *.
    apply andb_prop in AN as [AN _]. split; [exact AN|]. cbn [String.length]. rewrite length_app_s. lia.
  - cbn [all_chars] in AK. apply andb_prop in AK as [C AK]. destruct n as [|d n].
    + left. cbn [append]. destruct z as [|d z]; [reflexivity|]. cbn [prefixed starts] in *. destruct (Ascii.eqb_spec c d) as [->|]; [congruence|reflexivity].
    + cbn [append prefixed]. destruct (Ascii.eqb_spec c d) as [->|]; [|now left]. cbn [all_chars] in AN. apply andb_prop in AN as [_ AN].
      destruct (IH n z AK AN Z') as [E|[[-> E]|E]]; auto.
Qed.
Lemma word_all : forall k, type_word k = true -> all_chars is_word k = true.
Proof.
  intros [|c k] W; [discriminate|]. cbn [type_word all_chars] in *. apply andb_prop in W as [U W]. unfold is_word at 1. rewrite U. exact W.
Qed.

Section Name.
Variables (n : string) (l : list token) (s r : string).
Hypothesis L : laid (R n :: l) s r.
Let z := after [R n] s.
Local Lemma name_text : skip s = (n ++ z)%string /\ type_word n = true /\ starts is_word z = false /\ laid l z r.
Proof. destruct (laid_inv _ _ _ _ L) as (E & P & A & L'). split; [exact E|]. split; [exact P|]. split; [now apply A|exact L']. Qed.

Lemma word_on_name : forall kw, type_word kw = true -> kw <> n -> Partly (Inside z) s (lit kw).
Proof.
  intros kw W N. destruct name_text as (E & WN & Z' & _). destruct (prefixed_word kw n z (word_all _ W) (word_all _ WN) Z') as [X|[[X _]|(s' & X & IN)]].
  - left. apply fail_term. cbn [term]. now rewrite E, X.
  - congruence.
  - right. exists s', [Str kw]. split; [|exact IN]. apply got_term. cbn [term]. now rewrite E, X.
Qed.
Lemma words_on_name : forall a b, type_word a = true -> a <> n -> Fail (lit (a ++ String " " b)) s.
Proof.
  intros a b W N. destruct name_text as (E & WN & Z' & _). apply fail_term. cbn [term]. rewrite E.
  assert (forall p q t, prefixed (p ++ q) t = match prefixed p t with Some t' => prefixed q t' | None => None end) as PA.
  { induction p as [|c p IH]; intros q t; [reflexivity|]. cbn [append prefixed]. destruct t as [|d t]; [reflexivity|]. destruct (Ascii.eqb c d); [apply IH|reflexivity]. }
  rewrite PA. destruct (prefixed_word a n z (word_all _ W) (word_all _ WN) Z') as [X|[[X _]|(s' & X & IN)]]; [now rewrite X|congruence|].
  rewrite X. destruct IN as [IN _]. destruct s' as [|c s']; [discriminate|]. cbn [starts prefixed] in *. destruct (Ascii.eqb_spec " " c) as [<-|]; [discriminate|reflexivity].
Qed.
Lemma word_then : forall kw e es, type_word kw = true -> No e l -> (forall t, starts is_word t = true -> Fail e t) -> Fail (PAnd (lit kw :: e :: es)) s.
Proof.
  intros kw e es W N F. destruct name_text as (E & WN & Z' & L'). apply fail_and.
  destruct (prefixed_word kw n z (word_all _ W) (word_all _ WN) Z') as [X|[[_ X]|(s' & X & IN)]].
  - apply ands_fail, fail_term. cbn [term]. now rewrite E, X.
  - eapply ands_later; [apply got_term; cbn [term]; rewrite E, X; reflexivity|]. apply ands_fail. exact (N z r L').
  - eapply ands_later; [apply got_term; cbn [term]; rewrite E, X; reflexivity|]. apply ands_fail. apply F. apply IN.
Qed.
End Name.

Lemma open_on_word : forall t, starts is_word t = true -> Fail (sup "{") t.
Proof.
  intros [|c t] W; [discriminate|]. cbn [starts] in W. apply fail_sup, fail_term. cbn [term].
  assert (is_white c = false /\ Ascii.eqb "{" c = false) as [WH NE] by (revert W; clear; destruct c as [[] [] [] [] [] [] [] []]; vm_compute; try discriminate; auto).
  cbn [skip]. rewrite WH. cbn [prefixed]. now rewrite NE.
Qed.
Lemma nest_on_word : forall t, starts is_word t = true -> Fail g_nest t.
Proof.
  intros [|c t] W; [discriminate|]. cbn [starts] in W. apply fail_act, fail_nest.
  assert (is_white c = false /\ Ascii.eqb "(" c = false) as [WH NE] by (revert W; clear; destruct c as [[] [] [] [] [] [] [] []]; vm_compute; try discriminate; auto).
  cbn [skip]. rewrite WH. exact NE.
Qed.

Lemma builtin_on_name : forall n l s r, ~ In n reserved -> after_type l -> laid (R n :: l) s r ->
  Partly (Inside (after [R n] s)) s g_builtin.
Proof.
  intros n l s r NR A L.
  assert (forall kw, In kw reserved -> kw <> n) as NE by (intros kw I' ->; auto).
  assert (No (sup "{") l) as NB by now apply no_open, after_brace.
  assert (forall kw, type_word kw = true -> In kw reserved -> Partly (Inside (after [R n] s)) s (lit kw)) as W.
  { intros kw WK I'. apply (word_on_name n l s r L kw WK). now apply NE. }
  assert (forall kw es, type_word kw = true -> Fail (PAnd (lit kw :: sup "{" :: es)) s) as WO.
  { intros kw es WK. apply (word_then n l s r L kw _ es WK NB). exact open_on_word. }
  assert (forall a b, type_word a = true -> In a reserved -> Fail (lit (a ++ String " " b)) s) as WW.
  { intros a b WK I'. apply (words_on_name n l s r L a b WK). now apply NE. }
  apply partly_or. repeat apply Forall_cons; try apply Forall_nil.
  - apply partly_act; [discriminate|intros ts; eexists; reflexivity|]. left. apply fail_or. repeat apply Forall_cons; try apply Forall_nil.
    + apply (WW "BIT" "STRING"); [reflexivity|cbn; tauto].
    + apply fail_and, ands_fail. apply (WW "BIT" "STRING"); [reflexivity|cbn; tauto].
  - apply partly_act; [discriminate|intros ts; eexists; reflexivity|]. apply W; [reflexivity|cbn; tauto].
  - apply partly_or. repeat apply Forall_cons; try apply Forall_nil. apply partly_or. repeat apply Forall_cons; try apply Forall_nil;
      (apply partly_act; [discriminate|intros ts; eexists; reflexivity|]; apply W; [reflexivity|cbn; tauto]).
  - left. apply fail_act. now apply WO.
  - apply partly_act; [discriminate|intros ts; eexists; reflexivity|]. apply W; [reflexivity|cbn; tauto].
  - left. apply fail_act. now apply WO.
  - apply partly_act; [discriminate|intros ts; eexists; reflexivity|]. apply partly_or. repeat apply Forall_cons; try apply Forall_nil.
    + apply W; [reflexivity|cbn; tauto].
    + left. now apply WO.
  - apply W; [reflexivity|cbn; tauto].
  - left. apply fail_act. apply (WW "OCTET" "STRING"); [reflexivity|cbn; tauto].
  - apply partly_act; [discriminate|intros ts; eexists; reflexivity|]. apply W; [reflexivity|cbn; tauto].
  - left. apply fail_act, fail_or. repeat apply Forall_cons; try apply Forall_nil; now apply WO.
  - left. apply fail_act, fail_or. repeat apply Forall_cons; try apply Forall_nil; apply fail_and, ands_fail; (apply (WW "SEQUENCE" "OF"); [reflexivity|cbn; tauto]).
  - left. assert (No g_prefixed (R n :: l)) as N by gone. exact (N s r L).
Qed.

Lemma type_ref : forall n l, ~ In n reserved -> after_type l -> Yes (PRule RType) (R n :: l) l Tight [Grp [Obj (defined n)]].
Proof.
  intros n l NR A. pose proof (after_dot l A) as U. apply yes_rule. alt 1.
  - apply yes_group. apply (yes_referenced (R n) l U). eauto.
  - apply Forall_cons; [|apply Forall_nil]. intros c E s r L. assert (c = [R n]) as -> by (apply (app_inv_tail l); now rewrite <- E).
    cbn [cut]. destruct (builtin_on_name n l s r NR A L) as [F|(s' & ts & G & _ & LT)].
    + apply beaten_fail. now apply fail_group.
    + apply (beaten_got _ _ _ _ _ _ (got_group _ _ _ _ G)). exact LT.
  - apply Forall_cons; [|apply Forall_nil]. apply loses_no, no_group, no_act, no_or. repeat apply Forall_cons; try apply Forall_nil.
    + intros s r L. apply fail_and. destruct (builtin_on_name n l s r NR A L) as [F|(s' & ts & G & W & LT)].
      * now apply ands_fail.
      * eapply ands_later; [exact G|]. now apply ands_fail, nest_on_word.
    + apply no_act, no_or. pose proof (no_nest l (after_paren l A)) as NN.
      repeat apply Forall_cons; try apply Forall_nil; (intros s r L; apply (word_then n l s r L); [reflexivity|exact NN|exact nest_on_word]).
Qed.

(** ** Simple types with their constraints *)

Definition obj (t : asn) : ptype := built (own_ref t) "" Mandatory t.

Lemma type_integer : forall r m l0 l, spells_marked false m -> spells_values r l0 -> after_type l ->
  Yes (PRule RType) (K "INTEGER" :: (m ++ l0) ++ l) l Tight [Grp [Obj (obj (AInteger r))]].
Proof.
  intros r m l0 l SM SP A. destruct SP as [|r c SR].
  - rewrite app_nil_r. apply type_plain; [now apply b_integer; [|apply after_brace]| |gone|exact A].
    inversion SM as [b E|b m0 MS E E2]; subst; [apply word_same; [reflexivity|now apply after_dot]|]. cbn [app]. apply word_less; [reflexivity|]. eexists; eexists; split; reflexivity.
  - pose proof (yes_nest_values c _ l (range_ok r c SR)) as YN. rewrite <- app_assoc. cbn [app]. rewrite <- app_assoc. cbn [app].
    change (obj (AInteger (Some r))) with (set_con (bound_text (lower r), bound_text (upper r), extensible r) (new_obj KInt "IntegerType")).
    replace (c ++ K ")" :: l) with ((c ++ [K ")"]) ++ l) in * by now rewrite <- app_assoc.
    eapply type_with; [apply b_integer; [exact SM|eexists; eexists; split; reflexivity]|exact YN| |gone].
    inversion SM as [b E|b m0 MS E E2]; subst; cbn [app].
    + apply word_less; [reflexivity|]. eexists; eexists; split; reflexivity.
    + change (K "(" :: (c ++ [K ")"]) ++ l) with ((K "(" :: c ++ [K ")"]) ++ l). rewrite app_assoc. apply word_less; [reflexivity|]. eexists; eexists; split; reflexivity.
Qed.

Section Sized.
Variables (k : string) (p : ptype) (bits : bool).
Hypothesis Y : forall m l, spells_marked bits m -> not_brace l -> Yes g_builtin (K k :: m ++ l) l Tight [Obj p].
Hypothesis W : forall b m l, Loses b Tight (K k :: m ++ l) l (PGroup g_referenced).
Hypothesis N : forall l, No g_sized_list (K k :: l).

Lemma type_sized : forall r m l0 l, spells_marked bits m -> spells_size r l0 -> after_type l ->
  Yes (PRule RType) (K k :: (m ++ l0) ++ l) l Tight [Grp [Obj match range_con r with Some c => set_con c p | None => p end]].
Proof.
  intros r m l0 l SM SP A. destruct SP as [|r c SR].
  - rewrite app_nil_r. apply type_plain; [apply Y; [exact SM|now apply after_brace]|apply (W false m l)|apply N|exact A].
  - pose proof (yes_nest_size c _ l (range_ok r c SR)) as YN. cbn [range_con option_map]. rewrite <- app_assoc. cbn [app]. rewrite <- app_assoc. cbn [app].
    replace (K "SIZE" :: K "(" :: c ++ K ")" :: K ")" :: l) with ((K "SIZE" :: K "(" :: c ++ [K ")"; K ")"]) ++ l) in * by (cbn [app]; now rewrite <- app_assoc).
    eapply type_with; [apply Y; [exact SM|eexists; eexists; split; reflexivity]|exact YN| |apply N].
    pose proof (W true (m ++ K "(" :: K "SIZE" :: K "(" :: c ++ [K ")"; K ")"]) l) as X. rewrite <- app_assoc in X. exact X.
Qed.
End Sized.

Lemma type_octets : forall r l0 l, spells_size r l0 -> after_type l ->
  Yes (PRule RType) (K "OCTET STRING" :: l0 ++ l) l Tight [Grp [Obj (obj (AOctets r))]].
Proof.
  intros r l0 l SP A. assert (obj (AOctets r) = match range_con r with Some c => set_con c (new_obj KOcts "OctetStringType") | None => new_obj KOcts "OctetStringType" end) as -> by now destruct r.
  destruct SP as [|r c SR].
  - apply type_plain; [apply b_octets|apply (word_first_less false "OCTET" "STRING" []); reflexivity|gone|exact A].
  - pose proof (yes_nest_size c _ l (range_ok r c SR)) as YN. cbn [app range_con option_map]. rewrite <- app_assoc. cbn [app].
    replace (K "SIZE" :: K "(" :: c ++ K ")" :: K ")" :: l) with ((K "SIZE" :: K "(" :: c ++ [K ")"; K ")"]) ++ l) in * by (cbn [app]; now rewrite <- app_assoc).
    eapply type_with; [apply b_octets|exact YN| |gone].
    apply (word_first_less true "OCTET" "STRING" (K "(" :: K "SIZE" :: K "(" :: c ++ [K ")"; K ")"])); reflexivity.
Qed.
Lemma type_bits : forall r m l0 l, spells_marked true m -> spells_size r l0 -> after_type l ->
  Yes (PRule RType) (K "BIT STRING" :: (m ++ l0) ++ l) l Tight [Grp [Obj (obj (ABitstr r))]].
Proof.
  intros r m l0 l SM SP A. assert (obj (ABitstr r) = match range_con r with Some c => set_con c (new_obj KBits "BitStringType") | None => new_obj KBits "BitStringType" end) as -> by now destruct r.
  apply (type_sized "BIT STRING" _ true b_bits); [|intros; gone|exact SM|exact SP|exact A]. intros b m' l1. apply (word_first_less b "BIT" "STRING"); reflexivity.
Qed.
Lemma type_boolean : forall l, after_type l -> Yes (PRule RType) (K "BOOLEAN" :: l) l Tight [Grp [Obj (obj ABoolean)]].
Proof.
  intros l A. apply type_plain; [apply b_boolean|apply word_same; [reflexivity|now apply after_dot]|gone|exact A].
Qed.

(** ** ENUMERATED *)

Lemma yes_item : forall n l, not_paren l -> Yes (POr [identifier; g_named_number]) (I n :: l) l Tight [Str n].
Proof.
  intros n l NP. alt 0; [apply yes_ident|others|]. apply Forall_cons; [|apply Forall_nil]. apply loses_no, no_or.
  destruct NP as (d & l' & -> & F). repeat apply Forall_cons; try apply Forall_nil;
    (apply no_group, no_and; eapply allno_later; [apply yes_ident| |discriminate]; apply allno_now, no_sup, no_lit, F).
Qed.
Lemma names_list : forall ns l, spells_names ns l -> exists x xs, l = fst x ++ commas (map fst xs) /\
  item_ok (POr [identifier; g_named_number]) not_paren x /\ Forall (item_ok (POr [identifier; g_named_number]) not_paren) xs /\
  snd x ++ List.concat (map snd xs) = map Str ns.
Proof.
  intros ns l SP. induction SP as [n W|n ns l W SP (x & xs & E & OX & OXS & ET)].
  - exists ([I n], [Str n]), []. cbn [fst snd map commas flat_map List.concat]. split; [reflexivity|]. split; [|now split]. intros l F. now apply yes_item.
  - exists ([I n], [Str n]), (x :: xs). cbn [fst snd map commas flat_map List.concat app]. fold (commas (map fst xs)). rewrite E, ET. split; [reflexivity|].
    split; [|split; [now constructor|reflexivity]]. intros l' F. now apply yes_item.
Qed.
Lemma yes_enumeration : forall ns l0 l, spells_names ns l0 -> not_paren l -> No (PAnd [comma; POr [identifier; g_named_number]]) l ->
  exists p, Yes g_enumeration (l0 ++ l) l p (map Str ns).
Proof.
  intros ns l0 l SP NP NO. destruct (names_list ns l0 SP) as (x & xs & -> & OX & OXS & <-).
  apply (yes_separated _ not_paren); auto; [|destruct NP as (? & ? & -> & _); discriminate].
  intros l'. eexists; eexists; split; reflexivity.
Qed.
Lemma enum_strs : forall ns, enum_items (map Str ns) = Ok (map inl ns).
Proof. induction ns as [|n ns IH]; [reflexivity|]. cbn [map enum_items]. rewrite IH. reflexivity. Qed.

Lemma yes_exception : forall l, (exists d l', l = d :: l' /\ disjoint (COne "!") (tok_cls d) = true) -> Yes g_exception l l Skipped [].
Proof.
  intros l (d & l' & -> & F). alt 1; [apply yes_empty| |others]. apply Forall_cons; [|apply Forall_nil]. apply loses_no, no_and, allno_now, no_lit, F.
Qed.

Lemma enum_body : forall root adds l0 l, spells_type (AEnumer root adds) (K "ENUMERATED" :: K "{" :: l0 ++ [K "}"]) -> exists p,
  Yes g_enumerations (l0 ++ K "}" :: l) (K "}" :: l) p (map Str (root ++ match adds with Some a => "..." :: a | None => [] end)).
Proof.
  intros root adds l0 l SP.
  assert (forall x : list token, not_paren (K "}" :: x)) as P1 by (intros x; eexists; eexists; split; reflexivity).
  assert (forall x : list token, not_paren (K "," :: x)) as P2 by (intros x; eexists; eexists; split; reflexivity).
  inversion SP as [| | | |? l1 SN EQ1 EQ2|? l1 SN EQ1 EQ2|? ? l1 l2 SN SN' EQ1 EQ2| | | | | | | ]; subst.
  - apply app_inj_tail in EQ2 as [-> _]. assert (No (PAnd [comma; POr [identifier; g_named_number]]) (K "}" :: l)) as NO by gone.
    destruct (yes_enumeration root l0 (K "}" :: l) SN (P1 l) NO) as (p & Y). exists p. rewrite app_nil_r. alt 0; [exact Y|others|].
    repeat apply Forall_cons; try apply Forall_nil; (apply loses_no, no_and; eapply allno_later; [exact Y| |discriminate]; apply allno_now; gone).
  - assert (l0 = l1 ++ [K ","; K "..."]) as ->. { apply (app_inv_tail [K "}"]). now rewrite <- app_assoc. } rewrite <- app_assoc. cbn [app].
    assert (No (PAnd [comma; POr [identifier; g_named_number]]) (K "," :: K "..." :: K "}" :: l)) as NO.
    { apply no_and. eapply allno_later; [eapply yes_sup, yes_lit| |discriminate]. apply allno_now. gone. }
    destruct (yes_enumeration root l1 _ SN (P2 _) NO) as (p & Y). exists Skipped.
    assert (Yes g_exception (K "}" :: l) (K "}" :: l) Skipped []) as YE by (apply yes_exception; eexists; eexists; split; reflexivity).
    rewrite map_app. alt 1.
    + apply yes_and. eapply all_cons; [exact Y| |discriminate|dull].
      eapply all_eq; [eapply all_cons; [eapply yes_sup, yes_lit|eapply all_cons; [apply yes_lit|apply all_last, YE|discriminate|dull]|discriminate|dull]|reflexivity].
    + apply Forall_cons; [|apply Forall_nil]. apply (loses_less _ _ _ _ (K ",") [K "..."] (K "}" :: l) _ _ Y).
    + apply Forall_cons; [|apply Forall_nil]. apply loses_no, no_and. eapply allno_later; [exact Y| |discriminate].
      eapply allno_later; [eapply yes_sup, yes_lit| |discriminate]. eapply allno_later; [apply yes_lit| |discriminate].
      eapply allno_later; [exact YE| |discriminate]. apply allno_now. gone.
  - assert (l0 = l1 ++ K "," :: K "..." :: K "," :: l2) as ->. { apply (app_inv_tail [K "}"]). rewrite <- app_assoc. cbn [app]. now rewrite EQ2. } clear EQ2.
    rewrite <- app_assoc. cbn [app].
    assert (No (PAnd [comma; POr [identifier; g_named_number]]) (K "," :: K "..." :: K "," :: l2 ++ K "}" :: l)) as NO.
    { apply no_and. eapply allno_later; [eapply yes_sup, yes_lit| |discriminate]. apply allno_now. gone. }
    assert (No (PAnd [comma; POr [identifier; g_named_number]]) (K "}" :: l)) as NO2 by gone.
    destruct (yes_enumeration root l1 _ SN (P2 _) NO) as (p & Y). destruct (yes_enumeration _ l2 (K "}" :: l) SN' (P1 l) NO2) as (p2 & Y2). exists p2.
    assert (Yes g_exception (K "," :: l2 ++ K "}" :: l) (K "," :: l2 ++ K "}" :: l) Skipped []) as YE by (apply yes_exception; eexists; eexists; split; reflexivity).
    assert (l2 ++ K "}" :: l <> []) as NN by (destruct l2; discriminate).
    rewrite map_app. alt 2; [| |apply Forall_nil].
    + apply yes_and. eapply all_cons; [exact Y| |discriminate|dull].
      eapply all_eq; [eapply all_cons; [eapply yes_sup, yes_lit|eapply all_cons; [apply yes_lit|eapply all_cons; [exact YE|
        eapply all_cons; [eapply yes_sup, yes_lit|apply all_last, Y2|exact NN|dull]|discriminate|dull]|discriminate|dull]|discriminate|dull]|].
      reflexivity.
    + apply Forall_cons; [|apply Forall_cons; [|apply Forall_nil]].
      * apply (loses_less _ _ _ _ (K ",") (K "..." :: K "," :: l2) (K "}" :: l) _ _ Y).
      * eapply (loses_less _ _ _ _ (K ",") l2 (K "}" :: l)). apply yes_and. eapply all_cons; [exact Y| |discriminate|dull].
        eapply all_cons; [eapply yes_sup, yes_lit|eapply all_cons; [apply yes_lit|apply all_last, YE|discriminate|dull]|discriminate|dull].
Qed.
