(** C74: the text of a generated module determines its statements. *)
From Coq Require Import ZArith List String Ascii Bool Arith Lia.
Import ListNotations.
From Verif Require Import PyBase Generator Emit Exec Grammar Texts Tokens GoldenVectors Printed.
Open Scope string_scope.
Open Scope list_scope.
Open Scope nat_scope.

(** * Statements whose names are words *)

Definition wordb (s : string) : bool := all_chars word_char s.
Definition solid (s : string) : bool := all_chars (fun c => negb (newline c)) s.
Definition is (s t : string) : bool := String.eqb s t.
Definition begins (p s : string) : bool := match prefixed p s with Some _ => true | None => false end.

Definition wf_arg (a : parg) : bool :=
  match a with
  | ARaw s => solid s && negb (is s "" || is s "True" || is s "False" || is s "None"
                              || begins "binValue=" s || begins "hexValue=" s || begins "'" s)
  | ABin s | AHex s | AQuoted s => solid s
  | ABool _ | ANone => true
  end.
Definition wf_expr (e : expr) : bool :=
  match e with
  | New c None | Const c => wordb c
  | New c (Some a) => wordb c && wf_arg a
  end.
Definition wf_entry (e : entry) : bool := wordb (e_name e) && wf_expr (e_expr e).
Definition wf_spec (s : spec) : bool := wordb (s_fn s) && wordb (s_lo s) && wordb (s_hi s).
Definition wf_value (v : string * nat) : bool := wordb (fst v).
Definition wf_opt (s : option spec) : bool := match s with Some s => wf_spec s | None => true end.

Fixpoint wf_class (c : pclass) : bool :=
  match c with
  | CLeaf n b s => wordb n && wordb b
                   && negb (is b "EnumeratedType" || is b "SequenceOfType" || is b "SequenceType" || is b "ChoiceType")
                   && wf_opt s
  | CEnum n b _ root adds => wordb n && is b "EnumeratedType" && forallb wf_value root && forallb wf_value adds
  | CSeqOf n b s e => wordb n && is b "SequenceOfType" && wf_opt s && wordb e
  | CComps n b subs _ root adds groups =>
    wordb n && (is b "SequenceType" || is b "ChoiceType") && forallb wf_class subs
    && forallb wf_entry root && forallb wf_entry adds && forallb (forallb wf_entry) groups
  end.
Definition wf_stmt (s : stmt) : bool :=
  match s with
  | SClass c => wf_class c
  | SAlias n t => negb (is n "") && wordb n && wordb t
  | SValue n c a => negb (is n "") && wordb n && wordb c && wf_arg a
  end.

(** * Texts *)

Lemma all_app : forall f a b, all_chars f (a ++ b) = all_chars f a && all_chars f b.
Proof. intros f a b. induction a as [|c a IH]; [reflexivity|]. cbn [append all_chars]. rewrite IH. now rewrite andb_assoc. Qed.

Lemma word_solid s : wordb s = true -> solid s = true.
Proof.
  unfold wordb, solid. induction s as [|c s IH]; [reflexivity|]. cbn [all_chars]. intros E. apply andb_prop in E as [W E].
  rewrite (IH E), andb_true_r. unfold newline. destruct (Ascii.eqb_spec c (ascii_of_nat 10)) as [->|]; [discriminate W|reflexivity].
Qed.

Lemma app_nil_s : forall s : string, (s ++ "")%string = s.
Proof. induction s as [|c s IH]; [reflexivity|]. cbn [append]. now rewrite IH. Qed.

Lemma ends_app s c : ends_with c (s ++ String c "") = true.
Proof.
  induction s as [|d s IH]; [cbn [append ends_with]; apply Ascii.eqb_refl|]. cbn [append ends_with].
  destruct (s ++ String c "")%string eqn:E; [destruct s; discriminate|exact IH].
Qed.
Lemma but_last_app s c : but_last (s ++ String c "") = s.
Proof.
  induction s as [|d s IH]; [reflexivity|]. cbn [append but_last].
  destruct (s ++ String c "")%string eqn:E; [destruct s; discriminate|]. now rewrite IH.
Qed.
Lemma without_app s c : without c (s ++ String c "") = Some s.
Proof. unfold without. now rewrite ends_app, but_last_app. Qed.

Lemma prefixed_lit p s : prefixed p (p ++ s) = Some s.
Proof. apply prefixed_app. Qed.

Lemma read_arg_text a : wf_arg a = true -> read_arg (arg_text a) = Some a.
Proof.
  destruct a as [s|[|]|s|s|s|]; cbn [wf_arg arg_text]; intros W; try reflexivity.
  - apply andb_prop in W as [_ W]. rewrite !negb_orb in W. rewrite !andb_true_iff in W. destruct W as ((((((_ & A) & B) & C) & P) & Q) & T).
    unfold read_arg, is, begins in *. apply negb_true_iff in A, B, C. rewrite A, B, C.
    destruct (prefixed "binValue=" s); [discriminate|]. destruct (prefixed "hexValue=" s); [discriminate|]. destruct (prefixed "'" s); [discriminate|reflexivity].
  - cbn [cat]. rewrite app_nil_s. reflexivity.
  - cbn [cat]. rewrite app_nil_s. reflexivity.
  - change (option_map AQuoted (without "'" (s ++ "'")) = Some (AQuoted s)). now rewrite without_app.
Qed.

Lemma eqb_nil_app a b : b <> "" -> String.eqb (a ++ b) "" = false.
Proof. intros N. destruct a; [cbn [append]; destruct b; [congruence|reflexivity]|reflexivity]. Qed.

Lemma arg_text_some a : wf_arg a = true -> String.eqb (arg_text a) "" = false.
Proof.
  destruct a as [s|[|]|s|s|s|]; cbn [wf_arg arg_text]; intros W; try reflexivity.
  apply andb_prop in W as [_ W]. rewrite !negb_orb in W. rewrite !andb_true_iff in W. destruct W as ((((((A & _) & _) & _) & _) & _) & _). now apply negb_true_iff in A.
Qed.

Lemma span_word n z : wordb n = true -> starts word_char z = false -> span word_char (n ++ z) = (n, z).
Proof. apply span_all. Qed.
Lemma span_end n : wordb n = true -> span word_char n = (n, "").
Proof. intros W. rewrite <- (app_nil_s n) at 1. now apply span_word. Qed.

Ltac word n := rewrite (span_word n) by (assumption || reflexivity).

Lemma read_expr_text e : wf_expr e = true -> read_expr (expr_text e) = Some e.
Proof.
  destruct e as [c [a|]|n]; cbn [wf_expr expr_text cat]; intros W.
  - apply andb_prop in W as [W A]. unfold read_expr. word c.
    change (String.eqb ("(" ++ arg_text a ++ ")" ++ "") "") with false. cbv iota. rewrite prefixed_lit.
    change (")" ++ "")%string with ")". rewrite without_app, (arg_text_some a A), (read_arg_text a A). reflexivity.
  - unfold read_expr. word c. reflexivity.
  - unfold read_expr. now rewrite (span_end n W).
Qed.

(** * Lines *)

Definition lentry (e : entry) : string := cat [mode_text (e_mode e); "('"; e_name e; "', "; expr_text (e_expr e); "),"].
Definition lspec (s : spec) : string :=
  cat ["subtypeSpec = "; s_fn s; "("; s_lo s; ", "; s_hi s; if s_ext s then ", extensionMarker=True)" else ")"].
Fixpoint decimal (fuel n : nat) (acc : string) : string :=
  match fuel with
  | O => acc
  | S f => let acc' := String (ascii_of_nat (48 + n mod 10)) acc in
           if n <? 10 then acc' else decimal f (n / 10) acc'
  end.
Definition lvalue (v : string * nat) : string := cat ["('"; fst v; "', "; decimal (S (snd v)) (snd v) ""; "),"].
Definition lhead (n b : string) : string := cat ["class "; n; "("; b; "):"].

Lemma read_entry_text e : wf_entry e = true -> read_entry (lentry e) = Some e.
Proof.
  destruct e as [m n x]. unfold wf_entry, lentry. cbn [e_mode e_name e_expr cat]. intros W. apply andb_prop in W as [W X]. unfold read_entry.
  rewrite (span_word (mode_text m)); [|now destruct m|reflexivity].
  assert (M : read_mode (mode_text m) = Some m) by now destruct m. rewrite M, prefixed_lit. word n. rewrite prefixed_lit.
  change ("),"++"")%string with (")" ++ ",")%string. rewrite <- app_assoc_s, without_app, without_app, (read_expr_text x X). reflexivity.
Qed.

Lemma read_spec_text s : wf_spec s = true -> read_spec (lspec s) = Some s.
Proof.
  destruct s as [f lo hi x]. unfold wf_spec, lspec. cbn [s_fn s_lo s_hi s_ext cat]. intros W. apply andb_prop in W as [W C]. apply andb_prop in W as [A B0].
  unfold read_spec. rewrite prefixed_lit. word f. rewrite prefixed_lit. word lo. rewrite prefixed_lit.
  destruct x; word hi; reflexivity.
Qed.

Lemma read_head_text n b : wordb n = true -> wordb b = true -> read_head (lhead n b) = Some (n, b).
Proof.
  intros A B0. unfold read_head, lhead. cbn [cat]. rewrite prefixed_lit. word n. rewrite prefixed_lit. word b. reflexivity.
Qed.

Lemma digit_code d : d < 10 -> is_digit (ascii_of_nat (48 + d)) = true /\ nat_of_ascii (ascii_of_nat (48 + d)) = 48 + d.
Proof. intros L. do 10 (destruct d as [|d]; [now split|]). lia. Qed.

Lemma decimal_digits : forall f n acc, all_chars is_digit acc = true -> all_chars is_digit (decimal f n acc) = true.
Proof.
  induction f as [|f IH]; intros n acc A; cbn [decimal]; [exact A|].
  assert (X : all_chars is_digit (String (ascii_of_nat (48 + n mod 10)) acc) = true).
  { cbn [all_chars]. rewrite A, andb_true_r. apply (digit_code (n mod 10)), Nat.mod_upper_bound. lia. }
  destruct (n <? 10); [exact X|now apply IH].
Qed.
Lemma decimal_number : forall f n acc, n < f -> number (decimal f n acc) 0 = number acc n.
Proof.
  induction f as [|f IH]; intros n acc L; [lia|]. cbn [decimal].
  pose proof (Nat.mod_upper_bound n 10 ltac:(lia)) as M. pose proof (Nat.div_mod n 10 ltac:(lia)) as DM. destruct (digit_code _ M) as [_ C].
  destruct (Nat.ltb_spec n 10) as [S0|S0].
  - cbn [number]. rewrite C. f_equal. rewrite (Nat.mod_small n 10 S0). lia.
  - rewrite IH; [|pose proof (Nat.div_lt n 10); lia]. cbn [number]. rewrite C. f_equal. lia.
Qed.
Lemma decimal_some f n acc : n < f -> String.eqb (decimal f n acc) "" = false.
Proof.
  revert n acc. induction f as [|f IH]; intros n acc L; [lia|]. cbn [decimal]. destruct (Nat.ltb_spec n 10); [reflexivity|].
  apply IH. pose proof (Nat.div_lt n 10). lia.
Qed.

Lemma read_value_text v : wf_value v = true -> read_value (lvalue v) = Some v.
Proof.
  destruct v as [s n]. unfold wf_value, lvalue. cbn [fst snd cat]. intros W. unfold read_value. rewrite prefixed_lit. word s. rewrite prefixed_lit.
  rewrite span_all; [|now apply decimal_digits|reflexivity]. rewrite (decimal_some (S n) n ""), (decimal_number (S n) n "") by lia. reflexivity.
Qed.

(** * The lines of a class *)

Section Pclass.
  Context (P : pclass -> Prop)
    (leaf : forall n b s, P (CLeaf n b s))
    (enum : forall n b x r a, P (CEnum n b x r a))
    (seqof : forall n b s e, P (CSeqOf n b s e))
    (comps : forall n b subs x r a g, Forall P subs -> P (CComps n b subs x r a g)).
  Fixpoint pclass_nested (c : pclass) : P c :=
    match c with
    | CLeaf n b s => leaf n b s
    | CEnum n b x r a => enum n b x r a
    | CSeqOf n b s e => seqof n b s e
    | CComps n b subs x r a g =>
      comps n b subs x r a g
        ((fix all (l : list pclass) : Forall P l :=
            match l with [] => Forall_nil P | d :: r => Forall_cons d (pclass_nested d) (all r) end) subs)
    end.
End Pclass.

Definition shift (d : nat) (l : line) : line := (d + fst l, snd l).

Definition marker_lines (ext : bool) : list line := if ext then [(4, "subtypeSpec = ExtensionMarker(True)")] else [].
Definition entry_line (wide narrow : nat) (e : entry) : line :=
  (match e_mode e with EDefault => wide | _ => narrow end, lentry e).
Definition adds_lines (adds : list entry) : list line :=
  match adds with
  | [] => []
  | _ => (4, "extensionAddition = AdditiveNamedTypes(") :: map (entry_line 12 8) adds ++ [(4, ")")]
  end.
Definition group_lines (g : list entry) : list line :=
  (8, "AdditiveNamedTypes(") :: map (entry_line 16 12) g ++ [(8, "),")].
Definition groups_lines (groups : list (list entry)) : list line :=
  match groups with
  | [] => []
  | _ => (4, "extensionAdditionGroups = [") :: flat_map group_lines groups ++ [(4, "]")]
  end.
Definition value_lines (l : list (string * nat)) : list line := map (fun v => (8, lvalue v)) l.

(** The lines of a class; [gap] stands behind each nested class. *)
Fixpoint rel (gap : list line) (c : pclass) : list line :=
  match c with
  | CLeaf n b s => (0, lhead n b) :: match s with Some s => [(4, lspec s)] | None => [(4, "pass")] end
  | CEnum n b ext root adds =>
    (0, lhead n b) :: marker_lines ext ++ (4, "enumerationRoot = NamedValues(") :: value_lines root ++ (4, ")") ::
    match adds with
    | [] => [(4, "namedValues = enumerationRoot")]
    | _ => (4, "extensionAddition = NamedValues(") :: value_lines adds ++
           [(4, ")"); (4, "namedValues = enumerationRoot + extensionAddition")]
    end
  | CSeqOf n b s e =>
    (0, lhead n b) :: match s with Some s => [(4, lspec s)] | None => [] end ++ [(4, cat ["componentType = "; e; "()"])]
  | CComps n b subs ext root adds groups =>
    (0, lhead n b) :: map (shift 4) (flat_map (fun d => rel gap d ++ gap) subs) ++ marker_lines ext ++
    (4, "rootComponent = AdditiveNamedTypes(") :: map (entry_line 8 8) root ++ (4, ")") ::
    adds_lines adds ++ groups_lines groups ++
    [(4, cat ["componentType = rootComponent"; match adds with [] => "" | _ => " + extensionAddition" end;
              match groups with [] => "" | _ => " + extensionAdditionGroups" end])]
  end.

Fixpoint blanks (n : nat) : string := match n with O => "" | S m => String " " (blanks m) end.
Definition render (l : line) : string := if String.eqb (snd l) "" then "" else (blanks (fst l) ++ snd l)%string.
Definition ltext (l : list string) : string := cat (map (fun x => (nl ++ x)%string) l).
(** Its lines but the first. *)
Definition tail_text (l : list line) : string := ltext (map render l).

Lemma cat_app a b : cat (a ++ b) = (cat a ++ cat b)%string.
Proof. induction a as [|x a IH]; [reflexivity|]. cbn [app cat]. now rewrite IH, app_assoc_s. Qed.
Lemma tail_app a b : tail_text (a ++ b) = (tail_text a ++ tail_text b)%string.
Proof. unfold tail_text, ltext. now rewrite !map_app, cat_app. Qed.
Lemma tail_cons x l : tail_text (x :: l) = (nl ++ render x ++ tail_text l)%string.
Proof. unfold tail_text, ltext. cbn [map cat]. now rewrite app_assoc_s. Qed.
Lemma tail_nil : tail_text [] = "".
Proof. reflexivity. Qed.

Lemma indent_solid : forall a r, solid a = true -> indent (a ++ r) = (a ++ indent r)%string.
Proof.
  induction a as [|c a IH]; intros r E; [reflexivity|]. unfold solid in *. cbn [all_chars] in E. apply andb_prop in E as [N E].
  cbn [append indent]. unfold newline in N. destruct (Ascii.eqb c (ascii_of_nat 10)); [discriminate|]. now rewrite IH.
Qed.
Lemma solid_blanks n : solid (blanks n) = true.
Proof. induction n as [|n IH]; [reflexivity|]. cbn [blanks]. unfold solid in *. cbn [all_chars]. now rewrite IH. Qed.
Lemma render_solid l : solid (snd l) = true -> solid (render l) = true.
Proof.
  intros E. unfold render. destruct (String.eqb (snd l) ""); [reflexivity|]. unfold solid in *. rewrite all_app. fold (solid (blanks (fst l))).
  now rewrite solid_blanks, E.
Qed.
Lemma render_shift l : snd l <> "" -> render (shift 4 l) = ("    " ++ render l)%string.
Proof. intros N. unfold render, shift. cbn [snd fst]. apply String.eqb_neq in N. rewrite N. reflexivity. Qed.
Lemma render_blank l : snd l = "" -> render l = "".
Proof. intros E. unfold render. now rewrite E. Qed.

Lemma indent_line s : (forall c t, s = String c t -> Ascii.eqb c (ascii_of_nat 10) = false) -> s <> "" ->
  indent (nl ++ s) = (nl ++ "    " ++ indent s)%string.
Proof.
  intros Q N. destruct s as [|c t]; [congruence|]. pose proof (Q c t eq_refl) as E.
  change (indent (nl ++ String c t)) with (if Ascii.eqb c (ascii_of_nat 10) then String (ascii_of_nat 10) (indent (String c t)) else String (ascii_of_nat 10) ("    " ++ indent (String c t))).
  now rewrite E.
Qed.

Lemma indent_tail : forall l, forallb (fun x => solid (snd x)) l = true -> indent (tail_text l) = tail_text (map (shift 4) l).
Proof.
  induction l as [|x l IH]; intros E; [reflexivity|]. cbn [forallb] in E. apply andb_prop in E as [X E]. specialize (IH E).
  cbn [map]. rewrite !tail_cons. destruct (String.eqb_spec (snd x) "") as [N|N].
  - rewrite (render_blank x N), (render_blank (shift 4 x)) by exact N. cbn [append].
    destruct l as [|y l].
    + reflexivity.
    + rewrite tail_cons in *. 
      change (indent (nl ++ nl ++ render y ++ tail_text l)) with (nl ++ indent (nl ++ render y ++ tail_text l))%string. now rewrite IH.
  - rewrite render_shift by exact N. pose proof (render_solid x X) as RS.
    assert (NE : render x <> ""). { unfold render. apply String.eqb_neq in N. rewrite N. destruct (blanks (fst x)); [|discriminate]. cbn [append]. now apply String.eqb_neq in N. }
    rewrite indent_line.
    + rewrite (indent_solid _ _ RS), IH, !app_assoc_s. reflexivity.
    + intros c t Q. destruct (render x) as [|c' t']; [congruence|]. cbn [append] in Q. injection Q as <- _.
      unfold solid in RS. cbn [all_chars] in RS. apply andb_prop in RS as [RS _]. unfold newline in RS. now apply negb_true_iff in RS.
    + destruct (render x); [congruence|discriminate].
Qed.

Lemma length_app_n (a b : string) : String.length (a ++ b) = String.length a + String.length b.
Proof. induction a as [|c a IH]; [reflexivity|]. cbn [append String.length]. rewrite IH. lia. Qed.
Lemma cut2_app s : cut2 (s ++ nl ++ nl) = s.
Proof.
  unfold cut2. rewrite length_app_n. replace (String.length s + String.length (nl ++ nl) - 2) with (String.length s) by (change (String.length (nl ++ nl)) with 2; lia).
  induction s as [|c s IH]; [reflexivity|]. cbn [append String.length substring]. now rewrite IH.
Qed.

Definition gap1 : list line := [(0, "")].

Definition good (l : line) : bool := solid (snd l) && negb (starts (fun c => Ascii.eqb c " ") (snd l)).

(** The lines are lines, and begin with no blank. *)
Lemma good_app a b : forallb good (a ++ b) = forallb good a && forallb good b.
Proof. apply forallb_app. Qed.
Lemma good_shift d l : forallb good (map (shift d) l) = forallb good l.
Proof. induction l as [|x l IH]; [reflexivity|]. cbn [map forallb]. now rewrite IH. Qed.

Ltac solids := unfold solid in *; cbn [cat]; rewrite ?all_app; rewrite ?andb_true_iff; repeat split; (reflexivity || (apply word_solid; assumption) || assumption || idtac).

Lemma arg_solid a : wf_arg a = true -> solid (arg_text a) = true.
Proof.
  destruct a as [s|[|]|s|s|s|]; cbn [wf_arg arg_text]; intros W; try reflexivity; try (now solids).
  now apply andb_prop in W.
Qed.
Lemma expr_solid e : wf_expr e = true -> solid (expr_text e) = true.
Proof.
  destruct e as [c [a|]|n]; cbn [wf_expr expr_text]; intros W; [apply andb_prop in W as [W A]| |]; try now apply word_solid.
  - pose proof (arg_solid a A). solids.
  - solids.
Qed.
Lemma entry_good w n e : wf_entry e = true -> good (entry_line w n e) = true.
Proof.
  intros W. apply andb_prop in W as [W X]. unfold good, entry_line, lentry. cbn [snd]. apply andb_true_intro. split.
  - apply expr_solid in X. solids. now destruct (e_mode e).
  - now destruct (e_mode e).
Qed.
Lemma entries_good w n l : forallb wf_entry l = true -> forallb good (map (entry_line w n) l) = true.
Proof. induction l as [|e l IH]; [reflexivity|]. cbn [forallb map]. intros W. apply andb_prop in W as [W X]. now rewrite entry_good, IH. Qed.
Lemma spec_good s : wf_spec s = true -> good (4, lspec s) = true.
Proof.
  intros W. apply andb_prop in W as [W C]. apply andb_prop in W as [A E]. unfold good, lspec. cbn [snd]. apply andb_true_intro. split; [|reflexivity].
  solids. now destruct (s_ext s).
Qed.
Lemma digit_solid s : all_chars is_digit s = true -> solid s = true.
Proof.
  unfold solid. induction s as [|c s IH]; [reflexivity|]. cbn [all_chars]. intros E. apply andb_prop in E as [W E].
  rewrite (IH E), andb_true_r. unfold newline. destruct (Ascii.eqb_spec c (ascii_of_nat 10)) as [->|]; [discriminate W|reflexivity].
Qed.
Lemma values_good l : forallb wf_value l = true -> forallb good (value_lines l) = true.
Proof.
  induction l as [|v l IH]; [reflexivity|]. cbn [forallb value_lines map]. intros W. apply andb_prop in W as [W X]. fold (value_lines l). rewrite (IH X), andb_true_r.
  unfold good, lvalue. cbn [snd]. apply andb_true_intro. split; [|reflexivity]. unfold wf_value in W. solids. apply digit_solid. now apply decimal_digits.
Qed.
Lemma head_good n b : wordb n = true -> wordb b = true -> good (0, lhead n b) = true.
Proof. intros A C. unfold good, lhead. cbn [snd]. apply andb_true_intro. split; [|reflexivity]. solids. Qed.

Lemma rel_good gap c : forallb good gap = true -> wf_class c = true -> forallb good (rel gap c) = true.
Proof.
  intros GG. induction c as [n b s|n b x r a|n b s e|n b subs x r a g IH] using pclass_nested; cbn [wf_class rel]; intros W.
  - rewrite !andb_true_iff in W. destruct W as (((A & C) & _) & O). cbn [forallb]. rewrite head_good by assumption.
    destruct s as [s|]; [|reflexivity]. cbn [forallb]. now rewrite spec_good.
  - rewrite !andb_true_iff in W. destruct W as (((A & C) & R0) & X). apply String.eqb_eq in C as ->. cbn [forallb]. rewrite head_good by (assumption || reflexivity).
    rewrite good_app. assert (M : forallb good (marker_lines x) = true) by now destruct x. rewrite M. cbn [forallb andb].
    change (good (4, "enumerationRoot = NamedValues(")) with true. rewrite good_app, (values_good r R0). cbn [andb]. destruct a as [|v a]; [reflexivity|].
    cbn [forallb]. rewrite good_app, (values_good _ X). reflexivity.
  - rewrite !andb_true_iff in W. destruct W as (((A & C) & O) & E). apply String.eqb_eq in C as ->. cbn [forallb]. rewrite head_good by (assumption || reflexivity).
    rewrite good_app. assert (Y : forallb good [(4, cat ["componentType = "; e; "()"])] = true).
    { cbn [forallb]. rewrite andb_true_r. unfold good. cbn [snd]. apply andb_true_intro. split; [|reflexivity]. solids. }
    rewrite Y. destruct s as [s|]; [|reflexivity]. cbn [forallb]. now rewrite spec_good.
  - rewrite !andb_true_iff in W. destruct W as (((((A & C) & SS) & R0) & X) & Gs).
    assert (Wb : wordb b = true) by (apply orb_prop in C as [C|C]; apply String.eqb_eq in C as ->; reflexivity).
    cbn [forallb]. rewrite head_good by assumption. rewrite !good_app, good_shift.
    assert (M : forallb good (marker_lines x) = true) by now destruct x. rewrite M.
    assert (Y : forallb good (flat_map (fun d => rel gap d ++ gap) subs) = true).
    { clear - IH SS GG. induction IH as [|d l P0 IH0 IH1]; [reflexivity|]. cbn [forallb flat_map] in *. apply andb_prop in SS as [SD SL]. rewrite !good_app, P0, GG, IH1; auto. }
    rewrite Y. cbn [forallb]. rewrite good_app. change (good (4, "rootComponent = AdditiveNamedTypes(")) with true. rewrite (entries_good 8 8 r R0). cbn [forallb]. rewrite !good_app.
    assert (Ya : forallb good (adds_lines a) = true).
    { destruct a as [|e a]; [reflexivity|]. cbn [adds_lines forallb]. now rewrite good_app, (entries_good 12 8 _ X). }
    assert (Yg : forallb good (groups_lines g) = true).
    { assert (Z0 : forallb good (flat_map group_lines g) = true).
      { clear - Gs. induction g as [|e g IH]; [reflexivity|]. cbn [forallb flat_map] in *. apply andb_prop in Gs as [E Gs]. rewrite good_app, (IH Gs), andb_true_r.
        unfold group_lines. cbn [forallb]. now rewrite good_app, (entries_good 16 12 _ E). }
      destruct g as [|e g]; [reflexivity|]. cbn [groups_lines forallb]. rewrite good_app, Z0. reflexivity. }
    rewrite Ya, Yg. cbn [forallb]. destruct a, g; reflexivity.
Qed.

(** * The text is these lines *)

Lemma entries_text (w n : nat) l : cat (map (entry_text (blanks w) (blanks n)) l) = tail_text (map (entry_line w n) l).
Proof.
  induction l as [|e l IH]; [reflexivity|]. cbn [map cat]. rewrite tail_cons, IH, <- !app_assoc_s. f_equal.
  unfold entry_text, entry_line, render. cbn [fst snd].
  assert (E : String.eqb (lentry e) "" = false) by (unfold lentry; now destruct (e_mode e)). rewrite E. unfold lentry. cbn [cat].
  destruct (e_mode e); reflexivity.
Qed.
Lemma values_text l : cat (map value_text l) = tail_text (value_lines l).
Proof.
  induction l as [|v l IH]; [reflexivity|]. unfold value_lines in *. cbn [map cat]. rewrite tail_cons, IH, <- !app_assoc_s. f_equal.
Qed.
Lemma spec_tail s : spec_text s = tail_text [(4, lspec s)].
Proof. unfold tail_text, ltext. cbn [map cat]. rewrite app_nil_s. reflexivity. Qed.
Lemma marker_text (x : bool) : (if x then cat [nl; "    subtypeSpec = ExtensionMarker(True)"] else EmptyString) = tail_text (marker_lines x).
Proof. now destruct x. Qed.
Lemma group_text g : cat [nl; "        AdditiveNamedTypes("; cat (map (entry_text "                " "            ") g); nl; "        ),"] = tail_text (group_lines g).
Proof.
  unfold group_lines. rewrite tail_cons, tail_app, <- (entries_text 16 12). reflexivity.
Qed.
Lemma groups_text l : cat (map (fun g => cat [nl; "        AdditiveNamedTypes("; cat (map (entry_text "                " "            ") g); nl; "        ),"]) l) =
  tail_text (flat_map group_lines l).
Proof. induction l as [|g l IH]; [reflexivity|]. cbn [map flat_map]. rewrite tail_app, <- IH, <- group_text. reflexivity. Qed.

(** The header line and the rest. *)
Definition full_text (l : list line) : string :=
  match l with [] => "" | x :: r => (snd x ++ tail_text r)%string end.

Lemma adds_text (a : list entry) :
  match a with
  | [] => EmptyString
  | _ => cat [nl; "    extensionAddition = AdditiveNamedTypes("; cat (map (entry_text "            " "        ") a); nl; "    )"]
  end = tail_text (adds_lines a).
Proof.
  destruct a as [|e a]; [reflexivity|]. cbn [adds_lines]. rewrite tail_cons, tail_app, <- (entries_text 12 8). reflexivity.
Qed.
Lemma all_groups_text (g : list (list entry)) :
  match g with
  | [] => EmptyString
  | _ => cat [nl; "    extensionAdditionGroups = [";
              cat (map (fun g => cat [nl; "        AdditiveNamedTypes("; cat (map (entry_text "                " "            ") g); nl; "        ),"]) g);
              nl; "    ]"]
  end = tail_text (groups_lines g).
Proof. destruct g as [|e g]; [reflexivity|]. cbn [groups_lines]. rewrite tail_cons, tail_app, <- groups_text. reflexivity. Qed.

Lemma solid_of_good l : forallb good l = true -> forallb (fun x => solid (snd x)) l = true.
Proof. rewrite !forallb_forall. intros F x E. specialize (F x E). now apply andb_prop in F. Qed.

Lemma rel_shape gap c : exists r, rel gap c = (0, lhead (class_id c) match c with CLeaf _ b _ | CEnum _ b _ _ _ | CSeqOf _ b _ _ | CComps _ b _ _ _ _ _ => b end) :: r.
Proof. destruct c; cbn [rel class_id]; eexists; reflexivity. Qed.

Lemma elem_tail e : tail_text [(4, cat ["componentType = "; e; "()"])] = (nl ++ "    componentType = " ++ e ++ "()")%string.
Proof. unfold tail_text, ltext. cbn [map]. unfold cat at 1. rewrite app_nil_s. reflexivity. Qed.

Lemma class_lines_text c : wf_class c = true -> class_text c = (full_text (rel gap1 c) ++ nl ++ nl ++ nl)%string.
Proof.
  induction c as [n b s|n b x r a|n b s e|n b subs x r a g IH] using pclass_nested; intros W; cbn [class_text rel full_text snd].
  - unfold lhead. cbn [cat]. rewrite !app_assoc_s. destruct s as [s|]; [rewrite spec_tail|]; reflexivity.
  - rewrite (values_text r), (marker_text x), tail_app, tail_cons, tail_app, tail_cons. unfold lhead. cbn [cat]. rewrite !app_assoc_s.
    destruct a as [|v a]; [reflexivity|]. rewrite (values_text (v :: a)), tail_cons, tail_app. cbn [cat]. rewrite !app_assoc_s. reflexivity.
  - rewrite tail_app, elem_tail. unfold lhead. cbn [cat]. rewrite !app_assoc_s. destruct s as [s|]; [rewrite spec_tail|]; reflexivity.
  - rewrite (marker_text x), (adds_text a), (all_groups_text g), (entries_text 8 8).
    assert (Y : cat (map (fun d => cat [nl; cut2 (class_text d)]) subs) = tail_text (flat_map (fun d => rel gap1 d ++ gap1) subs)).
    { cbn [wf_class] in W. rewrite !andb_true_iff in W. destruct W as (((((_ & _) & SS) & _) & _) & _).
      clear - IH SS. induction IH as [|d l P0 _ IH1]; [reflexivity|]. cbn [forallb map flat_map] in *. apply andb_prop in SS as [SD SL].
      rewrite tail_app, <- (IH1 SL). cbn [cat]. f_equal. rewrite (P0 SD), app_nil_s. rewrite <- !app_assoc_s, app_assoc_s. rewrite cut2_app, tail_app.
      destruct (rel_shape gap1 d) as [r E]. rewrite E. cbn [full_text snd]. rewrite tail_cons, !app_assoc_s. reflexivity. }
    rewrite Y, indent_tail.
    2:{ apply solid_of_good. cbn [wf_class] in W. rewrite !andb_true_iff in W. destruct W as (((((_ & _) & SS) & _) & _) & _).
        clear - SS. induction subs as [|d l IH]; [reflexivity|]. cbn [forallb flat_map] in *. apply andb_prop in SS as [SD SL].
        rewrite !good_app, (rel_good gap1 d eq_refl SD), (IH SL). reflexivity. }
    rewrite !tail_app, !tail_cons, !tail_app, !tail_cons, !tail_app, tail_cons. unfold lhead. cbn [cat]. rewrite !app_assoc_s.
    destruct a, g; reflexivity.
Qed.

(** * The lines of the text *)

Lemma lines_nl : forall x r, solid x = true -> lines (x ++ nl ++ r) = x :: lines r.
Proof.
  induction x as [|c x IH]; intros r E; [reflexivity|]. unfold solid in *. cbn [all_chars] in E. apply andb_prop in E as [N E].
  cbn [append lines]. apply negb_true_iff in N. now rewrite N, (IH r E).
Qed.
Lemma lines_tail : forall l x r, solid x = true -> forallb (fun y => solid (snd y)) l = true ->
  lines (x ++ tail_text l ++ nl ++ r) = x :: map render l ++ lines r.
Proof.
  induction l as [|y l IH]; intros x r E F; [now apply lines_nl|]. cbn [forallb] in F. apply andb_prop in F as [Y F].
  rewrite tail_cons, !app_assoc_s, (lines_nl x) by exact E. rewrite IH; [reflexivity|now apply render_solid|exact F].
Qed.

Definition full (l : line) : bool := negb (blank (snd l)).

Lemma depth_blanks n x : starts (fun c => Ascii.eqb c " ") x = false -> depth (blanks n ++ x) = (n, x).
Proof.
  intros E. induction n as [|n IH]; cbn [blanks append].
  - destruct x as [|c x]; [reflexivity|]. cbn [starts] in E. cbn [depth]. now rewrite E.
  - cbn [depth]. rewrite IH. reflexivity.
Qed.
Lemma depth_lines l : forallb good l = true -> map depth (filter (fun x => negb (blank x)) (map render l)) = filter full l.
Proof.
  induction l as [|[n x] l IH]; [reflexivity|]. cbn [forallb map filter]. intros E. apply andb_prop in E as [X E]. rewrite <- (IH E).
  unfold full, render, blank. cbn [snd fst]. destruct (String.eqb_spec x "") as [->|N]; [reflexivity|].
  assert (Q : String.eqb (blanks n ++ x) "" = false) by now apply eqb_nil_app. rewrite Q. cbn [negb map].
  rewrite depth_blanks; [reflexivity|]. apply andb_prop in X as [_ X]. now apply negb_true_iff in X.
Qed.

Lemma lines_of_nl x r : solid x = true -> lines_of (x ++ nl ++ r) = lines_of x ++ lines_of r.
Proof.
  intros E. unfold lines_of. rewrite (lines_nl x r E).
  assert (L : lines x = [x]).
  { clear r. revert E. unfold solid. induction x as [|c x IH]; [reflexivity|]. cbn [all_chars lines]. intros E. apply andb_prop in E as [N E]. apply negb_true_iff in N. now rewrite N, (IH E). }
  rewrite L. cbn [filter]. destruct (negb (blank x)); reflexivity.
Qed.

Lemma filter_shift d l : filter full (map (shift d) l) = map (shift d) (filter full l).
Proof. induction l as [|x l IH]; [reflexivity|]. cbn [map filter]. unfold full in *. cbn [shift snd]. destruct (negb (blank (snd x))); cbn [map]; now rewrite IH. Qed.
Lemma filter_same l : forallb full l = true -> filter full l = l.
Proof. induction l as [|x l IH]; [reflexivity|]. cbn [forallb filter]. intros E. apply andb_prop in E as [X E]. now rewrite X, IH. Qed.

Lemma entries_full w n l : forallb full (map (entry_line w n) l) = true.
Proof. induction l as [|e l IH]; [reflexivity|]. cbn [map forallb]. rewrite IH, andb_true_r. unfold full, entry_line, lentry. cbn [snd]. now destruct (e_mode e). Qed.
Lemma values_full l : forallb full (value_lines l) = true.
Proof. induction l as [|e l IH]; [reflexivity|]. unfold value_lines in *. cbn [map forallb]. now rewrite IH. Qed.
Lemma adds_full a : forallb full (adds_lines a) = true.
Proof. destruct a as [|e a]; [reflexivity|]. cbn [adds_lines forallb]. rewrite forallb_app, entries_full. reflexivity. Qed.
Lemma groups_full g : forallb full (groups_lines g) = true.
Proof.
  assert (X : forallb full (flat_map group_lines g) = true).
  { induction g as [|e g IH]; [reflexivity|]. cbn [flat_map]. rewrite forallb_app, IH. unfold group_lines. cbn [forallb]. rewrite forallb_app, entries_full. reflexivity. }
  destruct g as [|e g]; [reflexivity|]. cbn [groups_lines forallb]. rewrite forallb_app, X. reflexivity.
Qed.

Lemma rel_full c : filter full (rel gap1 c) = rel [] c.
Proof.
  induction c as [n b s|n b x r a|n b s e|n b subs x r a g IH] using pclass_nested.
  - apply filter_same. destruct s; reflexivity.
  - apply filter_same. cbn [rel forallb]. rewrite forallb_app. cbn [forallb]. rewrite forallb_app, values_full.
    destruct x, a; cbn [marker_lines forallb]; try reflexivity; rewrite ?forallb_app, values_full; reflexivity.
  - apply filter_same. destruct s; reflexivity.
  - cbn [rel]. 
    cbn [filter]. change (full (0, lhead n b)) with true. cbv iota. f_equal. rewrite filter_app, filter_shift. f_equal.
    + f_equal. clear - IH. induction IH as [|d l P0 _ IH1]; [reflexivity|]. cbn [flat_map]. now rewrite !filter_app, P0, IH1.
    + apply filter_same. rewrite forallb_app. cbn [forallb]. rewrite forallb_app, entries_full. cbn [forallb]. rewrite !forallb_app, adds_full, groups_full.
      destruct x; reflexivity.
Qed.

Lemma class_lines c r : wf_class c = true -> lines_of (class_text c ++ r) = rel [] c ++ lines_of r.
Proof.
  intros W. rewrite (class_lines_text c W). pose proof (rel_good gap1 c eq_refl W) as GG. pose proof (rel_full c) as RF. destruct (rel_shape gap1 c) as [t E]. rewrite E in *.
  cbn [full_text snd]. rewrite !app_assoc_s. unfold lines_of. 
  rewrite lines_tail.
  2:{ cbn [forallb] in GG. apply andb_prop in GG as [GG _]. now apply andb_prop in GG. }
  2:{ apply solid_of_good. cbn [forallb] in GG. now apply andb_prop in GG. }
  change (lines (nl ++ nl ++ r)) with ("" :: "" :: lines r).
  rewrite <- RF, <- (depth_lines _ GG). cbn [map]. 
  change (?x :: map render t ++ ?y) with ((x :: map render t) ++ y). rewrite filter_app, map_app. reflexivity.
Qed.

(** * Reading *)

Lemma expect_at n d s r : n = d -> expect d s ((n, s) :: r) = Some r.
Proof. intros ->. unfold expect. now rewrite Nat.eqb_refl, String.eqb_refl. Qed.
Lemma expect_not d s n x r : String.eqb x s = false -> expect d s ((n, x) :: r) = None.
Proof. intros E. unfold expect. now rewrite E, andb_false_r. Qed.

Lemma many_ok {A} (f : string -> option A) (at_ : A -> nat) (txt : A -> string) l k s r :
  (forall a, In a l -> f (txt a) = Some a) -> f s = None ->
  many f (map (fun a => (at_ a, txt a)) l ++ (k, s) :: r) = (l, (k, s) :: r).
Proof.
  intros F N. induction l as [|a l IH]; cbn [map app many]; [now rewrite N|].
  rewrite (F a (or_introl eq_refl)), IH; [reflexivity|]. intros b0 X. apply F. now right.
Qed.

Lemma block_ok {A} (f : string -> option A) (at_ : A -> nat) (txt : A -> string) d opens closes l r :
  (forall a, In a l -> f (txt a) = Some a) -> f closes = None ->
  block f d opens closes ((d, opens) :: map (fun a => (at_ a, txt a)) l ++ (d, closes) :: r) = Some (l, r).
Proof. intros F N. unfold block. now rewrite expect_at, (many_ok f at_ txt), expect_at. Qed.

Lemma repeated_ok {A} (f : list line -> option (A * list line)) (g : A -> list line) l : forall m stop,
  (forall a r, In a l -> f (g a ++ r) = Some (a, r)) -> f stop = None -> List.length l <= m ->
  repeated f m (flat_map g l ++ stop) = (l, stop).
Proof.
  induction l as [|a l IH]; intros m stop F N L; cbn [flat_map app].
  - destruct m; cbn [repeated]; [reflexivity|now rewrite N].
  - cbn [List.length] in L. destruct m as [|m]; [lia|]. cbn [repeated]. rewrite <- app_assoc, F by now left.
    rewrite IH; [reflexivity| |exact N|lia]. intros b0 r X. apply F. now right.
Qed.

Lemma wf_values l : forallb wf_value l = true -> forall a, In a l -> read_value (lvalue a) = Some a.
Proof. intros F a X. apply read_value_text. rewrite forallb_forall in F. now apply F. Qed.
Lemma wf_entries l : forallb wf_entry l = true -> forall a, In a l -> read_entry (lentry a) = Some a.
Proof. intros F a X. apply read_entry_text. rewrite forallb_forall in F. now apply F. Qed.

Lemma read_value_block d opens l r : forallb wf_value l = true ->
  block read_value (d + 4) opens ")" ((d + 4, opens) :: map (shift d) (value_lines l) ++ (d + 4, ")") :: r) = Some (l, r).
Proof.
  intros F. unfold value_lines. rewrite map_map. unfold shift. cbn [fst snd].
  apply (block_ok read_value (fun _ => d + 8) lvalue); [now apply wf_values|reflexivity].
Qed.
Lemma read_entry_block d dd w n opens closes l r : forallb wf_entry l = true -> read_entry closes = None ->
  block read_entry dd opens closes ((dd, opens) :: map (shift d) (map (entry_line w n) l) ++ (dd, closes) :: r) = Some (l, r).
Proof.
  intros F N. rewrite map_map. unfold shift, entry_line. cbn [fst snd].
  apply (block_ok read_entry (fun e => d + match e_mode e with EDefault => w | _ => n end) lentry); [now apply wf_entries|exact N].
Qed.

Lemma marker_ok d x r : (forall y, hd_error r = Some y -> String.eqb (snd y) "subtypeSpec = ExtensionMarker(True)" = false) ->
  read_marker (d + 4) (map (shift d) (marker_lines x) ++ r) = (x, r).
Proof.
  intros N. unfold read_marker. destruct x; cbn [marker_lines map app].
  - unfold shift. cbn [fst snd]. now rewrite expect_at.
  - destruct r as [|[k y] r]; [reflexivity|]. rewrite expect_not; [reflexivity|]. exact (N _ eq_refl).
Qed.

Lemma read_leaf_ok d n b s r : wf_opt s = true ->
  read_leaf (d + 4) n b (map (shift d) match s with Some s => [(4, lspec s)] | None => [(4, "pass")] end ++ r) = Some (CLeaf n b s, r).
Proof.
  intros W. destruct s as [s|]; cbn [map app]; unfold read_leaf, shift; cbn [fst snd]; rewrite Nat.eqb_refl; [|reflexivity].
  change (String.eqb (lspec s) "pass") with false. now rewrite (read_spec_text s W).
Qed.

Lemma read_enum_ok d n b x root adds r : forallb wf_value root = true -> forallb wf_value adds = true ->
  read_enum (d + 4) n b (map (shift d) (marker_lines x ++ (4, "enumerationRoot = NamedValues(") :: value_lines root ++ (4, ")") ::
    match adds with
    | [] => [(4, "namedValues = enumerationRoot")]
    | _ => (4, "extensionAddition = NamedValues(") :: value_lines adds ++ [(4, ")"); (4, "namedValues = enumerationRoot + extensionAddition")]
    end) ++ r) = Some (CEnum n b x root adds, r).
Proof.
  intros R0 A0. unfold read_enum. rewrite map_app, <- app_assoc, marker_ok by (intros y E; cbn [map app hd_error] in E; injection E as <-; reflexivity).
  cbn [map app]. rewrite map_app, <- app_assoc. cbn [map app]. change (shift d (4, ?s)) with (d + 4, s). rewrite (read_value_block d _ root _ R0).
  destruct adds as [|v adds].
  - cbn [map app]. change (shift d (4, ?s)) with (d + 4, s). unfold block at 1. rewrite expect_not by reflexivity. now rewrite expect_at.
  - cbn [map app]. rewrite map_app, <- app_assoc. cbn [map app]. change (shift d (4, ?s)) with (d + 4, s). rewrite (read_value_block d _ (v :: adds) _ A0).
    now rewrite expect_at.
Qed.

Lemma spec_not_elem e : read_spec (cat ["componentType = "; e; "()"]) = None.
Proof. reflexivity. Qed.

Lemma read_seqof_ok d n b s e r : wf_opt s = true -> wordb e = true ->
  read_seqof (d + 4) n b (map (shift d) (match s with Some s => [(4, lspec s)] | None => [] end ++ [(4, cat ["componentType = "; e; "()"])]) ++ r) = Some (CSeqOf n b s e, r).
Proof.
  intros W E.
  assert (Q : forall s0, match prefixed "componentType = " (cat ["componentType = "; e; "()"]) with
      | Some y => let '(e, z) := span word_char y in if String.eqb z "()" then Some (CSeqOf n b s0 e, r) else None
      | None => None
      end = Some (CSeqOf n b s0 e, r)).
  { intros s0. cbn [cat]. rewrite prefixed_lit. word e. reflexivity. }
  destruct s as [s|]; cbn [map app]; unfold read_seqof, shift; cbn [fst snd].
  - rewrite (read_spec_text s W), !Nat.eqb_refl. apply Q.
  - rewrite spec_not_elem, Nat.eqb_refl. apply Q.
Qed.

Lemma group_ok d g r : forallb wf_entry g = true ->
  block read_entry (d + 4 + 4) "AdditiveNamedTypes(" ")," (map (shift d) (group_lines g) ++ r) = Some (g, r).
Proof.
  intros F. unfold group_lines. cbn [map app]. rewrite map_app, <- app_assoc. cbn [map app].
  change (shift d (8, ?s)) with (d + 8, s). replace (d + 4 + 4) with (d + 8) by lia. now apply read_entry_block.
Qed.

Lemma map_flat {A B C} (f : B -> C) (g : A -> list B) l : map f (flat_map g l) = flat_map (fun a => map f (g a)) l.
Proof. induction l as [|a l IH]; [reflexivity|]. cbn [flat_map]. now rewrite map_app, IH. Qed.

Lemma flat_length {A B} (g : A -> list B) l : (forall a, 1 <= List.length (g a)) -> List.length l <= List.length (flat_map g l).
Proof. intros F. induction l as [|a l IH]; [reflexivity|]. cbn [flat_map]. rewrite app_length. specialize (F a). cbn [List.length]. lia. Qed.

Lemma read_comps_ok d n b subs x root adds groups r :
  forallb wf_entry root = true -> forallb wf_entry adds = true -> forallb (forallb wf_entry) groups = true ->
  read_comps (d + 4) n b subs (map (shift d) (marker_lines x ++
    (4, "rootComponent = AdditiveNamedTypes(") :: map (entry_line 8 8) root ++ (4, ")") ::
    adds_lines adds ++ groups_lines groups ++
    [(4, cat ["componentType = rootComponent"; match adds with [] => "" | _ => " + extensionAddition" end;
              match groups with [] => "" | _ => " + extensionAdditionGroups" end])]) ++ r) = Some (CComps n b subs x root adds groups, r).
Proof.
  intros R0 A0 G0. set (last := cat ["componentType = rootComponent"; match adds with [] => "" | _ => " + extensionAddition" end;
              match groups with [] => "" | _ => " + extensionAdditionGroups" end]).
  unfold read_comps. rewrite map_app, <- app_assoc, marker_ok by (intros y E; cbn [map app hd_error] in E; injection E as <-; reflexivity).
  cbn [map app]. rewrite map_app, <- app_assoc. cbn [map app]. change (shift d (4, ?s)) with (d + 4, s). rewrite read_entry_block by (assumption || reflexivity).
  rewrite !map_app, <- !app_assoc. cbn [map app]. change (shift d (4, ?s)) with (d + 4, s).
  assert (LA : forall t, String.eqb last "extensionAddition = AdditiveNamedTypes(" = false /\ String.eqb last "extensionAdditionGroups = [" = false /\
    expect (d + 4) last ((d + 4, last) :: t) = Some t).
  { intros t. split; [|split]; [now destruct adds, groups|now destruct adds, groups|now apply expect_at]. }
  assert (EG : expect (d + 4) "extensionAdditionGroups = [" (map (shift d) (groups_lines groups) ++ (d + 4, last) :: r) =
     match groups with [] => None | _ => Some (flat_map (fun g => map (shift d) (group_lines g)) groups ++ (d + 4, "]") :: (d + 4, last) :: r) end).
  { destruct groups as [|g gs]; cbn [groups_lines map app].
    - apply expect_not. apply (LA r).
    - change (shift d (4, ?s)) with (d + 4, s). rewrite expect_at by reflexivity. f_equal. rewrite map_app, <- app_assoc, map_flat. reflexivity. }
  assert (EA : read_adds (d + 4) (map (shift d) (adds_lines adds) ++ map (shift d) (groups_lines groups) ++ (d + 4, last) :: r) =
               (adds, map (shift d) (groups_lines groups) ++ (d + 4, last) :: r)).
  { set (T := map (shift d) (groups_lines groups) ++ (d + 4, last) :: r) in *. unfold read_adds. destruct adds as [|e adds].
    - cbn [adds_lines map app]. unfold block. assert (N : expect (d + 4) "extensionAddition = AdditiveNamedTypes(" T = None).
      { unfold T. destruct groups as [|g gs]; cbn [groups_lines map app]; [apply expect_not, (LA r)|now apply expect_not]. }
      now rewrite N.
    - assert (Q : map (shift d) (adds_lines (e :: adds)) ++ T =
                  (d + 4, "extensionAddition = AdditiveNamedTypes(") :: map (shift d) (map (entry_line 12 8) (e :: adds)) ++ (d + 4, ")") :: T).
      { unfold adds_lines. rewrite map_cons, map_app, <- app_comm_cons, <- app_assoc. reflexivity. }
      rewrite Q, (read_entry_block d (d + 4) 12 8) by (assumption || reflexivity). reflexivity. }
  match goal with |- context [read_adds (d + 4) ?l] => replace (read_adds (d + 4) l) with (adds, map (shift d) (groups_lines groups) ++ (d + 4, last) :: r) by (symmetry; exact EA) end.
  cbv iota beta. unfold read_groups. rewrite EG. destruct groups as [|g gs].
  - cbn [groups_lines map app]. fold last. rewrite (proj2 (proj2 (LA r))). reflexivity.
  - rewrite (repeated_ok (block read_entry (d + 4 + 4) "AdditiveNamedTypes(" "),") (fun g => map (shift d) (group_lines g)) (g :: gs)).
    + rewrite expect_at by reflexivity. fold last. rewrite (proj2 (proj2 (LA r))). reflexivity.
    + intros a t X. apply group_ok. rewrite forallb_forall in G0. now apply G0.
    + unfold block. now rewrite expect_not.
    + rewrite app_length. pose proof (flat_length (fun g => map (shift d) (group_lines g)) (g :: gs)) as X. cbn [List.length] in *.
      assert (Y : forall a, 1 <= List.length (map (shift d) (group_lines a))) by (intros a; unfold group_lines; cbn [map List.length]; lia). specialize (X Y). lia.
Qed.

Fixpoint csize (c : pclass) : nat :=
  match c with
  | CComps _ _ subs _ _ _ _ => S (list_sum (map csize subs))
  | _ => 1
  end.
Lemma csize_one c : 1 <= csize c.
Proof. destruct c; cbn [csize]; lia. Qed.
Lemma csize_in l d : In d l -> csize d <= list_sum (map csize l).
Proof. induction l as [|c l IH]; [easy|]. cbn [map]. unfold list_sum in *. cbn [fold_right]. intros [->|E]; [lia|specialize (IH E); lia]. Qed.
Lemma csize_count l : List.length l <= list_sum (map csize l).
Proof. induction l as [|c l IH]; [reflexivity|]. cbn [map List.length]. unfold list_sum in *. cbn [fold_right]. pose proof (csize_one c). lia. Qed.

Lemma shift_shift d l : map (shift d) (map (shift 4) l) = map (shift (d + 4)) l.
Proof. rewrite map_map. apply map_ext. intros [n x]. unfold shift. cbn [fst snd]. f_equal. lia. Qed.

Lemma read_class_ok c : wf_class c = true -> forall m d r, csize c <= m -> read_class m d (map (shift d) (rel [] c) ++ r) = Some (c, r).
Proof.
  induction c as [n b s|n b x ro a|n b s e|n b subs x ro a g IH] using pclass_nested; intros W m d r L; (destruct m as [|m]; [pose proof (csize_one (CLeaf n b None)); cbn [csize] in *; lia|]);
    cbn [rel map app read_class]; unfold shift at 1; cbn [fst snd]; rewrite Nat.add_0_r, Nat.eqb_refl; cbn [wf_class] in W.
  - rewrite !andb_true_iff in W. destruct W as (((A & C) & N) & O). rewrite read_head_text by assumption.
    rewrite !negb_orb, !andb_true_iff in N. destruct N as (((N1 & N2) & N3) & N4). unfold is in *. apply negb_true_iff in N1, N2, N3, N4. rewrite N1, N2, N3, N4. cbn [orb].
    now apply read_leaf_ok.
  - rewrite !andb_true_iff in W. destruct W as (((A & C) & R0) & X). apply String.eqb_eq in C as ->. rewrite read_head_text by (assumption || reflexivity).
    change (String.eqb "EnumeratedType" "EnumeratedType") with true. cbv iota. now apply read_enum_ok.
  - rewrite !andb_true_iff in W. destruct W as (((A & C) & O) & E). apply String.eqb_eq in C as ->. rewrite read_head_text by (assumption || reflexivity).
    change (String.eqb "SequenceOfType" "EnumeratedType") with false. change (String.eqb "SequenceOfType" "SequenceOfType") with true. cbv iota. now apply read_seqof_ok.
  - rewrite !andb_true_iff in W. destruct W as (((((A & C) & SS) & R0) & X) & Gs).
    assert (Wb : wordb b = true /\ String.eqb b "EnumeratedType" = false /\ String.eqb b "SequenceOfType" = false) by (apply orb_prop in C as [C|C]; apply String.eqb_eq in C as ->; repeat split).
    destruct Wb as (Wb & N1 & N2). rewrite read_head_text by assumption. rewrite N1, N2. unfold is in C. rewrite C.
    rewrite map_app, <- app_assoc, shift_shift, map_flat.
    rewrite (repeated_ok (read_class m (d + 4)) (fun c => map (shift (d + 4)) (rel [] c ++ []))).
    + now apply read_comps_ok.
    + intros c t Y. rewrite app_nil_r. rewrite Forall_forall in IH. apply IH; [exact Y|rewrite forallb_forall in SS; now apply SS|].
      cbn [csize] in L. pose proof (csize_in _ _ Y). lia.
    + destruct m as [|m]; [reflexivity|]. destruct x; cbn [marker_lines map app read_class]; unfold shift at 1; cbn [fst snd]; rewrite Nat.eqb_refl; reflexivity.
    + cbn [csize] in L. pose proof (csize_count subs). lia.
Qed.

Lemma csize_lines c : csize c <= List.length (rel [] c).
Proof.
  induction c as [n b s|n b x ro a|n b s e|n b subs x ro a g IH] using pclass_nested; cbn [csize rel List.length]; try lia.
  rewrite app_length, map_length. assert (X : list_sum (map csize subs) <= List.length (flat_map (fun d => rel [] d ++ []) subs)); [|lia].
  clear - IH. induction IH as [|d l P0 _ IH1]; [reflexivity|]. cbn [map flat_map]. unfold list_sum in *. cbn [fold_right]. rewrite !app_length. lia.
Qed.

(** * Statements *)

Definition stmt_lines (s : stmt) : list line :=
  match s with
  | SClass c => rel [] c
  | SAlias n t => [(0, cat [n; " = "; t])]
  | SValue n c a => [(0, cat [n; " = "; c; "("; arg_text a; ")"])]
  end.

Lemma shift_zero l : map (shift 0) l = l.
Proof. rewrite <- (map_id l) at 2. apply map_ext. intros [n x]. reflexivity. Qed.

Lemma word_start n z : n <> "" -> wordb n = true -> starts (fun c => Ascii.eqb c " ") (n ++ z) = false.
Proof.
  destruct n as [|c n]; [congruence|]. intros _ W. unfold wordb in W. cbn [all_chars append starts] in *. apply andb_prop in W as [W _].
  destruct (Ascii.eqb_spec c " ") as [->|]; [discriminate|reflexivity].
Qed.

Lemma lines_of_one n z r : n <> "" -> wordb n = true -> solid z = true -> lines_of ((n ++ z) ++ nl ++ nl ++ nl ++ r) = (0, (n ++ z)%string) :: lines_of r.
Proof.
  intros N W E. assert (Q : solid (n ++ z) = true) by (pose proof (word_solid n W); unfold solid in *; rewrite all_app, E; now apply andb_true_intro).
  unfold lines_of. rewrite (lines_nl _ _ Q). change (lines (nl ++ nl ++ r)) with ("" :: "" :: lines r). cbn [filter].
  assert (X : blank (n ++ z) = false) by (destruct n; [congruence|reflexivity]). rewrite X. cbn [negb map]. f_equal.
  apply (depth_blanks 0). now apply word_start.
Qed.

Lemma stmt_lines_of s r : wf_stmt s = true -> lines_of (stmt_text s ++ r) = stmt_lines s ++ lines_of r.
Proof.
  destruct s as [c|n t|n c a]; cbn [wf_stmt stmt_text stmt_lines]; intros W.
  - now apply class_lines.
  - rewrite !andb_true_iff in W. destruct W as ((N & A) & B0). apply negb_true_iff, String.eqb_neq in N.
    replace (cat [n; " = "; t; nl; nl; nl] ++ r)%string with ((n ++ (" = " ++ t)) ++ nl ++ nl ++ nl ++ r)%string by (cbn [cat]; rewrite !app_assoc_s; reflexivity).
    rewrite lines_of_one; [|exact N|exact A|solids]. cbn [cat app]. now rewrite app_nil_s.
  - rewrite !andb_true_iff in W. destruct W as (((N & A) & B0) & X). apply negb_true_iff, String.eqb_neq in N. apply arg_solid in X.
    replace (cat [n; " = "; c; "("; arg_text a; ")"; nl; nl; nl] ++ r)%string with ((n ++ (" = " ++ c ++ "(" ++ arg_text a ++ ")")) ++ nl ++ nl ++ nl ++ r)%string by (cbn [cat]; rewrite !app_assoc_s; reflexivity).
    rewrite lines_of_one; [|exact N|exact A|solids]. reflexivity.
Qed.

Lemma no_head n z : wordb n = true -> read_head (n ++ " = " ++ z) = None.
Proof.
  intros W. unfold read_head. destruct (prefixed "class " (n ++ " = " ++ z)) as [r|] eqn:E; [|reflexivity]. apply prefixed_inv in E.
  pose proof (span_word n (" = " ++ z) W eq_refl) as X. rewrite E in X. change ("class " ++ r)%string with ("class" ++ " " ++ r)%string in X.
  rewrite (span_word "class" (" " ++ r) eq_refl eq_refl) in X. injection X as _ X. rewrite X. reflexivity.
Qed.

Lemma no_class m d x r : read_head x = None -> read_class m d ((d, x) :: r) = None.
Proof. intros E. destruct m as [|m]; [reflexivity|]. cbn [read_class]. now rewrite Nat.eqb_refl, E. Qed.

Lemma read_stmt_ok s m r : wf_stmt s = true -> List.length (stmt_lines s) <= m -> read_stmt m (stmt_lines s ++ r) = Some (s, r).
Proof.
  destruct s as [c|n t|n c a]; cbn [wf_stmt stmt_lines]; intros W L; unfold read_stmt.
  - rewrite <- (shift_zero (rel [] c)). rewrite (read_class_ok c W); [reflexivity|]. pose proof (csize_lines c). lia.
  - rewrite !andb_true_iff in W. destruct W as ((_ & A) & C). cbn [cat app]. rewrite app_nil_s, (no_class m 0) by now apply no_head. word n. rewrite prefixed_lit.
    change t with (expr_text (Const t)) at 1. rewrite read_expr_text by exact C. reflexivity.
  - rewrite !andb_true_iff in W. destruct W as (((_ & A) & C) & X). cbn [cat app]. rewrite (no_class m 0) by now apply no_head. word n. rewrite prefixed_lit.
    change (c ++ "(" ++ arg_text a ++ ")" ++ "")%string with (expr_text (New c (Some a))). rewrite read_expr_text by (cbn [wf_expr]; now rewrite C, X). reflexivity.
Qed.

Lemma stmt_lines_some s : exists x r, stmt_lines s = x :: r.
Proof. destruct s as [c| |]; cbn [stmt_lines]; [destruct (rel_shape [] c) as [r ->]| |]; eexists; eexists; reflexivity. Qed.

Lemma read_stmts_ok l : forallb wf_stmt l = true -> forall m, List.length (flat_map stmt_lines l) < m ->
  read_stmts m (flat_map stmt_lines l) = Some l.
Proof.
  induction l as [|s l IH]; intros W m L; [destruct m; reflexivity|]. cbn [forallb flat_map] in *. apply andb_prop in W as [W X]. rewrite app_length in L.
  destruct (stmt_lines_some s) as (x & t & E). destruct m as [|m]; [lia|].
  assert (Q : read_stmts (S m) (stmt_lines s ++ flat_map stmt_lines l) = match read_stmt (S m) (stmt_lines s ++ flat_map stmt_lines l) with
                   | Some (s, r) => option_map (cons s) (read_stmts m r)
                   | None => None end) by (rewrite E; reflexivity).
  rewrite Q, (read_stmt_ok s) by (assumption || lia). rewrite IH; [reflexivity|exact X|]. rewrite E in L. cbn [List.length] in L. lia.
Qed.

Lemma stmts_lines_of l : forallb wf_stmt l = true -> lines_of (cat (map stmt_text l)) = flat_map stmt_lines l.
Proof.
  induction l as [|s l IH]; intros W; [reflexivity|]. cbn [forallb map cat flat_map] in *. apply andb_prop in W as [W X]. now rewrite stmt_lines_of, IH.
Qed.

Lemma drop_app p l : drop p (p ++ l) = Some l.
Proof. induction p as [|[n x] p IH]; [reflexivity|]. cbn [app drop]. now rewrite Nat.eqb_refl, String.eqb_refl. Qed.

Lemma header_lines r : lines_of (header ++ r) = imports ++ lines_of r.
Proof.
  unfold header. cbn [cat]. rewrite !app_assoc_s. rewrite !lines_of_nl by reflexivity.
  change (lines_of (nl ++ ?x)) with (lines_of x). reflexivity.
Qed.

(** Reading the text of a module gives its statements. *)
Theorem C74_read l : forallb wf_stmt l = true -> read_module (module_text l) = Some l.
Proof.
  intros W. unfold read_module, module_text. cbn [cat]. rewrite header_lines, drop_app, stmts_lines_of by exact W. apply read_stmts_ok; [exact W|lia].
Qed.

(** Different statements have different texts. *)
Theorem C74_same_text l l' : forallb wf_stmt l = true -> forallb wf_stmt l' = true ->
  module_text l = module_text l' -> l = l'.
Proof. intros W W' E. pose proof (C74_read l W) as X. rewrite E, (C74_read l' W') in X. congruence. Qed.

(** What makes the generator skip a class, the same text, is the same class. *)
Theorem C74_skipped c c' : wf_class c = true -> wf_class c' = true -> class_text c = class_text c' -> c = c'.
Proof.
  intros W W' E. assert (Q : [SClass c] = [SClass c']); [|congruence].
  apply C74_same_text; [cbn [forallb wf_stmt]; now rewrite W|cbn [forallb wf_stmt]; now rewrite W'|].
  unfold module_text. cbn [map stmt_text]. now rewrite E.
Qed.

(** Importing a text: reading it and running its statements. *)
Definition import (text : string) : res space :=
  match read_module text with Some l => Exec.run l | None => Err PySyntaxError end.

Theorem C74_import l : forallb wf_stmt l = true -> import (module_text l) = Exec.run l.
Proof. intros W. unfold import. now rewrite C74_read. Qed.

Definition goldens : list (list ptype * string) :=
  [(schema_Choice_Simple, module_Choice_Simple); (schema_ComponentTypes, module_ComponentTypes);
   (schema_ComponentTypes_containing_ComponentTypes, module_ComponentTypes_containing_ComponentTypes);
   (schema_ComponentTypes_extensionAddition, module_ComponentTypes_extensionAddition);
   (schema_ComponentTypes_extensionAdditionGroup, module_ComponentTypes_extensionAdditionGroup);
   (schema_ComponentTypes_extensionMarker, module_ComponentTypes_extensionMarker);
   (schema_DefinedType_Simple, module_DefinedType_Simple); (schema_Sequence_Default, module_Sequence_Default);
   (schema_Sequence_Mixed, module_Sequence_Mixed); (schema_Sequence_Simple, module_Sequence_Simple);
   (schema_SimpleProtocol, module_SimpleProtocol); (schema_SimpleTypes, module_SimpleTypes);
   (schema_Types_constrained, module_Types_constrained);
   (schema_Types_containing_constrained_types, module_Types_containing_constrained_types)].

(** The statements of the schemas of the test suite meet the condition, and the
    files of the test suite are read as these statements. *)
Example C74_case :
  forallb (fun p => match emit (fst p) with Ok l => forallb wf_stmt l | Err _ => false end) goldens = true /\
  map (fun p => read_module (snd p)) goldens = map (fun p => match emit (fst p) with Ok l => Some l | Err _ => None end) goldens.
Proof. split; vm_compute; reflexivity. Qed.
