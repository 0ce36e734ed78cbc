(** From the text of a schema to its objects: tabs and comments, and the theorem. *)

From Coq Require Import ZArith List String Ascii Bool Arith Lia.
Import ListNotations.
From Verif Require Import PyBase Generator Emit Exec Meaning Subtypes Grammar Texts Tokens ReadModules.

Open Scope string_scope.
Open Scope list_scope.
Open Scope nat_scope.

(** ** Other blanks *)

Definition break_only (g : string) : Prop := g <> "" /\ all_chars (fun c => is_white c && negb (Ascii.eqb c " ")) g = true.
Inductive reblank : string -> string -> Prop :=
| rb_end g : blank g -> reblank "" g
| rb_char c s s' : reblank s s' -> reblank (String c s) (String c s')
| rb_blank g g' s s' : break_only g -> g' <> "" -> blank g' -> reblank s s' -> reblank (g ++ s) (g' ++ s').

Lemma break_blank : forall g, break_only g -> blank g.
Proof. intros g [_ A]. unfold blank. revert A. apply all_weaken. intros c X. now apply andb_prop in X. Qed.
Lemma blank_skip : forall g, blank g -> skip g = "".
Proof. intros g B'. rewrite <- (app_nil_s g). now rewrite skip_blank. Qed.
Lemma blank_word : forall g, blank g -> starts is_word g = false.
Proof.
  intros [|c g] B'; [reflexivity|]. unfold blank in B'. cbn [all_chars] in B'. apply andb_prop in B' as [W _]. cbn [starts]. unfold is_word.
  revert W. clear. destruct c as [[] [] [] [] [] [] [] []]; vm_compute; congruence.
Qed.
Lemma starts_app : forall f g s, g <> "" -> starts f (g ++ s) = starts f g.
Proof. intros f [|c g] s N; [congruence|reflexivity]. Qed.

Lemma reblank_skip : forall t t', reblank t t' -> reblank (skip t) (skip t').
Proof.
  intros t t' RB. induction RB as [g B'|c s s' RB IH|g g' s s' BO N B' RB IH].
  - rewrite (blank_skip g B'). now apply rb_end.
  - cbn [skip]. destruct (is_white c); [exact IH|now apply rb_char].
  - rewrite (skip_blank g s (break_blank g BO)), (skip_blank g' s' B'). exact IH.
Qed.
Lemma reblank_prefixed : forall p t t', all_chars (fun c => negb (is_white c)) p = true -> reblank t t' -> prefixed p t = None -> prefixed p t' = None.
Proof.
  induction p as [|c p IH]; intros t t' A RB P; [discriminate|]. cbn [all_chars] in A. apply andb_prop in A as [W A]. apply negb_true_iff in W.
  assert (forall g x, g <> "" -> blank g -> prefixed (String c p) (g ++ x) = None) as PB.
  { intros [|d g] x N B'; [congruence|]. unfold blank in B'. cbn [all_chars] in B'. apply andb_prop in B' as [D' _]. cbn [append prefixed].
    destruct (Ascii.eqb_spec c d) as [->|]; [congruence|reflexivity]. }
  inversion RB as [g B'|d s s' RB'|g g' s s' BO N B' RB']; subst.
  - destruct t' as [|d g]; [reflexivity|]. rewrite <- (app_nil_s (String d g)). now apply PB.
  - cbn [prefixed] in *. destruct (Ascii.eqb c d); [now apply (IH s)|reflexivity].
  - now apply PB.
Qed.
Lemma reblank_word : forall t t', reblank t t' -> starts is_word t = false -> starts is_word t' = false.
Proof.
  intros t t' RB S. inversion RB as [g B'|d s s' RB'|g g' s s' BO N B' RB']; subst.
  - now apply blank_word.
  - exact S.
  - rewrite (starts_app _ _ _ N). now apply blank_word.
Qed.
Lemma reblank_text : forall k s u, all_chars (fun c => negb (is_white c) || Ascii.eqb c " ") k = true -> reblank (k ++ s) u ->
  exists u', u = (k ++ u')%string /\ reblank s u'.
Proof.
  induction k as [|c k IH]; intros s u A RB; [now exists u|]. cbn [all_chars append] in *. apply andb_prop in A as [W A].
  inversion RB as [g B' E|d s1 s' RB' E|g g' s1 s' BO N B' RB' E]; subst.
  - destruct (IH s s' A RB') as (u' & -> & R'). now exists u'.
  - destruct BO as [NG AG]. destruct g as [|d g]; [congruence|]. cbn [append] in E. injection E as -> _. cbn [all_chars] in AG. apply andb_prop in AG as [AG _].
    apply andb_prop in AG as [AW X]. rewrite AW in W. cbn [negb orb] in W. rewrite W in X. discriminate.
Qed.
Lemma proper_text : forall t, proper t = true -> all_chars (fun c => negb (is_white c) || Ascii.eqb c " ") (t_text t) = true.
Proof.
  assert (forall c, is_word c = true -> negb (is_white c) || Ascii.eqb c " " = true) as WW.
  { intros c W. destruct (is_white c) eqn:X; [|reflexivity]. exfalso. revert W X. clear. unfold is_word. destruct c as [[] [] [] [] [] [] [] []]; vm_compute; congruence. }
  assert (forall f g x y, (forall c, f c = true -> g c = true) -> all_chars f x = true -> all_chars g y = true -> all_chars g (x ++ y) = true) as AA.
  { intros f g x y FG F G. induction x as [|c x IH]; [exact G|]. cbn [append all_chars] in *. apply andb_prop in F as [F1 F2]. now rewrite (FG c F1), IH. }
  intros [k|k|k|k|k|k] P; cbn [proper t_text] in *.
  - now apply andb_prop in P.
  - destruct k as [|c k]; [discriminate|]. cbn [type_word all_chars] in *. apply andb_prop in P as [U W]. rewrite (upper_solid _ U). exact (all_weaken _ _ _ WW W).
  - destruct k as [|c k]; [discriminate|]. cbn [value_word all_chars] in *. apply andb_prop in P as [U W]. rewrite (lower_solid _ U). exact (all_weaken _ _ _ WW W).
  - apply andb_prop in P as [_ P]. apply (all_weaken is_digit); [|exact P]. intros c X. now rewrite (digit_solid _ X).
  - change (("'" ++ k ++ "'B")%string) with (String "'" (k ++ "'B")). cbn [all_chars]. apply (AA is_bit); [|exact P|reflexivity].
    intros c X. destruct (is_white c) eqn:Y; [|reflexivity]. exfalso. revert X Y. clear. destruct c as [[] [] [] [] [] [] [] []]; vm_compute; congruence.
  - change (("'" ++ k ++ "'H")%string) with (String "'" (k ++ "'H")). cbn [all_chars]. apply (AA is_hex); [|exact P|reflexivity].
    intros c X. destruct (is_white c) eqn:Y; [|reflexivity]. exfalso. revert X Y. clear. destruct c as [[] [] [] [] [] [] [] []]; vm_compute; congruence.
Qed.

Lemma reblank_laid : forall l t r t', laid l t r -> reblank t t' -> exists r', laid l t' r'.
Proof.
  intros l t r t' L. revert t'. induction L as [s EN|g k l s r BL P AP L IH]; intros t' RB.
  - exists t'. constructor. exact (reblank_prefixed "::=" _ _ eq_refl (reblank_skip _ _ RB) EN).
  - apply reblank_skip in RB. rewrite (skip_blank _ _ BL), (skip_solid _ (proper_solid k s P)) in RB.
    destruct (reblank_text _ _ _ (proper_text k P) RB) as (u & E & RS). destruct (IH u RS) as (r' & L').
    destruct (skip_split t') as (g' & B' & ES). rewrite ES, E. exists r'. apply laid_cons; auto. intros W. exact (reblank_word _ _ RS (AP W)).
Qed.
Lemma reblank_refl : forall s, reblank s s.
Proof. induction s as [|c s IH]; [now apply rb_end|now apply rb_char]. Qed.
Lemma reblank_tabs : forall s col, reblank s (expandtabs col s).
Proof.
  induction s as [|c s IH]; intros col; [now apply rb_end|]. cbn [expandtabs]. destruct (Ascii.eqb_spec c (ascii_of_nat 9)) as [->|N].
  - change (String (ascii_of_nat 9) s) with (String (ascii_of_nat 9) "" ++ s)%string. apply rb_blank; [split; [discriminate|reflexivity]| | |apply IH].
    + pose proof (Nat.mod_upper_bound col 8). destruct (8 - col mod 8) as [|k] eqn:E; [lia|discriminate].
    + unfold blank. generalize (8 - col mod 8) as k. clear. induction k as [|k IH]; [reflexivity|exact IH].
  - destruct (_ || _); now apply rb_char.
Qed.

(** ** Comments *)

Definition cleaned (cur s : list Z) : list Z := flat_map (fun l => cut_comment l ++ [10%Z]) (split_lines cur s).
Lemma cut_snoc : forall l c, cut_comment l = l -> (last l 0%Z = 45%Z -> c <> 45%Z) -> cut_comment (l ++ [c]) = l ++ [c].
Proof.
  induction l as [|a l IH]; intros c E N; [reflexivity|]. cbn [app]. destruct l as [|b l].
  - cbn [app cut_comment]. destruct (Z.eqb_spec a 45) as [->|]; [|reflexivity]. destruct (Z.eqb_spec c 45) as [->|]; [|reflexivity]. now elim N.
  - cbn [cut_comment] in E. cbn [app cut_comment]. destruct (Z.eqb a 45 && Z.eqb b 45); [discriminate|]. f_equal. injection E as E.
    apply (IH c E N).
Qed.
Lemma cut_note : forall l body, cut_comment l = l -> last l 0%Z <> 45%Z -> cut_comment (l ++ 45%Z :: 45%Z :: body) = l.
Proof.
  induction l as [|a l IH]; intros body E N; [reflexivity|]. cbn [app]. destruct l as [|b l].
  - cbn [app cut_comment last] in *. destruct (Z.eqb_spec a 45) as [->|]; [now elim N|]. reflexivity.
  - cbn [cut_comment] in E. cbn [app cut_comment]. destruct (Z.eqb a 45 && Z.eqb b 45); [discriminate|]. f_equal. injection E as E.
    apply (IH body E N).
Qed.
Lemma codes_app : forall a b, to_codes (a ++ b) = to_codes a ++ to_codes b.
Proof. intros a b. unfold to_codes. induction a as [|c a IH]; [reflexivity|]. cbn [append list_ascii_of_string map app]. now rewrite IH. Qed.
Lemma codes_back : forall s, of_codes (to_codes s) = s.
Proof.
  intros s. unfold of_codes, to_codes. induction s as [|c s IH]; [reflexivity|]. cbn [list_ascii_of_string map string_of_list_ascii].
  rewrite Nat2Z.id, ascii_nat_embedding. f_equal. exact IH.
Qed.
Lemma last_rev : forall (l : list Z), last (rev l) 0%Z = hd 0%Z l.
Proof. intros [|a l]; [reflexivity|]. cbn [rev hd]. apply last_last. Qed.
Lemma body_lines : forall body cur s, all_chars (fun c => negb (line_end c)) body = true -> plain_lines body ->
  split_lines cur (to_codes body ++ s) = split_lines (rev (to_codes body) ++ cur) s.
Proof.
  induction body as [|c body IH]; intros cur s A P; [reflexivity|]. cbn [all_chars] in A. apply andb_prop in A as [A1 A2]. unfold plain_lines in P. cbn [all_chars] in P.
  apply andb_prop in P as [P1 P2]. apply negb_true_iff in A1. rewrite A1, orb_false_r in P1. apply negb_true_iff in P1.
  change (to_codes (String c body)) with (code c :: to_codes body). cbn [app split_lines]. rewrite P1.
  unfold line_end in A1. apply orb_false_elim in A1 as [_ ->]. rewrite (IH (code c :: cur) s A2 P2). cbn [rev]. now rewrite <- app_assoc.
Qed.

Lemma cleaned_text : forall n s t, String.length s <= n -> strip s t -> plain_lines s -> forall cur, cut_comment (rev cur) = rev cur ->
  (hd 0%Z cur = 45%Z -> starts (Ascii.eqb "-") s = false) ->
  exists t', reblank t t' /\ cleaned cur (to_codes s) = rev cur ++ to_codes t'.
Proof.
  induction n as [|n IH]; intros s t LN ST P cur CC H0.
  { destruct s; [|cbn [String.length] in LN; lia]. inversion ST; subst.
    destruct cur as [|a cur]; [exists ""; split; [now apply rb_end|reflexivity]|]. exists (String (ascii_of_nat 10) ""). split; [now apply rb_end|].
      unfold cleaned. cbn [to_codes list_ascii_of_string map split_lines flat_map]. rewrite CC. now rewrite app_nil_r. }
  inversion ST as [|c s' t0 HY ST' E|body s' t' A1 A2 A3 ST' E]; subst.
  - destruct cur as [|a cur]; [exists ""; split; [now apply rb_end|reflexivity]|]. exists (String (ascii_of_nat 10) ""). split; [now apply rb_end|].
    unfold cleaned. cbn [to_codes list_ascii_of_string map split_lines flat_map]. rewrite CC. now rewrite app_nil_r.
  - cbn [String.length] in LN. assert (String.length s' <= n) as LN' by lia. unfold plain_lines in P. cbn [all_chars] in P. apply andb_prop in P as [P1 P2].
    change (to_codes (String c s')) with (code c :: to_codes s').
    assert (forall x, cut_comment (rev ([] : list Z)) = rev [] /\ (hd 0%Z ([] : list Z) = 45%Z -> starts (Ascii.eqb "-") x = false)) as NILS by (intros x; split; [reflexivity|discriminate]).
    destruct (Z.eqb_spec (code c) 13) as [E13|N13].
    + assert (c = ascii_of_nat 13) as -> by (rewrite <- (ascii_nat_embedding c); unfold code in E13; f_equal; lia).
      assert (forall x, (exists d, x = String d "" \/ x = String d (String (ascii_of_nat 10) "")) -> x = String (ascii_of_nat 13) "" \/ x = String (ascii_of_nat 13) (String (ascii_of_nat 10) "") -> break_only x) as BO
        by (intros x _ [->| ->]; split; [discriminate|reflexivity|discriminate|reflexivity]).
      destruct s' as [|d s2].
      * inversion ST'; subst. exists (String (ascii_of_nat 10) ""). split.
        { change (String (ascii_of_nat 13) "") with (String (ascii_of_nat 13) "" ++ "")%string. change (String (ascii_of_nat 10) "") with (String (ascii_of_nat 10) "" ++ "")%string at 1.
          apply rb_blank; [apply BO; [exists (ascii_of_nat 13); now left|now left]|discriminate|reflexivity|now apply rb_end]. }
        unfold cleaned. cbn [to_codes list_ascii_of_string map split_lines]. change (code (ascii_of_nat 13) =? 13)%Z with true. cbn [flat_map]. rewrite CC. now rewrite app_nil_r.
      * destruct (Z.eqb_spec (code d) 10) as [E10|N10].
        -- assert (d = ascii_of_nat 10) as -> by (rewrite <- (ascii_nat_embedding d); unfold code in E10; f_equal; lia).
           inversion ST' as [|? ? t2 HY' ST2|]; subst. cbn [String.length] in LN'. cbn [all_chars] in P2. apply andb_prop in P2 as [_ P2].
           destruct (IH s2 t2 ltac:(lia) ST2 P2 [] (proj1 (NILS "")) (proj2 (NILS s2))) as (t' & RB & EQ).
           exists (String (ascii_of_nat 10) t'). split.
           ++ change (String (ascii_of_nat 13) (String (ascii_of_nat 10) t2)) with (String (ascii_of_nat 13) (String (ascii_of_nat 10) "") ++ t2)%string.
              change (String (ascii_of_nat 10) t') with (String (ascii_of_nat 10) "" ++ t')%string.
              apply rb_blank; [apply BO; [exists (ascii_of_nat 13); now right|now right]|discriminate|reflexivity|exact RB].
           ++ unfold cleaned in *. change (to_codes (String (ascii_of_nat 10) s2)) with (10%Z :: to_codes s2). change (code (ascii_of_nat 13)) with 13%Z.
              cbn [split_lines]. change (13 =? 13)%Z with true. change (10 =? 10)%Z with true. cbn [flat_map]. rewrite CC, EQ. rewrite <- app_assoc. reflexivity.
        -- destruct (IH (String d s2) t0 LN' ST' P2 [] (proj1 (NILS "")) (proj2 (NILS _))) as (t' & RB & EQ).
           exists (String (ascii_of_nat 10) t'). split.
           ++ change (String (ascii_of_nat 13) t0) with (String (ascii_of_nat 13) "" ++ t0)%string.
              change (String (ascii_of_nat 10) t') with (String (ascii_of_nat 10) "" ++ t')%string.
              apply rb_blank; [apply BO; [exists (ascii_of_nat 13); now left|now left]|discriminate|reflexivity|exact RB].
           ++ unfold cleaned in *. change (to_codes (String d s2)) with (code d :: to_codes s2) in *. change (code (ascii_of_nat 13)) with 13%Z.
              cbn [split_lines]. change (13 =? 13)%Z with true. cbv iota. apply Z.eqb_neq in N10. rewrite N10. cbn [flat_map]. rewrite CC. cbn [split_lines] in EQ.
              rewrite EQ. rewrite <- app_assoc. reflexivity.
    + destruct (is_break (code c)) eqn:BR.
      * assert (code c = 10%Z) as E10.
        { cbn [negb orb] in P1. unfold line_end in P1. apply orb_prop in P1 as [X|X]; [now apply Z.eqb_eq|]. apply Z.eqb_eq in X. congruence. }
        destruct (IH s' t0 LN' ST' P2 [] (proj1 (NILS "")) (proj2 (NILS s'))) as (t' & RB & EQ). exists (String c t'). split; [now apply rb_char|].
        unfold cleaned in *. cbn [split_lines]. apply Z.eqb_neq in N13. rewrite N13, BR. cbn [flat_map]. rewrite CC, EQ.
        change (to_codes (String c t')) with (code c :: to_codes t'). rewrite E10, <- app_assoc. reflexivity.
      * assert (code c = 45%Z -> c = "-"%char) as DC by (intros X; rewrite <- (ascii_nat_embedding c); unfold code in X; replace (nat_of_ascii c) with 45 by lia; reflexivity).
        destruct (IH s' t0 LN' ST' P2 (code c :: cur)) as (t' & RB & EQ).
        { cbn [rev]. apply cut_snoc; [exact CC|]. rewrite last_rev. intros X Y. specialize (H0 X). cbn [starts] in H0. rewrite (DC Y) in H0. discriminate. }
        { cbn [hd]. intros X. rewrite (DC X) in HY. destruct s' as [|d s2]; [reflexivity|]. cbn [starts]. destruct (Ascii.eqb_spec "-" d) as [<-|]; [discriminate|reflexivity]. }
        exists (String c t'). split; [now apply rb_char|]. unfold cleaned in *. cbn [split_lines]. apply Z.eqb_neq in N13. rewrite N13, BR, EQ. cbn [rev].
        rewrite <- app_assoc. reflexivity.
  - assert (hd 0%Z cur <> 45%Z) as NH by (intros X; specialize (H0 X); discriminate H0).
    assert (plain_lines body /\ plain_lines s') as [PB PS].
    { unfold plain_lines in *. change ("--" ++ body ++ s')%string with (String "-" (String "-" (body ++ s'))) in P. cbn [all_chars] in P. apply andb_prop in P as [_ P]. apply andb_prop in P as [_ P].
      revert P. generalize (fun c => negb (is_break (code c)) || line_end c). clear. intros f. induction body as [|c body IH]; cbn [append all_chars]; [auto|].
      intros P. apply andb_prop in P as [-> P]. exact (IH P). }
    assert (forall x, split_lines cur (to_codes ("--" ++ body ++ s') ++ x) = split_lines (rev (to_codes body) ++ 45%Z :: 45%Z :: cur) (to_codes s' ++ x)) as SL.
    { intros x. change ("--" ++ body ++ s')%string with (String "-" (String "-" (body ++ s'))). 
      change (to_codes (String "-" (String "-" (body ++ s')))) with (45%Z :: 45%Z :: to_codes (body ++ s')). rewrite codes_app.
      cbn [app split_lines]. change (45 =? 13)%Z with false. change (is_break 45) with false. cbv iota. rewrite <- app_assoc. now apply body_lines. }
    specialize (SL []). rewrite !app_nil_r in SL.
    assert (cut_comment (rev (rev (to_codes body) ++ 45%Z :: 45%Z :: cur)) = rev cur) as CN.
    { rewrite rev_app_distr, rev_involutive. cbn [rev]. rewrite <- !app_assoc. cbn [app]. apply cut_note; [exact CC|]. now rewrite last_rev. }
    destruct s' as [|d s2].
    + inversion ST'; subst. exists (String (ascii_of_nat 10) ""). split; [now apply rb_end|].
      unfold cleaned. rewrite SL. change (to_codes "") with (@nil Z). remember (rev (to_codes body) ++ 45%Z :: 45%Z :: cur) as w eqn:EW. cbn [split_lines].
      destruct w as [|a w]; [destruct (rev (to_codes body)); discriminate|]. cbn [flat_map]. rewrite CN. now rewrite app_nil_r.
    + destruct A3 as [|A3]; [discriminate|]. cbn [starts] in A3.
      assert (String.length (String d s2) <= n) as LN'. { cbn [append String.length] in LN. rewrite length_app_s in LN. lia. }
      destruct (IH (String d s2) t LN' ST' PS cur CC) as (t' & RB & EQ).
      { intros X. contradiction. }
      exists t'. split; [exact RB|]. rewrite <- EQ. unfold cleaned. rewrite SL. change (to_codes (String d s2)) with (code d :: to_codes s2). cbn [split_lines].
      unfold line_end in A3. destruct (Z.eqb_spec (code d) 13) as [E13|N13].
      * destruct (to_codes s2) as [|e s3]; [cbn [flat_map]; now rewrite CN, CC|]. destruct (Z.eqb e 10); cbn [flat_map]; now rewrite CN, CC.
      * assert (is_break (code d) = true) as -> by (rewrite orb_false_r in A3; apply Z.eqb_eq in A3; rewrite A3; reflexivity). cbn [flat_map]. now rewrite CN, CC.
Qed.
Lemma cleaned_all : forall s t, strip s t -> plain_lines s -> reblank t (of_codes (remove_comments (to_codes s))).
Proof.
  intros s t ST P. destruct (cleaned_text _ s t (Nat.le_refl _) ST P [] eq_refl ltac:(discriminate)) as (t' & RB & E).
  unfold cleaned in E. cbn [rev app] in E. unfold remove_comments, splitlines. rewrite E, codes_back. exact RB.
Qed.

(** ** The theorem *)

Lemma laid_after : forall l s r, laid l s r -> after l s = r.
Proof.
  intros l s r L. induction L as [s EN|g k l s r BL P AP L IH]; [reflexivity|]. cbn [after]. rewrite (skip_blank _ _ BL), (skip_solid _ (proper_solid k s P)), prefixed_app.
  exact IH.
Qed.
Lemma objs_all : forall l, only_objs (map Obj l) = Some l.
Proof. unfold only_objs. induction l as [|p l IH]; [reflexivity|]. cbn [map all_some]. rewrite IH. reflexivity. Qed.

Theorem C50_reading_partial : forall S s r, text_of S s r ->
  exists r' n0, forall n, n0 <= n -> parse_module n s = Match r' (map parsed_as S).
Proof.
  intros S s r (l & SP & L). destruct (reblank_laid l s r _ L (reblank_tabs s 0)) as (r' & L').
  destruct (module_reads S l SP) as (c & E & Y). rewrite app_nil_r in E. subst c. destruct (Y _ _ L') as [(n0 & G) _].
  exists r', n0. intros n LN. unfold parse_module. rewrite (G n LN). cbn [cut]. rewrite (laid_after _ _ _ L'), objs_all. reflexivity.
Qed.

Theorem C50_comments_partial : forall S s t r, strip s t -> plain_lines s -> text_of S t r ->
  exists r' n0, forall n, n0 <= n -> read_schema n s = Match r' (map parsed_as S).
Proof.
  intros S s t r ST P (l & SP & L). destruct (reblank_laid l t r _ L (cleaned_all s t ST P)) as (r1 & L1).
  apply (C50_reading_partial S _ r1). now exists l.
Qed.
