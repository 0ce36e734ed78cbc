(** nestedExpr and parse_Constraint on the items of a constraint: the words between
    the parentheses, put together again, are the same items. *)

From Coq Require Import ZArith List String Ascii Bool Arith Lia.
Import ListNotations.
From Verif Require Import PyBase Generator Emit Exec Meaning Subtypes Grammar Texts Tokens Reads.

Open Scope string_scope.
Open Scope list_scope.
Open Scope nat_scope.

(** Runs of blanks become one blank, at the end none. *)
Fixpoint squeeze (s : string) : string :=
  match s with
  | EmptyString => EmptyString
  | String c r =>
    if is_white c then
      match skip r with
      | EmptyString => EmptyString
      | String _ _ => if starts is_white r then squeeze r else String " " (squeeze r)
      end
    else String c (squeeze r)
  end.

Definition plain_char (c : ascii) : bool := in_nest c || is_white c.
Lemma nest_solid : forall c, in_nest c = true -> is_white c = false.
Proof. intros c. unfold in_nest. destruct (is_white c); [now rewrite orb_true_r|reflexivity]. Qed.
Lemma squeeze_solid : forall t p, all_chars in_nest t = true -> squeeze (t ++ p) = (t ++ squeeze p)%string.
Proof.
  induction t as [|c t IH]; intros p A; [reflexivity|]. cbn [all_chars] in A. apply andb_prop in A as [N A].
  cbn [append squeeze]. rewrite (nest_solid c N). now rewrite IH.
Qed.
Lemma squeeze_blank : forall g, blank g -> squeeze g = "".
Proof.
  intros [|c g] BL; [reflexivity|]. unfold blank in BL. cbn [all_chars] in BL. apply andb_prop in BL as [W BL]. cbn [squeeze]. rewrite W.
  replace (skip g) with (skip (g ++ "")) by now rewrite app_nil_s. now rewrite skip_blank.
Qed.
Lemma squeeze_gap : forall g x, blank g -> x <> "" -> starts is_white x = false ->
  exists g', blank g' /\ squeeze (g ++ x) = (g' ++ squeeze x)%string.
Proof.
  induction g as [|c g IH]; intros x BL N W; [now exists ""|]. unfold blank in BL. cbn [all_chars] in BL. apply andb_prop in BL as [WC BL].
  cbn [append squeeze]. rewrite WC. rewrite (skip_blank _ _ BL), (skip_solid _ W). destruct x as [|d x]; [congruence|].
  destruct (starts is_white (g ++ String d x)) eqn:ST; [now apply IH|].
  destruct g as [|e g]; [now exists " "|]. cbn [all_chars append starts] in *. apply andb_prop in BL as [WE _]. congruence.
Qed.
Lemma squeeze_white : forall q, starts is_white q = true -> skip q <> "" -> squeeze q = String " " (squeeze (skip q)).
Proof.
  induction q as [|c q IH]; intros W N; [discriminate|]. cbn [starts skip squeeze] in *. rewrite W in *. destruct (skip q) as [|d r] eqn:E; [congruence|].
  destruct (starts is_white q) eqn:ST; [rewrite IH; auto; discriminate|]. rewrite <- E. now rewrite (skip_solid _ ST).
Qed.

(** Items without parentheses, blanks and quotes. *)
Definition flatb (t : token) : bool :=
  match t with K s => all_chars in_nest s | D _ | I _ => true | _ => false end.
Lemma word_in_nest : forall c, word_char c = true -> in_nest c = true.
Proof. intros [[] [] [] [] [] [] [] []]; vm_compute; congruence. Qed.
Lemma digit_in_nest : forall c, is_digit c = true -> in_nest c = true.
Proof. intros [[] [] [] [] [] [] [] []]; vm_compute; congruence. Qed.
Lemma lower_in_nest : forall c, is_lower c = true -> in_nest c = true.
Proof. intros [[] [] [] [] [] [] [] []]; vm_compute; congruence. Qed.
Lemma flat_text : forall t, flatb t = true -> proper t = true -> all_chars in_nest (t_text t) = true.
Proof.
  intros [k|k|k|k|k|k] F P; cbn [flatb proper t_text] in *; try discriminate; [exact F| |].
  - destruct k as [|c k]; [discriminate|]. cbn [value_word all_chars] in *. apply andb_prop in P as [P1 P2].
    rewrite (lower_in_nest _ P1). apply (all_weaken word_char); [exact word_in_nest|exact P2].
  - apply andb_prop in P as [_ P]. apply (all_weaken is_digit); [exact digit_in_nest|exact P].
Qed.

Lemma all_app : forall f a b, all_chars f (a ++ b) = all_chars f a && all_chars f b.
Proof. induction a as [|c a IH]; intros b; [reflexivity|]. cbn [append all_chars]. now rewrite IH, andb_assoc. Qed.
Lemma plain_nest : forall t, all_chars in_nest t = true -> all_chars plain_char t = true.
Proof. intros t. apply all_weaken. intros c N. unfold plain_char. now rewrite N. Qed.
Lemma plain_blank : forall t, blank t -> all_chars plain_char t = true.
Proof. intros t. apply all_weaken. intros c N. unfold plain_char. rewrite N. apply orb_true_r. Qed.

Lemma squeeze_starts : forall f p x, f " "%char = false -> (forall c, is_white c = true -> f c = false) ->
  starts f (squeeze p ++ String ")" x) = starts f (p ++ String ")" x) \/ starts f (squeeze p ++ String ")" x) = f ")"%char \/
  starts f (squeeze p ++ String ")" x) = false.
Proof.
  intros f p x F W. destruct p as [|c p]; [now left|]. cbn [squeeze append starts]. destruct (is_white c) eqn:WC; [|now left].
  destruct (skip p); [now (right; left)|].
  assert (forall q, starts is_white q = true -> starts f (squeeze q ++ String ")" x) = f ")"%char \/ starts f (squeeze q ++ String ")" x) = false) as H.
  { induction q as [|d q IH]; intros ST; [discriminate|]. cbn [starts squeeze] in *. rewrite ST. destruct (skip q); [now left|].
    destruct (starts is_white q) eqn:ST'; [now apply IH|]. right. exact F. }
  destruct (starts is_white p) eqn:ST; [right; now apply H|]. right; right. exact F.
Qed.

Lemma nest_text : forall c l s r, forallb flatb c = true -> laid (c ++ K ")" :: l) s r -> exists p z,
  s = (p ++ String ")" z)%string /\ all_chars plain_char p = true /\ after (c ++ [K ")"]) s = z /\ laid l z r /\
  laid (c ++ [K ")"]) (squeeze p ++ ")") "".
Proof.
  induction c as [|t c IH]; intros l s r F L; cbn [app] in *.
  - inversion L as [|g t' l' s' r' BL P AP L']; subst. exists g, s'. cbn [t_text append]. split; [reflexivity|]. split; [now apply plain_blank|].
    split; [|split; [exact L'|]].
    + cbn [after t_text]. rewrite (skip_blank _ _ BL). cbn [skip]. change (is_white ")") with false. cbn iota. cbn [prefixed]. now rewrite Ascii.eqb_refl.
    + rewrite squeeze_blank by exact BL. apply (laid_cons "" (K ")") [] "" "" eq_refl eq_refl); [discriminate|]. now constructor.
  - cbn [forallb] in F. apply andb_prop in F as [F1 F]. inversion L as [|g t' l' s' r' BL P AP L']; subst.
    destruct (IH _ _ _ F L') as (p & z & -> & PP & A & LZ & LS). pose proof (flat_text t F1 P) as FT. pose proof (proper_solid t) as PS.
    exists (g ++ t_text t ++ p)%string, z. split; [now rewrite !app_assoc_s|]. split; [|split; [|split; [exact LZ|]]].
    + rewrite !all_app, (plain_blank _ BL), (plain_nest _ FT), PP. reflexivity.
    + cbn [after]. rewrite (skip_blank _ _ BL), (skip_solid _ (PS _ P)), prefixed_app. exact A.
    + pose proof (proper_long t P) as PL.
      assert ((t_text t ++ p)%string <> "") as NE by (destruct (t_text t); [cbn in PL; lia|discriminate]).
      destruct (squeeze_gap g (t_text t ++ p) BL NE (PS p P)) as (g' & BL' & ->).
      rewrite (squeeze_solid _ _ FT), !app_assoc_s. apply laid_cons; [exact BL'|exact P| |exact LS].
      intros W. specialize (AP W). destruct (squeeze_starts is_word p "" eq_refl) as [E|[E|E]].
      { intros x. destruct x as [[] [] [] [] [] [] [] []]; vm_compute; congruence. }
      { rewrite E. destruct p; [reflexivity|exact AP]. }
      { now rewrite E. }
      { now rewrite E. }
Qed.

Lemma nested_S : forall parse n act s, nested parse (Datatypes.S n) act s =
  match skip s with
  | EmptyString => NoMatch
  | String c r =>
    if Ascii.eqb c ")" then Match r []
    else if Ascii.eqb c "(" then
      match nested parse n act r with
      | Match r1 g =>
        match (if act then constraint_of parse g else Match "" (Grp g)) with
        | Match _ t =>
          match nested parse n act r1 with
          | Match r2 l => Match r2 (t :: l)
          | o => o
          end
        | NoMatch => NoMatch
        | Raise e => Raise e
        end
      | o => o
      end
    else if is_quote c then Raise NotModelled
    else let '(w, r1) := span in_nest (String c r) in
         match nested parse n act r1 with
         | Match r2 l => Match r2 (Str w :: l)
         | o => o
         end
  end.
Proof. reflexivity. Qed.

(** The words. *)
Lemma span_plain : forall q z, all_chars plain_char q = true -> exists w q',
  q = (w ++ q')%string /\ span in_nest (q ++ String ")" z) = (w, q' ++ String ")" z)%string /\ all_chars in_nest w = true /\
  (q' = "" \/ starts is_white q' = true) /\ all_chars plain_char q' = true.
Proof.
  induction q as [|c q IH]; intros z A.
  - exists "", "". repeat split; auto.
  - cbn [all_chars] in A. apply andb_prop in A as [P A]. cbn [append span]. destruct (in_nest c) eqn:N.
    + destruct (IH z A) as (w & q' & -> & E & W & S & PP). rewrite E. exists (String c w), q'. cbn [all_chars]. rewrite N. repeat split; auto.
    + unfold plain_char in P. rewrite N in P. cbn [orb] in P. exists "", (String c q). cbn [append all_chars starts]. unfold plain_char. rewrite N, P. repeat split; auto.
Qed.

Lemma nested_words : forall k p z, String.length p <= k -> all_chars plain_char p = true -> exists ws,
  (forall parse act n, k < n -> nested parse n act (p ++ String ")" z) = Match z (map Str ws)) /\
  join_words (map Str ws) = Ok (squeeze (skip p)) /\ (ws = [] <-> skip p = "") /\
  (forall w ws', ws = w :: ws' -> starts (fun c => negb (starts (Ascii.eqb c) (skip p))) w = false /\ w <> "").
Proof.
  induction k as [k IH] using lt_wf_ind. intros p z LE A.
  destruct (skip_split p) as (g & BL & E).
  assert (skip (p ++ String ")" z) = (skip p ++ String ")" z)%string) as SK.
  { rewrite E at 1. rewrite app_assoc_s, (skip_blank _ _ BL). destruct (skip p) as [|c q] eqn:SP; [reflexivity|].
    apply skip_solid. cbn [append starts]. pose proof (skip_skip p) as SS. rewrite SP in SS. cbn [skip] in SS.
    destruct (is_white c) eqn:W; [|reflexivity]. exfalso. apply (f_equal String.length) in SS. pose proof (skip_length q). cbn [String.length] in SS. lia. }
  assert (all_chars plain_char (skip p) = true) as PS. { rewrite E, all_app in A. now apply andb_prop in A as [_ A]. }
  destruct (skip p) as [|c q] eqn:SP.
  - exists []. split; [|split; [reflexivity|split; [tauto|discriminate]]]. intros parse act n LN. destruct n as [|n]; [lia|]. cbn [nested]. rewrite SK.
    cbn [append]. rewrite Ascii.eqb_refl. reflexivity.
  - assert (is_white c = false) as WC.
    { pose proof (skip_skip p) as SS. rewrite SP in SS. cbn [skip] in SS.
      destruct (is_white c) eqn:W; [|reflexivity]. exfalso. apply (f_equal String.length) in SS. pose proof (skip_length q). cbn [String.length] in SS. lia. }
    assert (in_nest c = true) as NC. { cbn [all_chars] in PS. apply andb_prop in PS as [PS _]. unfold plain_char in PS. rewrite WC, orb_false_r in PS. exact PS. }
    destruct (span_plain (String c q) z PS) as (w & q' & EQ & SPN & W & ST & PP).
    assert (exists w', w = String c w') as (w' & EW).
    { destruct w as [|d w']; [|injection EQ as <-; eauto]. cbn [append] in *. rewrite <- EQ in ST. destruct ST as [ST|ST]; [discriminate|]. cbn [starts] in ST. congruence. }
    assert (String.length q' < String.length p) as LQ.
    { pose proof (f_equal String.length EQ) as X. rewrite EW, length_app_s in X. pose proof (skip_length p) as Y. rewrite SP in Y. cbn [String.length] in *. lia. }
    destruct (IH (String.length q') ltac:(lia) q' z (Nat.le_refl _) PP) as (ws & N & J & WN & _).
    exists (w :: ws). split; [|split; [|split]].
    + intros parse act n LN. destruct n as [|n]; [lia|]. cbn [nested]. rewrite SK. cbn [append].
      unfold in_nest in NC. apply negb_true_iff in NC. apply orb_false_iff in NC as [NC _]. apply orb_false_iff in NC as [NP NQ].
      unfold is_paren in NP. apply orb_false_iff in NP as [NP1 NP2]. rewrite NP1, NP2, NQ.
      replace (String c (q ++ String ")" z)) with (String c q ++ String ")" z)%string by reflexivity. rewrite SPN. rewrite N by lia. reflexivity.
    + cbn [map]. rewrite EQ, squeeze_solid by exact W. destruct ws as [|w2 ws].
      * cbn [map join_words]. assert (skip q' = "") as Q by now apply WN. f_equal.
        assert (squeeze q' = "") as ->. { apply squeeze_blank. unfold blank. destruct (skip_split q') as (g' & B' & E'). rewrite Q, app_nil_s in E'. now subst q'. }
        now rewrite app_nil_s.
      * change (join_words (Str w :: map Str (w2 :: ws))) with (let* x := join_words (map Str (w2 :: ws)) in Ok (append w (String " " x))).
        rewrite J. cbn [bind]. f_equal. f_equal. assert (skip q' <> "") as Q by (intros Q; apply WN in Q; discriminate).
        destruct ST as [->|ST]; [now elim Q|]. rewrite (squeeze_white q' ST Q). reflexivity.
    + split; discriminate.
    + intros w0 ws0 EE. injection EE as <- <-. subst w. cbn [starts]. rewrite Ascii.eqb_refl. split; [reflexivity|discriminate].
Qed.

(** * Constraints *)

(** The items [c], the texts that are left of them and the tuple made of these. *)
Record con_ok (c : list token) (t : string * string * bool) : Prop := ConOk {
  ok_flat : forallb flatb c = true;
  ok_first : exists k c', c = k :: c' /\ disjoint (COne "S") (tok_cls k) = true;
  ok_reads : exists ws lo rest, Yes g_constraint (K "(" :: c ++ [K ")"]) [] Tight (map Str ws) /\
    remove_word "..." ws = lo :: rest /\ t = (lo, last rest lo, mem "..." ws)
}.

Lemma all_str_map : forall ws, all_str (map Str ws) = Some ws.
Proof. unfold all_str. induction ws as [|w ws IH]; [reflexivity|]. cbn [map all_some]. now rewrite IH. Qed.

(** Behind the opening parenthesis. *)
Lemma nested_con : forall c t l s r, con_ok c t -> laid (c ++ K ")" :: l) s r -> exists ws n0,
  (forall f act m, n0 <= m -> nested f m act s = Match (after (c ++ [K ")"]) s) (map Str ws)) /\
  ev (fun n => constraint_of (run n true g_constraint) (map Str ws) = Match "" (Con t)).
Proof.
  intros c t l s r [F (k & c' & EC & DS) (ts & lo & rest & Y & RW & ET)] L.
  assert (laid (c ++ K ")" :: l) (skip s) r) as LK. { rewrite EC in *. cbn [app] in *. now apply laid_skip. }
  destruct (nest_text c l (skip s) r F LK) as (p & z & E & PP & A & _ & LS).
  assert (after (c ++ [K ")"]) s = z) as AZ. { rewrite <- A. rewrite EC. cbn [app]. now rewrite after_skip. }
  assert (skip p = p) as SP.
  { destruct p as [|x p]; [reflexivity|]. pose proof (skip_skip s) as SS. rewrite E in SS. cbn [append skip] in SS. destruct (is_white x) eqn:W; [|now apply skip_solid].
    exfalso. apply (f_equal String.length) in SS. pose proof (skip_length (p ++ String ")" z)). cbn [String.length] in SS. lia. }
  destruct (nested_words (String.length p) p z (Nat.le_refl _) PP) as (ws & N & J & WN & WF). rewrite SP in *.
  exists ws, (Datatypes.S (String.length p)). split.
  - intros f act m LM. rewrite AZ. rewrite <- (N f act m ltac:(lia)), <- E. destruct m; [lia|]. cbn [nested]. now rewrite skip_skip.
  - assert (exists w ws', ws = w :: ws' /\ String.eqb w "SIZE" = false) as (w & ws' & EW & NS).
    { destruct ws as [|w ws'].
      - exfalso. assert (p = "") as -> by now apply WN. rewrite EC in *. cbn [app append] in *. destruct (laid_inv _ _ _ _ LK) as (X & P & _ & _). rewrite skip_skip, E in X.
        cbn [forallb] in F. apply andb_prop in F as [F _]. pose proof (flat_text k F P) as FT. pose proof (proper_long k P) as PL.
        destruct (t_text k) as [|d q]; [cbn in PL; lia|]. cbn [append] in X. injection X as <- _. cbn [all_chars] in FT. discriminate.
      - exists w, ws'. split; [reflexivity|]. destruct (WF w ws' eq_refl) as [W NE]. destruct w as [|d w]; [congruence|]. cbn [starts] in W.
        apply negb_false_iff in W. destruct p as [|e p]; [discriminate|]. cbn [starts] in W. apply Ascii.eqb_eq in W as ->.
        rewrite EC in *. cbn [app] in *. destruct (laid_inv _ _ _ _ LK) as (X & P & _ & _). rewrite skip_skip in X.
        destruct (tok_first k (after [k] (skip s)) P) as (x & y & Q & IC). rewrite Q, E in X. cbn [append] in X. injection X as -> _.
        destruct (String.eqb_spec (String x w) "SIZE") as [EE|]; [|reflexivity]. injection EE as -> _. exfalso.
        exact (disjoint_ok _ _ "S"%char DS (Ascii.eqb_refl _) IC). }
    destruct Y as (cc & ECC & YG). rewrite app_nil_r in ECC. subst cc.
    assert (laid (K "(" :: c ++ [K ")"]) (String "(" (squeeze p ++ ")")) "") as LL.
    { apply (laid_cons "" (K "(") (c ++ [K ")"]) _ "" eq_refl eq_refl); [discriminate|exact LS]. }
    destruct (YG _ _ LL) as [G _]. eapply ev_one; [exact G|]. intros n R. cbn beta in R.
    unfold constraint_of. rewrite EW in *. cbn [map is_str]. rewrite NS. cbn [map] in J. rewrite J.
    change (append "(" (append (squeeze p) ")")) with (String "(" (squeeze p ++ ")")%string). rewrite R, all_str_map, RW. now rewrite ET.
Qed.

Lemma nest_unfold : forall n act s s1, skip s = String "(" s1 ->
  run (Datatypes.S (Datatypes.S n)) act g_nest s =
  match nested (run n true g_constraint) n act s1 with
  | Match r g => if act then match constraint_of (run (Datatypes.S n) true g_constraint) g with
                             | Match _ t => Match r [t]
                             | NoMatch => NoMatch
                             | Raise x => Raise x
                             end
                 else Match r [Grp g]
  | NoMatch => NoMatch
  | Raise x => Raise x
  end.
Proof.
  intros n act s s1 E. cbn [run step g_nest]. rewrite skip_skip, E. cbn iota beta. rewrite Ascii.eqb_refl.
  destruct (nested (run n true g_constraint) n act s1); reflexivity.
Qed.

Lemma yes_nest_values : forall c t l, con_ok c t -> Yes g_nest (K "(" :: c ++ K ")" :: l) l Tight [Con t].
Proof.
  intros c t l OK. exists (K "(" :: c ++ [K ")"]). split; [cbn [app]; now rewrite <- app_assoc|]. intros s r L.
  destruct (laid_inv _ _ _ _ L) as (E & _ & _ & L'). cbn [t_text append] in E.
  assert (after (K "(" :: c ++ [K ")"]) s = after (c ++ [K ")"]) (after [K "("] s)) as AE by (cbn [after t_text]; rewrite E; cbn [prefixed]; now rewrite Ascii.eqb_refl).
  destruct (nested_con c t l _ r OK L') as (ws & n0 & N & [m M]). cbn [cut]. rewrite AE. split; [|exists [Grp (map Str ws)]].
  - exists (Datatypes.S (Datatypes.S (Nat.max n0 m))). intros n LN. destruct n as [|[|n]]; [lia..|]. rewrite (nest_unfold n true s _ E).
    rewrite (N _ true n ltac:(lia)), (M (Datatypes.S n) ltac:(lia)). reflexivity.
  - exists (Datatypes.S (Datatypes.S n0)). intros n LN. destruct n as [|[|n]]; [lia..|]. rewrite (nest_unfold n false s _ E).
    rewrite (N _ false n ltac:(lia)). reflexivity.
Qed.

Lemma yes_nest_size : forall c t l, con_ok c t -> Yes g_nest (K "(" :: K "SIZE" :: K "(" :: c ++ K ")" :: K ")" :: l) l Tight [Con t].
Proof.
  intros c t l OK. exists (K "(" :: K "SIZE" :: K "(" :: c ++ [K ")"; K ")"]). split; [cbn [app]; now rewrite <- app_assoc|]. intros s r L.
  destruct (laid_inv _ _ _ _ L) as (E & _ & _ & L1). cbn [t_text append] in E.
  destruct (laid_inv _ _ _ _ L1) as (E1 & _ & _ & L2). cbn [t_text] in E1.
  destruct (laid_inv _ _ _ _ L2) as (E2 & _ & _ & L3). cbn [t_text append] in E2.
  set (s1 := after [K "("] s) in *. set (s2 := after [K "SIZE"] s1) in *. set (s3 := after [K "("] s2) in *.
  destruct (nested_con c t (K ")" :: l) s3 r OK L3) as (ws & n0 & N & [m M]).
  set (s4 := after (c ++ [K ")"]) s3) in *.
  assert (laid (K ")" :: l) s4 r) as L4.
  { unfold s4. apply (laid_app (c ++ [K ")"]) (K ")" :: l)). now rewrite <- app_assoc. }
  destruct (laid_inv _ _ _ _ L4) as (E4 & _ & _ & L5). cbn [t_text append] in E4. set (s5 := after [K ")"] s4) in *.
  assert (after (K "(" :: K "SIZE" :: K "(" :: c ++ [K ")"; K ")"]) s = s5) as AE.
  { replace (K "(" :: K "SIZE" :: K "(" :: c ++ [K ")"; K ")"]) with ([K "("] ++ [K "SIZE"] ++ [K "("] ++ (c ++ [K ")"]) ++ [K ")"]) by (cbn [app]; now rewrite <- app_assoc).
    rewrite (after_cat [K "("] _ _ s r L). fold s1. rewrite (after_cat [K "SIZE"] _ _ s1 r L1). fold s2. rewrite (after_cat [K "("] _ _ s2 r L2). fold s3.
    rewrite (after_cat (c ++ [K ")"]) (K ")" :: l) _ s3 r); [reflexivity|]. now rewrite <- app_assoc. }
  assert (forall f act k, Nat.max n0 m + 3 <= k ->
    nested f k act s1 = match (if act then constraint_of f (map Str ws) else Match "" (Grp (map Str ws))) with
                        | Match _ x => Match s5 [Str "SIZE"; x]
                        | NoMatch => NoMatch
                        | Raise e => Raise e
                        end) as W.
  { intros f act k LK. destruct k as [|[|[|k]]]; [lia..|].
    assert (span in_nest (String "S" ("IZE" ++ s2)) = ("SIZE", s2)) as SPN.
    { change (String "S" ("IZE" ++ s2)) with ("SIZE" ++ s2)%string. apply span_all; [reflexivity|].
      destruct (skip_split s2) as (g & BL & EE). rewrite EE, E2. destruct g as [|x g]; [reflexivity|]. unfold blank in BL. cbn [all_chars append starts] in *.
      apply andb_prop in BL as [BL _]. destruct (in_nest x) eqn:NX; [|reflexivity]. apply nest_solid in NX. congruence. }
    rewrite nested_S. rewrite E1. cbn [append]. cbn beta iota. change (Ascii.eqb "S" ")") with false. change (Ascii.eqb "S" "(") with false.
    change (is_quote "S") with false. cbn iota. change (String "S" (String "I" (String "Z" (String "E" s2)))) with (String "S" ("IZE" ++ s2)). rewrite SPN.
    rewrite nested_S. rewrite E2. cbn beta iota. change (Ascii.eqb "(" ")") with false. rewrite Ascii.eqb_refl. cbn iota.
    rewrite (N f act (Datatypes.S k) ltac:(lia)). fold s4.
    destruct (if act then constraint_of f (map Str ws) else Match "" (Grp (map Str ws))) as [rr x| |x]; [|reflexivity..].
    cbn [nested]. rewrite E4. rewrite Ascii.eqb_refl. reflexivity. }
  cbn [cut]. rewrite AE. split; [|exists [Grp [Str "SIZE"; Grp (map Str ws)]]].
  - exists (Datatypes.S (Datatypes.S (Nat.max n0 m + 3))). intros n LN. destruct n as [|[|n]]; [lia..|]. rewrite (nest_unfold n true s _ E).
    rewrite (W _ true n ltac:(lia)). rewrite (M n ltac:(lia)). reflexivity.
  - exists (Datatypes.S (Datatypes.S (Nat.max n0 m + 3))). intros n LN. destruct n as [|[|n]]; [lia..|]. rewrite (nest_unfold n false s _ E).
    rewrite (W _ false n ltac:(lia)). reflexivity.
Qed.

(** ** The constraints of Subtypes.v *)

Lemma flat_bound : forall b, forallb flatb (bound_toks b) = true.
Proof. intros [| |z|n]; try reflexivity. cbn [bound_toks]. unfold num_toks. now destruct (z <? 0)%Z. Qed.
Lemma flat_element : forall e, forallb flatb (element_toks e) = true.
Proof.
  intros [b|lo a b hi]; cbn [element_toks]; [apply flat_bound|]. rewrite !forallb_app. cbn [forallb]. rewrite forallb_app, !flat_bound.
  now destruct a, b.
Qed.
Lemma flat_inter : forall i, forallb flatb (inter_toks i) = true.
Proof. intros [e [x|]]; unfold inter_toks; cbn [i_elem i_except]; rewrite forallb_app; cbn [forallb]; now rewrite !flat_element. Qed.
Lemma flat_marked : forall sep l, all_chars in_nest sep = true -> Forall (fun x => forallb flatb x = true) l -> forallb flatb (with_mark sep l) = true.
Proof.
  intros sep l S F. induction F as [|x l FX F IH]; [reflexivity|]. destruct l as [|y l]; [exact FX|].
  cbn [with_mark] in *. rewrite forallb_app. cbn [forallb flatb]. now rewrite FX, S, IH.
Qed.
Lemma flat_set : forall s, forallb flatb (set_toks s) = true.
Proof.
  intros [u|e]; cbn [set_toks].
  - apply flat_marked; [reflexivity|]. apply Forall_forall. intros x I'. apply in_map_iff in I' as (i & <- & _).
    apply flat_marked; [reflexivity|]. apply Forall_forall. intros y I'. apply in_map_iff in I' as (j & <- & _). apply flat_inter.
  - cbn [forallb]. now rewrite flat_element.
Qed.
Lemma flat_cspec : forall c, forallb flatb (cspec_toks c) = true.
Proof.
  intros [s [| |s']]; unfold cspec_toks; cbn [c_root c_marker]; rewrite forallb_app, flat_set; cbn [forallb app]; rewrite ?flat_set; reflexivity.
Qed.

Lemma first_set : forall s l, good_set s -> exists k x, set_toks s ++ l = k :: x /\ disjoint (COne "S") (tok_cls k) = true.
Proof.
  intros [u|e] l G; cbn [good_set set_toks] in *; [|eexists; eexists; split; reflexivity]. destruct G as [N G].
  destruct u as [|i u]; [congruence|]. inversion G as [|? ? GI _]; subst. destruct u as [|j u]; cbn [map with_mark].
  - change (with_mark "^" (map inter_toks i)) with (inters_toks i). destruct (first_inters i l GI) as (k & x & -> & [->|[->|[->|[(? & ->)|(? & ->)]]]]);
      (eexists; eexists; split; reflexivity).
  - rewrite <- app_assoc. change (with_mark "^" (map inter_toks i)) with (inters_toks i).
    match goal with |- context [inters_toks i ++ ?y] => destruct (first_inters i y GI) as (k & x & -> & [->|[->|[->|[(? & ->)|(? & ->)]]]]) end;
      (eexists; eexists; split; reflexivity).
Qed.

Lemma bound_text_plain : forall b s, good_bound b -> s = "," \/ s = "..." -> String.eqb (bound_text b) s = false.
Proof.
  intros [| |z|n] s G E; cbn [good_bound bound_text] in *; try (now destruct E; subst).
  - apply String.eqb_neq. intros X. assert (starts (fun c => is_digit c || Ascii.eqb c "-") (num_text z) = true) as S.
    { unfold num_text. destruct z as [|p|p]; [reflexivity| |reflexivity].
      cbn [Z.to_int DecimalString.NilZero.string_of_int]. unfold DecimalString.NilZero.string_of_uint. destruct (Pos.to_uint p); reflexivity. }
    rewrite X in S. now destruct E; subst.
  - apply String.eqb_neq. intros X. subst n. now destruct E; subst.
Qed.

Lemma items_plain : forall f : string -> bool, (forall b, good_bound b -> f (bound_text b) = true) ->
  Forall (fun k => f k = true) [".."; "<"; "EXCEPT"; "^"; "|"; "ALL"] -> forall s, good_set s -> forallb f (set_items s) = true.
Proof.
  intros f FB FK. rewrite Forall_forall in FK.
  assert (forall e, good_element e -> forallb f (element_items e) = true) as FE.
  { intros [b|lo a b hi] G; cbn [good_element element_items] in *.
    - cbn [forallb]. destruct G as (G & _). now rewrite FB.
    - destruct G as (GL & GH & _). rewrite !forallb_app. cbn [forallb]. rewrite ?forallb_app. cbn [forallb]. rewrite !FB by assumption.
      rewrite (FK "..") by (cbn; tauto). destruct a, b; cbn [forallb]; rewrite ?(FK "<") by (cbn; tauto); reflexivity. }
  assert (forall i, good_inter i -> forallb f (inter_items i) = true) as FI.
  { intros [e [x|]] [G GX]; unfold inter_items; cbn [i_elem i_except] in *; rewrite forallb_app, FE by exact G; [|reflexivity].
    cbn [forallb]. rewrite (FK "EXCEPT") by (cbn; tauto). now rewrite FE by now apply GX. }
  assert (forall sep l, f sep = true -> Forall (fun x => forallb f x = true) l -> forallb f (joined sep l) = true) as FJ.
  { intros sep l S F. induction F as [|x l FX F IH]; [reflexivity|]. destruct l as [|y l]; [exact FX|].
    cbn [joined] in *. rewrite forallb_app. cbn [forallb]. now rewrite FX, S, IH. }
  intros [u|e] G; cbn [good_set set_items] in *.
  - apply FJ; [apply FK; cbn; tauto|]. destruct G as [_ G]. rewrite Forall_map. apply (Forall_impl _) with (2 := G). intros i [_ GI].
    apply FJ; [apply FK; cbn; tauto|]. rewrite Forall_map. apply (Forall_impl _) with (2 := GI). exact FI.
  - cbn [forallb]. rewrite (FK "ALL"), (FK "EXCEPT") by (cbn; tauto). now apply FE.
Qed.
Lemma filter_all : forall (f : string -> bool) l, forallb f l = true -> filter f l = l.
Proof. intros f l. induction l as [|x l IH]; [reflexivity|]. cbn [forallb filter]. intros A. apply andb_prop in A as [X A]. now rewrite X, IH. Qed.
Lemma no_commas : forall s, good_set s -> filter not_comma (set_items s) = set_items s.
Proof.
  intros s G. apply filter_all. apply items_plain; [|repeat constructor|exact G]. intros b GB. unfold not_comma. now rewrite bound_text_plain by auto.
Qed.
Lemma strs_items : forall c, good_cspec c -> filter not_comma (items c) = good_strs c.
Proof.
  intros [s m] [G GM]. unfold items, good_strs. cbn [c_root c_marker] in *. rewrite filter_app, (no_commas s G). f_equal.
  destruct m as [| |s']; try reflexivity. rewrite filter_app, (no_commas s' GM). reflexivity.
Qed.
Lemma remove_same : forall s l, remove_word s l = remove_first s l.
Proof. induction l as [|x l IH]; [reflexivity|]. cbn [remove_word remove_first]. now rewrite IH. Qed.
Lemma last_cons : forall (l : list string) x, last (x :: l) x = last l x.
Proof. intros [|y l] x; reflexivity. Qed.

Lemma cspec_ok : forall c t, good_cspec c -> end_points (filter not_comma (items c)) = Ok t -> con_ok (cspec_toks c) t.
Proof.
  intros c t G E. split.
  - apply flat_cspec.
  - destruct G as [G _]. unfold cspec_toks. destruct (first_set (c_root c) match c_marker c with NoMarker => [] | Marker => [K ","; K "..."] | Additional s => [K ","; K "..."; K ","] ++ set_toks s end G)
      as (k & x & -> & D'). eauto.
  - rewrite (strs_items c G) in E. unfold end_points in E. destruct (remove_first "..." (good_strs c)) as [|lo rest] eqn:R; [discriminate|].
    injection E as <-. exists (good_strs c), lo, rest. split; [now apply yes_constraint|]. split; [now rewrite remove_same|]. now destruct rest.
Qed.

(** A range is such a constraint. *)
Lemma range_ok : forall r l, spells_range r l -> con_ok l (bound_text (lower r), bound_text (upper r), extensible r).
Proof.
  intros r l SP. destruct SP as [r GL GU NL NU|r G E NX NM].
  - set (c := CSpec (Union [[Inter (Between (lower r) false false (upper r)) None]]) (if extensible r then Marker else NoMarker)).
    assert (bound_toks (lower r) ++ K ".." :: bound_toks (upper r) ++ (if extensible r then [K ","; K "..."] else []) = cspec_toks c) as ->.
    { unfold c, cspec_toks. cbn [c_root c_marker set_toks map with_mark]. unfold inter_toks. cbn [i_elem i_except element_toks app]. rewrite app_nil_r, <- app_assoc.
      cbn [app]. now destruct (extensible r). }
    assert (good_cspec c) as GC.
    { split; [|now unfold c; destruct (extensible r)]. split; [discriminate|]. constructor; [|constructor]. split; [now left|]. constructor; [|constructor].
      split; [cbn; tauto|discriminate]. }
    apply cspec_ok; [exact GC|]. rewrite strs_items by exact GC. unfold c, good_strs. cbn [c_root c_marker set_items map joined]. unfold inter_items. cbn [i_elem i_except element_items app].
    unfold end_points. pose proof (bound_text_plain (lower r) "..." GL (or_intror eq_refl)) as E1. pose proof (bound_text_plain (upper r) "..." GU (or_intror eq_refl)) as E2.
    unfold mem. destruct (extensible r); cbn [app remove_first existsb]; rewrite E1; cbn [remove_first]; rewrite E2; cbn [remove_first last];
      rewrite (String.eqb_sym "..." (bound_text (lower r))), (String.eqb_sym "..." (bound_text (upper r))), E1, E2; reflexivity.
  - set (c := CSpec (Union [[Inter (Single (lower r)) None]]) (if extensible r then Marker else NoMarker)).
    assert (bound_toks (lower r) ++ (if extensible r then [K ","; K "..."] else []) = cspec_toks c) as ->.
    { unfold c, cspec_toks. cbn [c_root c_marker set_toks map with_mark]. unfold inter_toks. cbn [i_elem i_except element_toks app]. rewrite app_nil_r.
      now destruct (extensible r). }
    assert (good_cspec c) as GC.
    { split; [|now unfold c; destruct (extensible r)]. split; [discriminate|]. constructor; [|constructor]. split; [now left|]. constructor; [|constructor].
      split; [cbn; tauto|discriminate]. }
    apply cspec_ok; [exact GC|]. rewrite strs_items by exact GC. unfold c, good_strs. cbn [c_root c_marker set_items map joined]. unfold inter_items. cbn [i_elem i_except element_items app].
    unfold end_points. pose proof (bound_text_plain (lower r) "..." G (or_intror eq_refl)) as E1. rewrite <- E.
    unfold mem. destruct (extensible r); cbn [app remove_first existsb]; rewrite E1; cbn [remove_first last];
      rewrite (String.eqb_sym "..." (bound_text (lower r))), E1; reflexivity.
Qed.
