(** How much work reading a schema is (property C61): the calls of _parse made by
    parse_asn1_schema are of linearly many kinds, and a call is repeated 384 times
    for every level types are nested. *)

From Coq Require Import ZArith List String Ascii Bool Arith Lia.
Import ListNotations.
From Verif Require Import PyBase Generator Emit Exec Meaning Subtypes Parses Grammar Texts Tokens Reads Nests ReadTypes
  ReadBodies ReadModules ReadTexts.

Open Scope string_scope.
Open Scope list_scope.
Open Scope nat_scope.

(** * What is left of a text is an end of it *)

Definition ending (s s' : string) : Prop := exists p, s = (p ++ s')%string.

Lemma ending_same s : ending s s.
Proof. now exists "". Qed.
Lemma ending_more c s s' : ending s s' -> ending (String c s) s'.
Proof. intros (p & ->). now exists (String c p). Qed.
Lemma ending_trans a b c : ending a b -> ending b c -> ending a c.
Proof. intros (p & ->) (q & ->). exists (p ++ q)%string. now rewrite app_assoc_s. Qed.
Lemma ending_skip s : ending s (skip s).
Proof. induction s as [|c s IH]; [apply ending_same|]. cbn [skip]. destruct (is_white c); [now apply ending_more|apply ending_same]. Qed.
Lemma ending_span f s a b : span f s = (a, b) -> ending s b.
Proof.
  revert a b. induction s as [|c s IH]; intros a b E; cbn [span] in E; [injection E as <- <-; apply ending_same|].
  destruct (f c); [|injection E as <- <-; apply ending_same]. destruct (span f s) as [x y]. injection E as <- <-.
  apply ending_more. now apply (IH x).
Qed.
Lemma ending_prefixed p s r : prefixed p s = Some r -> ending s r.
Proof. intros E. apply prefixed_inv in E as ->. now exists p. Qed.
Lemma ending_word f g s m r : word f g s = Some (m, r) -> ending s r.
Proof.
  destruct s as [|c s]; cbn [word]; [discriminate|]. destruct (f c); [|discriminate]. destruct (span g s) as [a b] eqn:E.
  intros X. injection X as <- <-. apply ending_more. now apply (ending_span g _ a).
Qed.
Lemma ending_quoted q f k s m r : quoted q f k s = Some (m, r) -> ending s r.
Proof.
  destruct s as [|c s]; cbn [quoted]; [discriminate|]. destruct (Ascii.eqb c q); [|discriminate]. destruct (span f s) as [a b] eqn:E.
  destruct (prefixed (String q k) b) as [r'|] eqn:P; [|discriminate]. intros X. injection X as <- <-. apply ending_more.
  eapply ending_trans; [exact (ending_span _ _ _ _ E)|exact (ending_prefixed _ _ _ P)].
Qed.
Lemma ending_term t s m r : term t s = Some (m, r) -> ending s r.
Proof.
  destruct t; cbn [term]; try apply ending_word; try apply ending_quoted.
  - destruct (prefixed s0 s) as [x|] eqn:P; [|discriminate]. intros X. injection X as <- <-. exact (ending_prefixed _ _ _ P).
  - unfold real. destruct (word is_digit is_digit s) as [[a [|c x]]|] eqn:W; try discriminate. destruct (Ascii.eqb c "."); [|discriminate].
    destruct (word is_digit is_digit x) as [[b y]|] eqn:W'; [|discriminate]. intros X. injection X as <- <-.
    eapply ending_trans; [exact (ending_word _ _ _ _ _ W)|]. apply ending_more. exact (ending_word _ _ _ _ _ W').
Qed.

Section Ends.
Variable f : bool -> pexp -> string -> outcome (list tok).
Hypothesis F : forall act e s r a, f act e s = Match r a -> ending s r.

Lemma ending_and act l s r a : run_and f act l s = Match r a -> ending s r.
Proof.
  revert s r a. induction l as [|e l IH]; intros s r a E; cbn [run_and] in E; [injection E as <- <-; apply ending_same|].
  destruct (f act e s) as [s1 x| |] eqn:X; try discriminate. destruct (run_and f act l s1) as [s2 y| |] eqn:Y; try discriminate.
  injection E as <- <-. eapply ending_trans; [exact (F _ _ _ _ _ X)|exact (IH _ _ _ Y)].
Qed.
Lemma ending_longest l s b r a : (forall x y, b = Some (x, y) -> ending s x) -> longest f l s b = Match r a -> ending s r.
Proof.
  revert b. induction l as [|(n, e) l IH]; intros b Hb E; cbn [longest] in E.
  - destruct b as [(x, y)|]; cbn [answer] in E; [|discriminate]. injection E as <- <-. now apply (Hb x y).
  - destruct (match b with Some (b, _) => String.length b <=? n | None => false end).
    + destruct b as [(x, y)|]; cbn [answer] in E; [|discriminate]. injection E as <- <-. now apply (Hb x y).
    + destruct (f true e s) as [s1 x| |] eqn:X; try discriminate; [|now apply (IH b)].
      destruct (String.length s1 <=? n); [injection E as <- <-; exact (F _ _ _ _ _ X)|]. revert E. apply IH. intros u v Q.
      destruct b as [(b0, b1)|].
      * destruct (String.length s1 <? String.length b0); [injection Q as <- <-; exact (F _ _ _ _ _ X)|now apply (Hb u v)].
      * injection Q as <- <-. exact (F _ _ _ _ _ X).
Qed.
Lemma ending_or act l s r a : run_or f act l s = Match r a -> ending s r.
Proof.
  unfold run_or. destruct (tries f l s) as [m|]; [|discriminate]. destruct (sort_matches m) as [|(n, e) q]; [discriminate|].
  destruct act; [apply ending_longest; discriminate|apply F].
Qed.
Lemma ending_many n act e s b r a : more f n act e s b = Match r a -> ending s r.
Proof.
  revert s b. induction n as [|n IH]; intros s b E; cbn [more] in E; [discriminate|].
  destruct (f act e s) as [s1 x| |] eqn:X; try discriminate.
  - eapply ending_trans; [exact (F _ _ _ _ _ X)|exact (IH _ _ E)].
  - injection E as <- <-. apply ending_same.
Qed.
End Ends.

Lemma ending_nested p n act s r a : nested p n act s = Match r a -> ending s r.
Proof.
  revert s r a. induction n as [|n IH]; intros s r a E; cbn [nested] in E; [discriminate|].
  apply (ending_trans _ (skip s)); [apply ending_skip|]. destruct (skip s) as [|c x]; [discriminate|].
  destruct (Ascii.eqb c ")"); [injection E as <- <-; apply ending_more, ending_same|].
  destruct (Ascii.eqb c "(").
  - apply ending_more. destruct (nested p n act x) as [r1 g| |] eqn:N1; try discriminate.
    destruct (if act then _ else _) as [u t| |]; try discriminate.
    destruct (nested p n act r1) as [r2 l| |] eqn:N2; try discriminate. injection E as <- <-.
    eapply ending_trans; [exact (IH _ _ _ N1)|exact (IH _ _ _ N2)].
  - destruct (is_quote c); [discriminate|]. destruct (span in_nest (String c x)) as [w r1] eqn:S1.
    destruct (nested p n act r1) as [r2 l| |] eqn:N2; try discriminate. injection E as <- <-.
    eapply ending_trans; [exact (ending_span _ _ _ _ S1)|exact (IH _ _ _ N2)].
Qed.

Lemma ending_run n : forall act e s r a, run n act e s = Match r a -> ending s r.
Proof.
  induction n as [|n IH]; intros act e s r a E; cbn [run] in E; [discriminate|].
  apply (ending_trans _ (skip s)); [apply ending_skip|]. set (u := skip s) in *. clearbody u. clear s.
  destruct e as [t| |e|l|l|e|e|e|e|x e|q|]; cbn [step] in E.
  - destruct (term t u) as [(m, y)|] eqn:T; [|discriminate]. injection E as <- <-. exact (ending_term _ _ _ _ T).
  - injection E as <- <-. apply ending_same.
  - destruct (run n act e u) as [y b| |] eqn:X; try discriminate. injection E as <- <-. exact (IH _ _ _ _ _ X).
  - exact (ending_and _ IH _ _ _ _ _ E).
  - exact (ending_or _ IH _ _ _ _ _ E).
  - destruct (run n act e u) as [y b| |] eqn:X; try discriminate; [|injection E as <- <-; apply ending_same].
    eapply ending_trans; [exact (IH _ _ _ _ _ X)|exact (ending_many _ IH _ _ _ _ _ _ _ E)].
  - destruct (run n act e u) as [y b| |] eqn:X; try discriminate.
    eapply ending_trans; [exact (IH _ _ _ _ _ X)|exact (ending_many _ IH _ _ _ _ _ _ _ E)].
  - destruct (run n act e u) as [y b| |] eqn:X; try discriminate; injection E as <- <-; [exact (IH _ _ _ _ _ X)|apply ending_same].
  - destruct (run n act e u) as [y b| |] eqn:X; try discriminate. injection E as <- <-. exact (IH _ _ _ _ _ X).
  - assert (exists y b, run n act e u = Match y b /\ y = r) as (y & b & X & <-).
    { destruct (run n act e u) as [y b| |] eqn:X; [|destruct x; discriminate|destruct x; discriminate].
      exists y, b. split; [reflexivity|].
      destruct x; cbn beta iota in E;
        try (destruct act; [destruct (act_on _ b); [|discriminate]|]; injection E as <- _; reflexivity).
      destruct act; [|injection E as <- _; reflexivity]. destruct b as [|[| |g|] [|]]; try discriminate.
      destruct (constraint_of _ g); try discriminate. injection E as <- _. reflexivity. }
    exact (IH _ _ _ _ _ X).
  - exact (IH _ _ _ _ _ E).
  - destruct u as [|c y]; [discriminate|]. destruct (Ascii.eqb c "("); [|discriminate].
    destruct (nested _ n act y) as [z g| |] eqn:N; try discriminate. injection E as <- <-. apply ending_more.
    exact (ending_nested _ _ _ _ _ _ N).
Qed.

(** * The kinds of calls *)

(** An expression and those it is made of. *)
Fixpoint within (e : pexp) : list pexp :=
  e :: match e with
       | PSup e | POpt e | PGroup e | PAct _ e | PMany e | PMore e => within e
       | PAnd l | POr l => flat_map within l
       | PTerm _ | PEmpty | PRule _ | PNest => []
       end.

(** The expressions of the grammar (asn_definitions/*.py). *)
Definition grammar : list pexp :=
  within g_module ++ flat_map (fun q => within (body q)) [RType; RValue; RSet; RSets; RConstraint].

Fixpoint endings (s : string) : list string :=
  s :: match s with EmptyString => [] | String _ r => endings r end.

Lemma endings_all s s' : ending s s' -> In s' (endings s).
Proof.
  intros (p & ->). induction p as [|c p IH].
  - destruct s'; now left.
  - cbn [append endings]. now right.
Qed.
Lemma endings_length s : List.length (endings s) = S (String.length s).
Proof. induction s as [|c s IH]; [reflexivity|]. cbn [endings List.length String.length]. now rewrite IH. Qed.

Lemma within_self e : In e (within e).
Proof. destruct e; now left. Qed.

(** The expressions an expression calls. *)
Definition parts_of (e : pexp) : list pexp :=
  match e with
  | PSup e | POpt e | PGroup e | PAct _ e | PMany e | PMore e => [e]
  | PAnd l | POr l => l
  | PRule q => [body q]
  | PTerm _ | PEmpty | PNest => []
  end.

Fixpoint psize (e : pexp) : nat :=
  S match e with
    | PSup e | POpt e | PGroup e | PAct _ e | PMany e | PMore e => psize e
    | PAnd l | POr l => list_sum (map psize l)
    | PTerm _ | PEmpty | PRule _ | PNest => 0
    end.

Lemma within_trans n : forall x e y, psize e <= n -> In x (within e) -> In y (within x) -> In y (within e).
Proof.
  induction n as [|n IH]; intros x e y L Hx Hy; [destruct e; cbn in L; lia|].
  assert (Hl : forall l, list_sum (map psize l) <= n -> In x (flat_map within l) -> In y (flat_map within l)).
  { intros l Ll H. apply in_flat_map in H as (z & Hz & Hxz). apply in_flat_map. exists z. split; [exact Hz|].
    apply (IH x); auto. revert Ll Hz. clear. induction l as [|w l IHl]; intros Ll Hz; [destruct Hz|].
    change (psize w + list_sum (map psize l) <= n) in Ll. destruct Hz as [->|H]; [lia|]. apply IHl; [lia|exact H]. }
  destruct e as [t| |e|l|l|e|e|e|e|a e|q|]; cbn [within psize] in *; destruct Hx as [<-|Hx]; try exact Hy; try contradiction;
    right; try (apply (IH x); [lia|exact Hx|exact Hy]); apply Hl; auto; lia.
Qed.

Lemma parts_within e x : In x (parts_of e) -> (forall q, e <> PRule q) -> In x (within e).
Proof.
  intros H N. destruct e as [t| |e|l|l|e|e|e|e|a e|q|]; cbn [parts_of within] in *; try contradiction;
    try (destruct H as [<-|[]]; right; apply within_self); try (right; apply in_flat_map; exists x; split; [exact H|apply within_self]).
  destruct (N q eq_refl).
Qed.

Lemma grammar_closed e x : In e grammar -> In x (parts_of e) -> In x grammar.
Proof.
  unfold grammar. intros H Hx.
  assert (Q : (exists q, e = PRule q) \/ forall q, e <> PRule q) by (destruct e; try (right; discriminate); left; eauto).
  destruct Q as [(q & ->)|N].
  - cbn [parts_of] in Hx. destruct Hx as [<-|[]]. apply in_or_app. right. apply in_flat_map. exists q.
    split; [destruct q; cbn; tauto|apply within_self].
  - apply (parts_within _ _ Hx) in N. apply in_app_or in H as [H|H]; apply in_or_app.
    + left. exact (within_trans _ e _ x (le_n _) H N).
    + right. apply in_flat_map in H as (q & Hq & H). apply in_flat_map. exists q. split; [exact Hq|].
      exact (within_trans _ e _ x (le_n _) H N).
Qed.

(** Every call is one of an expression of the grammar at an end of the text. *)
Definition placed (s : string) (c : parse_call) : Prop :=
  let '(_, e, s') := c in In e grammar /\ ending s s'.

Lemma placed_later s s' c : ending s s' -> placed s' c -> placed s c.
Proof. destruct c as [[b e] u]. intros E (H & X). split; [exact H|]. now apply (ending_trans _ s'). Qed.

Section Placed.
Variable f : bool -> pexp -> string -> outcome (list tok).
Variable sub : bool -> pexp -> string -> list parse_call.
Hypothesis F : forall act e s r a, f act e s = Match r a -> ending s r.
Hypothesis P : forall act e s, In e grammar -> Forall (placed s) (sub act e s).

Lemma later s s' l : ending s s' -> Forall (placed s') l -> Forall (placed s) l.
Proof. intros E H. eapply Forall_impl; [|exact H]. intros c. now apply placed_later. Qed.

Lemma placed_and act l s : (forall e, In e l -> In e grammar) -> Forall (placed s) (sub_and f sub act l s).
Proof.
  revert s. induction l as [|e l IH]; intros s H; cbn [sub_and]; [constructor|]. apply Forall_app. split; [apply P, H; now left|].
  destruct (f act e s) as [s1 a| |] eqn:E; try constructor. apply (later _ s1); [exact (F _ _ _ _ _ E)|]. apply IH. intros x Hx. apply H. now right.
Qed.
Lemma placed_tries l s : (forall e, In e l -> In e grammar) -> Forall (placed s) (sub_tries f sub l s).
Proof.
  induction l as [|e l IH]; intros H; cbn [sub_tries]; [constructor|]. apply Forall_app. split; [apply P, H; now left|].
  destruct (f false e s); try constructor; apply IH; intros x Hx; apply H; now right.
Qed.
Lemma placed_longest l s b : (forall e, In e (map snd l) -> In e grammar) -> Forall (placed s) (sub_longest f sub l s b).
Proof.
  revert b. induction l as [|(n, e) l IH]; intros b H; cbn [sub_longest]; [constructor|].
  destruct (match b with Some (b, _) => String.length b <=? n | None => false end); [constructor|].
  assert (Hl : forall x, In x (map snd l) -> In x grammar) by (intros x Hx; apply H; now right).
  apply Forall_app. split; [apply P, H; now left|]. destruct (f true e s) as [s1 a| |]; [|now apply IH|constructor].
  destruct (String.length s1 <=? n); [constructor|now apply IH].
Qed.
Lemma tries_from l s m x : tries f l s = Ok m -> In x m -> In (snd x) l.
Proof.
  revert m. induction l as [|e l IH]; intros m E Hx; cbn [tries] in E; [injection E as <-; destruct Hx|].
  destruct (f false e s) as [s1 a| |]; [|right; now apply (IH m)|discriminate].
  destruct (tries f l s) as [m'|]; cbn [bind] in E; [|discriminate]. injection E as <-. destruct Hx as [<-|Hx]; [now left|].
  right. now apply (IH m').
Qed.
Lemma sort_from m x : In x (sort_matches m) -> In x m.
Proof.
  assert (I : forall y l, In x (insert_match y l) -> x = y \/ In x l).
  { intros y l. induction l as [|w l IH]; cbn [insert_match]; [intros [->|[]]; now left|].
    destruct (fst y <=? fst w); intros H; [destruct H as [->|H]; auto|]. destruct H as [->|H]; [right; now left|].
    destruct (IH H) as [->|H']; [now left|right; now right]. }
  induction m as [|y m IH]; [auto|]. unfold sort_matches. cbn [fold_right]. intros H. apply I in H as [->|H]; [now left|]. right. now apply IH.
Qed.
Lemma placed_or act l s : (forall e, In e l -> In e grammar) -> Forall (placed s) (sub_or f sub act l s).
Proof.
  intros H. unfold sub_or. apply Forall_app. split; [now apply placed_tries|]. destruct (tries f l s) as [m|] eqn:E; [|constructor].
  assert (Q : forall e, In e (map snd (sort_matches m)) -> In e grammar).
  { intros e He. apply in_map_iff in He as (x & <- & Hx). apply H. apply sort_from in Hx. exact (tries_from _ _ _ _ E Hx). }
  destruct (sort_matches m) as [|(n, e) q]; [constructor|]. destruct act; [now apply placed_longest|]. apply P, Q. now left.
Qed.
Lemma placed_more n act e s : In e grammar -> Forall (placed s) (sub_more f sub n act e s).
Proof.
  intros H. revert s. induction n as [|n IH]; intros s; cbn [sub_more]; [constructor|]. apply Forall_app. split; [now apply P|].
  destruct (f act e s) as [s1 a| |] eqn:E; try constructor. apply (later _ s1); [exact (F _ _ _ _ _ E)|apply IH].
Qed.
End Placed.

Lemma parses_placed n : forall act e s, In e grammar -> Forall (placed s) (parses n act e s).
Proof.
  induction n as [|n IH]; intros act e s H; cbn [parses]; [constructor|]. constructor; [split; [exact H|apply ending_same]|].
  apply (later s (skip s)); [apply ending_skip|]. pose proof (ending_run n) as F. set (u := skip s). clearbody u. clear s.
  assert (Q : forall x, In x (parts_of e) -> In x grammar) by (intros x; now apply grammar_closed).
  destruct e as [t| |e|l|l|e|e|e|e|a e|q|]; cbn [sub_step parts_of] in *; try constructor;
    try (apply IH, Q; now left); try (now apply placed_and); try (now apply placed_or);
    (apply Forall_app; split; [apply IH, Q; now left|]); destruct (run n act e u) as [s1 b| |] eqn:E; try constructor;
    (apply (later _ s1); [exact (F _ _ _ _ _ E)|]; apply placed_more; auto; apply Q; now left).
Qed.

(** ** C61 *)

(** Full claim: the number of calls of _parse is at most proportional to the length
    of the text.  Proved: the number of different calls is (with and without
    actions, the expressions of the grammar, the places of the text); a parser
    that remembers its answers, as pyparsing does after enablePackrat, would be
    linear.  C61_nested_refuted is about the number of calls. *)
Theorem C61_kinds_partial : forall s, exists kinds : list parse_call,
  List.length kinds = 7200 * S (String.length (expandtabs 0 (of_codes (remove_comments (to_codes s))))) /\
  forall n c, In c (schema_parses n s) -> In c kinds.
Proof.
  intros s. unfold schema_parses. set (u := expandtabs 0 _). clearbody u.
  exists (list_prod (list_prod [true; false] grammar) (endings u)). split.
  - unfold parse_call. rewrite !prod_length, endings_length. assert (G : List.length grammar = 3600) by (vm_compute; reflexivity).
    rewrite G. reflexivity.
  - intros n [[b e] v] H. assert (G : In g_module grammar) by (apply in_or_app; left; apply within_self).
    pose proof (parses_placed n true g_module u G) as A. rewrite Forall_forall in A. destruct (A _ H) as (He & Hv).
    apply in_prod; [apply in_prod; [destruct b; cbn; auto|exact He]|]. now apply endings_all.
Qed.

(** * How often a nested type is read *)

Definition weight (n : nat) (act : bool) (e : pexp) (s : string) : nat := List.length (parses n act e s).
Definition Cost (e : pexp) (s : string) (k : nat) : Prop := forall act, ev (fun n => k <= weight n act e s).

Lemma weight_skip n act e s : weight n act e (skip s) = weight n act e s.
Proof. destruct n as [|n]; [reflexivity|]. unfold weight. cbn [parses List.length]. now rewrite skip_skip. Qed.
Lemma cost_skip e s k : Cost e (skip s) k <-> Cost e s k.
Proof. split; intros C act; (eapply ev_one; [apply (C act)|]); intros n L; cbn beta in *; rewrite weight_skip in *; exact L. Qed.
Lemma cost_zero e s : Cost e s 0.
Proof. intros act. apply ev_all. intros n. lia. Qed.
Lemma cost_one e s : Cost e s 1.
Proof. intros act. exists 1. intros [|n] L; [lia|]. unfold weight. cbn [parses List.length]. lia. Qed.
Lemma cost_less e s j k : j <= k -> Cost e s k -> Cost e s j.
Proof. intros L C act. eapply ev_one; [apply (C act)|]. intros n X. cbn beta in *. lia. Qed.

(** The expressions that call one expression. *)
Definition wraps (e x : pexp) : Prop := x = PSup e \/ x = POpt e \/ x = PGroup e \/ (exists a, x = PAct a e) \/ (exists q, x = PRule q /\ e = body q)
  \/ x = PMany e \/ x = PMore e.
Lemma cost_wrap e x s k : wraps e x -> Cost e s k -> Cost x s k.
Proof.
  intros W C act. apply ev_S. apply cost_skip in C. eapply ev_one; [apply (C act)|]. intros n L. cbn beta in L. unfold weight in *. cbn [parses List.length].
  destruct W as [->|[->|[->|[(a & ->)|[(q & -> & ->)|[->| ->]]]]]]; cbn [sub_step]; try rewrite app_length; lia.
Qed.

Definition AndCost (l : list pexp) (s : string) (k : nat) : Prop :=
  forall act, ev (fun n => k <= List.length (sub_and (run n) (parses n) act l s)).
Lemma andcost_now e l s k : Cost e s k -> AndCost (e :: l) s k.
Proof. intros C act. eapply ev_one; [apply (C act)|]. intros n L. cbn beta in *. cbn [sub_and]. rewrite app_length. unfold weight in L. lia. Qed.
Lemma andcost_later e l s s1 a k : Got e s s1 a -> AndCost l s1 k -> AndCost (e :: l) s k.
Proof.
  intros [G1 (a0 & G0)] C act. assert (G : exists a1, ev (fun n => run n act e s = Match s1 a1)) by (destruct act; eauto).
  destruct G as (a1 & G). eapply ev_two; [exact G|apply (C act)|]. intros n E L. cbn beta in *. cbn [sub_and]. rewrite E, app_length. lia.
Qed.
Lemma cost_and l s k : AndCost l (skip s) k -> Cost (PAnd l) s k.
Proof.
  intros C act. apply ev_S. eapply ev_one; [apply (C act)|]. intros n L. cbn beta in *. unfold weight. cbn [parses List.length sub_step]. lia.
Qed.

(** Alternatives: each is tried, and the one that wins is read once more. *)
Lemma tries_cost strict k s l cs : Forall (Beaten strict k s) l -> Forall2 (fun e c => Cost e s c) l cs ->
  ev (fun n => list_sum cs <= List.length (sub_tries (run n) (parses n) l s)).
Proof.
  intros F. revert cs. induction F as [|e l F1 F IH]; intros cs X; inversion X as [|? c ? cs' X1 X2]; subst.
  - apply ev_all. intros n. apply Nat.le_refl.
  - assert (Q : ev (fun n => forall x, run n false e s <> Raise x)).
    { destruct F1 as [F1|(s' & ts & F1 & _)]; (eapply ev_one; [exact F1|]); intros n E; cbn beta in E; rewrite E; discriminate. }
    eapply ev_two; [exact Q|eapply ev_two; [apply (X1 false)|exact (IH _ X2)|exact (fun n A C => conj A C)]|]. intros n E (L1 & L2). cbn beta in *. cbn [sub_tries].
    rewrite app_length. change (list_sum (c :: cs')) with (c + list_sum cs'). unfold weight in L1.
    destruct (run n false e s) as [s1 a| |x]; [lia|lia|destruct (E x eq_refl)].
Qed.
Lemma cost_or a e b s s' ts cs k : Got e s s' ts ->
  Forall (Beaten true (String.length s') s) a -> Forall (Beaten false (String.length s') s) b ->
  Forall2 (fun e c => Cost e s c) (a ++ e :: b) cs -> Cost e s k -> Cost (POr (a ++ e :: b)) (skip s) (list_sum cs + k).
Proof.
  intros [G (ts0 & G0)] FA FB X XE.
  assert (ev (fun n => exists r, (let* m := tries (run n) (a ++ e :: b) s in Ok (sort_matches m)) = Ok ((String.length s', e) :: r))) as T.
  { eapply ev_two; [exact (tries_beaten _ _ _ _ FA)|eapply ev_two; [exact G0|exact (tries_beaten _ _ _ _ FB)|]|].
    - intros n Q Y. exact (conj Q Y).
    - intros n (m1 & E1 & F1) (Q & m2 & E2 & F2). rewrite tries_app, E1. cbn [bind tries]. rewrite Q, E2. cbn [bind].
      destruct (sort_best m1 (String.length s', e) m2 F1 F2) as [r E]. exists r. now rewrite E. }
  assert (W : Forall (Beaten false 0 s) (a ++ e :: b)).
  { apply Forall_app. split; [|constructor].
    - eapply Forall_impl; [|exact FA]. intros x [Q|(u & v & Q & _)]; [now left|]. right. exists u, v. split; [exact Q|apply Nat.le_0_l].
    - right. exists s', ts0. split; [exact G0|apply Nat.le_0_l].
    - eapply Forall_impl; [|exact FB]. intros x [Q|(u & v & Q & _)]; [now left|]. right. exists u, v. split; [exact Q|apply Nat.le_0_l]. }
  assert (TL : forall n l, tries (run n) l (skip s) = tries (run n) l s).
  { intros n l. induction l as [|x l IH]; [reflexivity|]. cbn [tries]. now rewrite run_skip, IH. }
  assert (SL : forall n l, List.length (sub_tries (run n) (parses n) l (skip s)) = List.length (sub_tries (run n) (parses n) l s)).
  { intros n l. induction l as [|x l IH]; [reflexivity|]. cbn [sub_tries]. rewrite !app_length, run_skip. pose proof (weight_skip n false x s) as Q.
    unfold weight in Q. rewrite Q. now destruct (run n false x s); rewrite ?IH. }
  intros act. apply ev_S. eapply ev_two; [exact T|eapply ev_two; [exact (tries_cost _ _ _ _ _ W X)|apply (XE act)|exact (fun n A C => conj A C)]|].
  intros n (r & E) (L1 & L2). cbn beta in *. unfold weight. cbn [parses List.length sub_step]. rewrite skip_skip. unfold sub_or. rewrite TL, app_length, SL.
  destruct (tries (run n) (a ++ e :: b) s) as [m|]; [|discriminate]. cbn [bind] in E. injection E as ->. rewrite <- weight_skip in L2. unfold weight in L2.
  destruct act; [|lia]. cbn [sub_longest]. rewrite app_length. lia.
Qed.

Lemma cost_none l s cs : Forall (fun e => Fail e s) l -> Forall2 (fun e c => Cost e s c) l cs -> Cost (POr l) (skip s) (list_sum cs).
Proof.
  intros F X act. apply ev_S.
  assert (W : Forall (Beaten false 0 s) l) by (eapply Forall_impl; [|exact F]; intros x Q; now apply beaten_fail).
  assert (SL : forall n, List.length (sub_tries (run n) (parses n) l (skip s)) = List.length (sub_tries (run n) (parses n) l s)).
  { intros n. clear. induction l as [|x l IH]; [reflexivity|]. cbn [sub_tries]. rewrite !app_length, run_skip. pose proof (weight_skip n false x s) as Q.
    unfold weight in Q. rewrite Q. now destruct (run n false x s); rewrite ?IH. }
  eapply ev_one; [exact (tries_cost _ _ _ _ _ W X)|]. intros n L. cbn beta in *. unfold weight. cbn [parses List.length sub_step]. rewrite skip_skip.
  unfold sub_or. rewrite app_length, SL. lia.
Qed.

(** The same on lists of items. *)
Definition Costly (e : pexp) (l : list token) (k : nat) : Prop := forall s r, laid l s r -> Cost e s k.
Definition AndCostly (es : list pexp) (l : list token) (k : nat) : Prop := forall s r, laid l s r -> AndCost es s k.
Lemma costly_zero e l : Costly e l 0.
Proof. intros s r _. apply cost_zero. Qed.
Lemma costly_one e l : Costly e l 1.
Proof. intros s r _. apply cost_one. Qed.
Lemma costly_less e l j k : j <= k -> Costly e l k -> Costly e l j.
Proof. intros L C s r X. exact (cost_less _ _ _ _ L (C s r X)). Qed.
Lemma costly_wrap e x l k : wraps e x -> Costly e l k -> Costly x l k.
Proof. intros W C s r X. exact (cost_wrap _ _ _ _ W (C s r X)). Qed.
Lemma costly_act a e l k : Costly e l k -> Costly (PAct a e) l k.
Proof. apply costly_wrap. unfold wraps. eauto 6. Qed.
Lemma costly_group e l k : Costly e l k -> Costly (PGroup e) l k.
Proof. apply costly_wrap. unfold wraps. auto. Qed.
Lemma costly_rule q l k : Costly (body q) l k -> Costly (PRule q) l k.
Proof. apply costly_wrap. unfold wraps. eauto 8. Qed.
Lemma costly_many e l k : Costly e l k -> Costly (PMany e) l k.
Proof. apply costly_wrap. unfold wraps. auto 8. Qed.
Lemma costly_now e es l k : Costly e l k -> AndCostly (e :: es) l k.
Proof. intros C s r X. exact (andcost_now _ _ _ _ (C s r X)). Qed.
Lemma costly_later e es l l1 b a k : Yes e l l1 b a -> AndCostly es l1 k -> l1 <> [] -> AndCostly (e :: es) l k.
Proof.
  intros (c1 & E1 & Y1) C N s r L. eapply andcost_later; [exact (Y1 s r L)|]. rewrite E1 in L.
  destruct l1 as [|t l1]; [now elim N|]. apply (C _ r). now apply laid_cut.
Qed.
Lemma costly_and es t l k : AndCostly es (t :: l) k -> Costly (PAnd es) (t :: l) k.
Proof. intros C s r X. apply cost_and, (C _ r). now apply laid_skip. Qed.
Lemma costly_or es1 e es2 t l l' b ts cs k : Yes e (t :: l) l' b ts -> Forall (Loses true b (t :: l) l') es1 -> Forall (Loses false b (t :: l) l') es2 ->
  Forall2 (fun e c => Costly e (t :: l) c) (es1 ++ e :: es2) cs -> Costly e (t :: l) k -> Costly (POr (es1 ++ e :: es2)) (t :: l) (list_sum cs + k).
Proof.
  intros (c & E & Y) FA FB X XE s r L. apply cost_skip. eapply cost_or; [exact (Y s r L)|..].
  - eapply Forall_impl; [|exact FA]. intros x Q. exact (Q c E s r L).
  - eapply Forall_impl; [|exact FB]. intros x Q. exact (Q c E s r L).
  - clear - X L. induction X; constructor; auto. eauto.
  - exact (XE s r L).
Qed.

Lemma costly_none es l cs : Forall (fun e => No e l) es -> Forall2 (fun e c => Costly e l c) es cs -> Costly (POr es) l (list_sum cs).
Proof.
  intros F X s r L. apply cost_skip. apply cost_none.
  - eapply Forall_impl; [|exact F]. intros x Q. exact (Q s r L).
  - clear - X L. induction X; constructor; auto. eauto.
Qed.

(** The alternative number [i] wins, the alternatives cost [cs], the winner [k]. *)
Ltac calt i cs k :=
  lazymatch goal with |- Costly ?e ?l _ =>
    let e' := eval hnf in e in
    lazymatch e' with POr ?es =>
      let a := eval cbv [firstn] in (firstn i es) in
      let z := eval cbv [skipn] in (skipn i es) in
      lazymatch z with ?x :: ?y =>
        apply (costly_less _ _ _ (list_sum cs + k)); [cbn [list_sum fold_right]; lia|];
        change (Costly (POr (a ++ x :: y)) l (list_sum cs + k)); eapply costly_or
      end
    end
  end.
Ltac costs := cbn [app]; repeat first [apply Forall2_nil | apply Forall2_cons; [try apply costly_zero|]].

Section Level.
Variables (n : string) (t : asn) (l : list token) (k : nat).
Hypothesis W : value_word n = true.
Hypothesis T : TypeReads t l.
Hypothesis C : forall rest, Costly (PRule RType) (l ++ K "}" :: rest) k.

Lemma end_part rest : part_end (K "}" :: rest).
Proof. apply part_end_in. cbn. tauto. Qed.

Lemma costly_named rest : Costly g_named_type (I n :: l ++ K "}" :: rest) k.
Proof.
  apply costly_and. eapply costly_later; [apply yes_ident|apply costly_now, C|]. destruct l; discriminate.
Qed.
Lemma named rest : Yes g_named_type (I n :: l ++ K "}" :: rest) (K "}" :: rest) Tight [Str n; Grp [Obj (obj t)]].
Proof. exact (yes_named n t l _ T (part_end_type _ (end_part rest))). Qed.

Lemma costly_component rest : Costly g_component (I n :: l ++ K "}" :: rest) (4 * k).
Proof.
  apply costly_act. pose proof (costly_named rest) as CN. pose proof (named rest) as Y.
  calt 0 [k; k; k] k; [exact Y|others| | |exact CN].
  - repeat apply Forall_cons; try apply Forall_nil;
    (apply loses_no, no_and; eapply allno_later; [exact Y| |discriminate]; apply allno_now; gone).
  - costs; [exact CN|apply costly_and, costly_now, CN|apply costly_and, costly_now, CN].
Qed.
Lemma component rest : Yes g_component (I n :: l ++ K "}" :: rest) (K "}" :: rest) Tight [Obj (built (own_ref t) n Mandatory t)].
Proof. pose proof (yes_component n Mandatory t l [] (K "}" :: rest) T sp_mandatory (end_part rest)) as Y. now rewrite app_nil_r in Y. Qed.

Lemma costly_components rest : Costly g_components (I n :: l ++ K "}" :: rest) (8 * k).
Proof.
  pose proof (costly_component rest) as CN. pose proof (component rest) as Y.
  assert (X : Costly (PAnd [g_component; PMany (PAnd [comma; g_component])]) (I n :: l ++ K "}" :: rest) (4 * k)) by (apply costly_and, costly_now, CN).
  calt 0 [4 * k] (4 * k); [|others|others|costs; exact X|exact X].
  apply yes_and. eapply all_cons; [exact Y| |discriminate|dull]. apply all_last. apply yes_many_none. gone.
Qed.
Lemma components rest : exists p, Yes g_components (I n :: l ++ K "}" :: rest) (K "}" :: rest) p [Obj (built (own_ref t) n Mandatory t)].
Proof.
  exists Skipped. alt 0; [|others|others]. apply yes_and. eapply all_eq; [eapply all_cons; [exact (component rest)| |discriminate|dull]|reflexivity].
  apply all_last. apply yes_many_none. gone.
Qed.

Lemma costly_lists rest : Costly g_component_lists (I n :: l ++ K "}" :: rest) (32 * k).
Proof.
  pose proof (costly_components rest) as CN. destruct (components rest) as (p & Y).
  calt 0 [8 * k; 8 * k; 8 * k; 0; 0] (8 * k); [exact Y|others| | |exact CN].
  - others; (apply loses_no, no_and; eapply allno_later; [exact Y| |discriminate]; apply allno_now; gone).
  - costs; [exact CN| |]; apply costly_and, costly_now, CN.
Qed.
Lemma lists rest : exists p, Yes g_component_lists (I n :: l ++ K "}" :: rest) (K "}" :: rest) p [Obj (built (own_ref t) n Mandatory t)].
Proof.
  destruct (components rest) as (p & Y). exists p. alt 0; [exact Y|others|]. others; (apply loses_no, no_and; eapply allno_later; [exact Y| |discriminate]; apply allno_now; gone).
Qed.

(** The items of SEQUENCE { n <type> }. *)
Definition inside : list token := K "SEQUENCE" :: K "{" :: (I n :: l) ++ [K "}"].
Definition outside (rest : list token) : list token := K "SEQUENCE" :: K "{" :: I n :: l ++ K "}" :: rest.
Lemma inside_outside rest : inside ++ rest = outside rest.
Proof. unfold inside, outside. cbn [app]. now rewrite <- app_assoc. Qed.

Lemma braced rest : Yes (PAnd [lit "SEQUENCE"; sup "{"; g_component_lists; sup "}"]) (outside rest) rest Tight
  [Str "SEQUENCE"; Obj (built (own_ref t) n Mandatory t)].
Proof. destruct (lists rest) as (p & Y). exact (yes_braced "SEQUENCE" _ (I n :: l) _ _ _ Y). Qed.
Lemma costly_braced rest : Costly (PAnd [lit "SEQUENCE"; sup "{"; g_component_lists; sup "}"]) (outside rest) (32 * k).
Proof.
  apply costly_and. eapply costly_later; [apply yes_lit| |discriminate]. eapply costly_later; [eapply yes_sup, yes_lit| |discriminate].
  apply costly_now, costly_lists.
Qed.
Lemma costly_sequence rest : Costly g_sequence (outside rest) (64 * k).
Proof.
  apply costly_act. pose proof (costly_braced rest) as CN. calt 1 [0; 32 * k] (32 * k); [exact (braced rest)| |others| |exact CN].
  - others. apply loses_no, no_and. eapply allno_later; [apply yes_lit| |discriminate]. eapply allno_later; [eapply yes_sup, yes_lit| |discriminate].
    apply allno_now. gone.
  - costs. exact CN.
Qed.
Definition own_members : list (string + ptype) := [inr (built (own_ref t) n Mandatory t)].
Lemma sequence rest : Yes g_sequence (outside rest) rest Tight [Obj (set_members own_members (new_obj KSeq "SequenceType"))].
Proof.
  apply (yes_act _ _ _ _ _ (Str "SEQUENCE" :: map to_tok own_members)); [discriminate| |apply members_act; now left]. alt 1; [exact (braced rest)| |others].
  others. apply loses_no, no_and. eapply allno_later; [apply yes_lit| |discriminate]. eapply allno_later; [eapply yes_sup, yes_lit| |discriminate].
  apply allno_now. gone.
Qed.
Lemma costly_builtin rest : Costly g_builtin (outside rest) (128 * k).
Proof.
  pose proof (costly_sequence rest) as CN.
  calt 10 [0; 0; 0; 0; 0; 0; 0; 0; 0; 0; 64 * k; 0; 0] (64 * k); [exact (sequence rest)|others|others| |exact CN].
  costs. exact CN.
Qed.
Lemma builtin rest : Yes g_builtin (outside rest) rest Tight [Obj (set_members own_members (new_obj KSeq "SequenceType"))].
Proof. alt 10; [exact (sequence rest)|others|others]. Qed.

Lemma costly_type rest : after_type rest -> Costly (PRule RType) (outside rest) (384 * k).
Proof.
  intros A. apply costly_rule. pose proof (costly_builtin rest) as CN. pose proof (builtin rest) as Y.
  assert (LR : forall b, Loses b Tight (outside rest) rest (PGroup g_referenced)).
  { intros b. rewrite <- inside_outside. apply (word_less b "SEQUENCE" (K "{") ((I n :: l) ++ [K "}"]) rest); [reflexivity|].
    eexists; eexists; split; reflexivity. }
  assert (none : Forall (fun e => No e (outside rest)) [PAnd [g_builtin; g_nest]; g_sized_list]).
  { apply Forall_cons; [|apply Forall_cons; [apply no_sized_sequence|apply Forall_nil]].
    apply no_and. eapply allno_later; [exact Y| |now apply after_not_nil]. apply allno_now, no_nest. now apply after_paren. }
  calt 0 [128 * k; 0; 128 * k] (128 * k); [apply yes_group, Y|others| | |apply costly_group, CN].
  - apply Forall_cons; [apply LR|]. apply Forall_cons; [|apply Forall_nil].
    apply loses_no, no_group, no_act, no_or, none.
  - costs; [apply costly_group, CN|]. apply costly_group, costly_act.
    apply (costly_less _ _ _ (list_sum [128 * k; 0])); [cbn [list_sum fold_right]; lia|]. apply costly_none; [exact none|].
    costs. apply costly_and, costly_now, CN.
Qed.
End Level.

(** * Nested SEQUENCEs *)

Fixpoint deep (d : nat) : asn :=
  match d with O => ABoolean | S d => ASequence false [Part "a" Mandatory (deep d)] [] [] end.
Fixpoint deep_toks (d : nat) : list token :=
  match d with O => [K "BOOLEAN"] | S d => inside "a" (deep_toks d) end.
Fixpoint deep_text (d : nat) : string :=
  match d with O => "BOOLEAN" | S d => "SEQUENCE { a " ++ deep_text d ++ " }" end%string.

Lemma deep_spelt d : spells_type (deep d) (deep_toks d).
Proof.
  induction d as [|d IH]; [exact sp_boolean|]. cbn [deep deep_toks]. apply sp_sequence, sp_closed, sp_one.
  rewrite <- (app_nil_r (deep_toks d)). apply sp_part; [reflexivity|exact IH|exact sp_mandatory|discriminate].
Qed.
Lemma deep_cost d : forall rest, after_type rest -> Costly (PRule RType) (deep_toks d ++ rest) (384 ^ d).
Proof.
  induction d as [|d IH]; intros rest A; [apply costly_one|]. cbn [deep_toks]. rewrite inside_outside, Nat.pow_succ_r'.
  apply (costly_type "a" (deep d)); [apply types_read, deep_spelt| |exact A]. intros r. apply IH. apply part_end_type, end_part.
Qed.

(** The module with the one type. *)
Definition deep_module (d : nat) : list token :=
  R "M" :: K "DEFINITIONS" :: K "::=" :: K "BEGIN" :: (R "T" :: K "::=" :: deep_toks d) ++ [K "END"].
Lemma deep_assigned d : spells_assignment (TypeA "T" (deep d)) (R "T" :: K "::=" :: deep_toks d).
Proof. apply sp_type; [reflexivity|apply deep_spelt|]. destruct d; discriminate. Qed.
Lemma deep_assigned' d : spells_assignments [TypeA "T" (deep d)] (R "T" :: K "::=" :: deep_toks d).
Proof. rewrite <- (app_nil_r (R "T" :: _)). apply sp_assignment; [apply deep_assigned|apply sp_nothing]. Qed.
Lemma deep_module_spelt d : spells [TypeA "T" (deep d)] (deep_module d).
Proof. exact (sp_module false "M" _ _ eq_refl (deep_assigned' d)). Qed.

Lemma after_end : after_assignment [K "END"].
Proof. eexists; eexists; split; [reflexivity|now left]. Qed.
Lemma deep_toks_some d l : deep_toks d ++ l <> [].
Proof. destruct d; discriminate. Qed.

Lemma module_cost d : Costly g_module (deep_module d) (4 * 384 ^ d).
Proof.
  unfold deep_module. cbn [app]. set (k := 384 ^ d). set (toks := R "T" :: K "::=" :: deep_toks d ++ [K "END"]).
  pose proof (yes_assignment _ _ _ (deep_assigned d) after_end) as YA.
  assert (C1 : Costly g_type_assignment toks k).
  { apply costly_act, costly_and. eapply costly_later; [apply yes_type| |discriminate]. eapply costly_later; [apply yes_lit| |apply deep_toks_some].
    apply costly_now, deep_cost, assignment_type, after_end. }
  assert (Y1 : Yes g_type_assignment toks [K "END"] Tight [Obj (parsed_as (TypeA "T" (deep d)))]).
  { destruct (types_read _ _ (deep_spelt d)) as (_ & Y). specialize (Y _ (assignment_type _ after_end)).
    apply (yes_act _ _ _ _ _ [Str "T"; Str "::="; Grp [Obj (obj (deep d))]]); [discriminate| |].
    - apply yes_and. eapply all_eq; [eapply all_cons; [apply yes_type|eapply all_cons; [apply yes_lit|apply all_last, Y|apply deep_toks_some|dull]|discriminate|dull]|reflexivity].
    - cbn [act_on first_obj bind]. rewrite type_object; [reflexivity|]. destruct d; discriminate. }
  assert (C2 : Costly g_assignment toks (2 * k)).
  { calt 0 [k; 0] k; [exact Y1|others|others|costs; exact C1|exact C1]. }
  assert (C3 : Costly (PAnd [POr [PEmpty]; POr [PEmpty]; g_assignments]) toks (2 * k)).
  { apply costly_and. eapply costly_later; [apply yes_nothing| |discriminate]. eapply costly_later; [apply yes_nothing| |discriminate].
    apply costly_now, costly_many, C2. }
  assert (Y3 : Yes (PAnd [POr [PEmpty]; POr [PEmpty]; g_assignments]) toks [K "END"] Tight [Obj (parsed_as (TypeA "T" (deep d)))]).
  { pose proof (yes_assignments _ _ (deep_assigned' d)) as Y. apply yes_and.
    eapply all_eq; [eapply all_cons; [apply yes_nothing|eapply all_cons; [apply yes_nothing|apply all_last, Y; discriminate|discriminate|]|discriminate|]|reflexivity];
      intros _ _ E; apply (f_equal (@List.length token)) in E; unfold toks in E; cbn [app List.length] in E; rewrite app_length in E; cbn [List.length] in E; lia. }
  assert (C4 : Costly g_body toks (4 * k)).
  { calt 0 [2 * k; 0] (2 * k); [exact Y3|others| |costs; exact C3|exact C3].
    apply Forall_cons; [|apply Forall_nil]. exact (loses_less _ _ _ _ _ (K "::=" :: deep_toks d) [K "END"] _ _ (yes_empty _)). }
  apply costly_act, costly_and. eapply costly_later; [apply yes_and, all_last, yes_type| |discriminate].
  eapply costly_later; [apply yes_lit| |discriminate]. eapply costly_later; [apply yes_nothing| |discriminate].
  eapply (costly_later _ _ _ _ Skipped []); [alt 1; [apply yes_empty|others|others]| |discriminate].
  eapply costly_later; [apply yes_nothing| |discriminate]. eapply costly_later; [apply yes_lit| |discriminate].
  eapply costly_later; [apply yes_lit| |discriminate]. apply costly_now, costly_group, C4.
Qed.

(** The text. *)
Definition deep_schema (d : nat) : string := ("M DEFINITIONS ::= BEGIN T ::= " ++ deep_text d ++ " END")%string.

Lemma laid_one g t l s r u : u = (g ++ t_text t ++ s)%string -> blank g -> proper t = true -> apart t s -> laid l s r -> laid (t :: l) u r.
Proof. intros ->. apply laid_cons. Qed.
Ltac item g := eapply (laid_one g); [reflexivity|reflexivity|reflexivity|intros _; reflexivity|].
Lemma deep_laid d : forall l s r, starts is_word s = false -> laid l s r -> laid (deep_toks d ++ l) (" " ++ deep_text d ++ s) r.
Proof.
  induction d as [|d IH]; intros l s r N L.
  - cbn [deep_toks deep_text app]. eapply (laid_one " "); [reflexivity|reflexivity|reflexivity|intros _; exact N|exact L].
  - cbn [deep_toks deep_text]. rewrite inside_outside. unfold outside. rewrite !app_assoc_s. item " ". item " ". item " ".
    apply IH; [reflexivity|]. eapply (laid_one " "); [reflexivity|reflexivity|reflexivity|discriminate|exact L].
Qed.
Lemma deep_schema_laid d : laid (deep_module d) (deep_schema d) "".
Proof.
  unfold deep_module, deep_schema. item "". item " ". item " ". item " ". cbn [app]. item " ". item " ".
  apply deep_laid; [reflexivity|]. item " ". apply laid_nil. reflexivity.
Qed.

(** There are no comments in it. *)
Fixpoint plain_text (s : string) : bool :=
  match s with
  | String c r => negb (Ascii.eqb c "-") && (negb (is_break (code c)) || line_end c) && plain_text r
  | EmptyString => true
  end.
Lemma plain_app a b : plain_text (a ++ b) = plain_text a && plain_text b.
Proof. induction a as [|c a IH]; [reflexivity|]. cbn [append plain_text]. now rewrite IH, !andb_assoc. Qed.
Lemma plain_strip s : plain_text s = true -> strip s s /\ plain_lines s.
Proof.
  unfold plain_lines. induction s as [|c s IH]; intros P; [split; [constructor|reflexivity]|]. cbn [plain_text] in P.
  apply andb_prop in P as [P P3]. apply andb_prop in P as [P1 P2]. destruct (IH P3) as (A & L). split.
  - constructor; [|exact A]. destruct (Ascii.eqb_spec c "-") as [E|N]; [discriminate|]. cbn [hyphens].
    clear - N. destruct c as [[] [] [] [] [] [] [] []]; try reflexivity. now elim N.
  - cbn [all_chars]. now rewrite P2, L.
Qed.
Lemma deep_plain d : plain_text (deep_schema d) = true.
Proof.
  assert (T : plain_text (deep_text d) = true).
  { induction d as [|d IH]; [reflexivity|]. cbn [deep_text]. rewrite !plain_app, IH. reflexivity. }
  unfold deep_schema. rewrite !plain_app, T. reflexivity.
Qed.
Lemma deep_length d : String.length (deep_schema d) = 41 + 15 * d.
Proof.
  unfold deep_schema. rewrite !length_app_s.
  assert (T : String.length (deep_text d) = 7 + 15 * d).
  { induction d as [|d IH]; [reflexivity|]. cbn [deep_text]. rewrite !length_app_s, IH. cbn [String.length]. lia. }
  rewrite T. cbn [String.length]. lia.
Qed.

(** The number of calls is not proportional to the length of the text: the module

      M DEFINITIONS ::= BEGIN T ::= SEQUENCE { a SEQUENCE { a ... BOOLEAN ... } } END

    with d SEQUENCEs has 41 + 15 d characters, it is read correctly, and reading it
    takes at least 4 * 384^d calls: at depth 4 more than 8 * 10^10. *)
Theorem C61_nested_refuted : exists schema : nat -> string,
  (forall d, String.length (schema d) = 41 + 15 * d) /\
  (forall d, exists r n0, forall n, n0 <= n -> read_schema n (schema d) = Match r [parsed_as (TypeA "T" (deep d))]) /\
  forall d, exists n0, forall n, n0 <= n -> 4 * 384 ^ d <= List.length (schema_parses n (schema d)).
Proof.
  exists deep_schema. split; [exact deep_length|]. split; intros d; destruct (plain_strip _ (deep_plain d)) as (A & P).
  - apply (C50_comments_partial [TypeA "T" (deep d)] _ _ "" A P). exists (deep_module d). split; [apply deep_module_spelt|apply deep_schema_laid].
  - destruct (reblank_laid _ _ _ _ (deep_schema_laid d) (cleaned_all _ _ A P)) as (r1 & L1).
    destruct (reblank_laid _ _ _ _ L1 (reblank_tabs _ 0)) as (r2 & L2). exact (module_cost d _ _ L2 true).
Qed.

(** No polynomial bounds it. *)
Theorem C61_polynomial_refuted : forall c p, exists s n,
  c * String.length s ^ p < List.length (schema_parses n s).
Proof.
  intros c p. set (e := 41 + c + S p). set (d := S p * e). destruct C61_nested_refuted as (f & L & _ & W). destruct (W d) as (n0 & F).
  exists (f d), n0. specialize (F n0 (le_n _)). rewrite L. eapply Nat.lt_le_trans; [|exact F]. clear F W L f n0.
  assert (E2 : forall x, x < 2 ^ x) by (intros x; apply Nat.pow_gt_lin_r; lia).
  assert (B1 : 41 + 15 * d <= 2 ^ (3 * e)).
  { assert (41 + 15 * d <= 16 * (e * e)) by (unfold d; subst e; nia).
    assert (Q : e * e <= 2 ^ e * 2 ^ e) by (apply Nat.mul_le_mono; apply Nat.lt_le_incl, E2).
    assert (R4 : 16 <= 2 ^ e) by (change 16 with (2 ^ 4); apply Nat.pow_le_mono_r; subst e; lia).
    replace (3 * e) with (e + (e + e)) by lia. rewrite !Nat.pow_add_r. eapply Nat.le_trans; [eassumption|]. apply Nat.mul_le_mono; assumption. }
  assert (B2 : (41 + 15 * d) ^ p <= 2 ^ (3 * e * p)) by (rewrite Nat.pow_mul_r; now apply Nat.pow_le_mono_l).
  assert (B3 : c <= 2 ^ e) by (eapply Nat.le_trans; [|apply Nat.lt_le_incl, E2]; subst e; lia).
  assert (B4 : c * (41 + 15 * d) ^ p <= 2 ^ (e + 3 * e * p)) by (rewrite Nat.pow_add_r; now apply Nat.mul_le_mono).
  assert (B5 : 2 ^ (e + 3 * e * p) <= 384 ^ d).
  { assert (384 ^ d >= (2 ^ 3) ^ d) as B6 by (apply Nat.pow_le_mono_l; cbn; lia). rewrite <- Nat.pow_mul_r in B6.
    eapply Nat.le_trans; [|exact B6]. apply Nat.pow_le_mono_r; [lia|]. unfold d. nia. }
  assert (0 < 384 ^ d) by (apply Nat.neq_0_lt_0, Nat.pow_nonzero; discriminate). lia.
Qed.

(** Reading one BOOLEAN takes 953 calls; four levels above it, more than 8 * 10^10. *)
Example C61_case :
  (Z.of_nat (List.length (schema_parses 100 "M DEFINITIONS ::= BEGIN T ::= BOOLEAN END")) = 953)%Z /\
  exists n, (86973087744 <= Z.of_nat (List.length (schema_parses n "M DEFINITIONS ::= BEGIN T ::= SEQUENCE { a SEQUENCE { a SEQUENCE { a SEQUENCE { a BOOLEAN } } } } END")))%Z.
Proof.
  split; [vm_compute; reflexivity|]. destruct (plain_strip _ (deep_plain 4)) as (A & P).
  destruct (reblank_laid _ _ _ _ (deep_schema_laid 4) (cleaned_all _ _ A P)) as (r1 & L1).
  destruct (reblank_laid _ _ _ _ L1 (reblank_tabs _ 0)) as (r2 & L2). destruct (module_cost 4 _ _ L2 true) as (n0 & F).
  exists n0. specialize (F n0 (le_n _)). apply inj_le in F. rewrite Nat2Z.inj_mul, Nat2Z.inj_pow in F.
  change (Z.of_nat 4 * Z.of_nat 384 ^ Z.of_nat 4)%Z with 86973087744%Z in F. exact F.
Qed.
