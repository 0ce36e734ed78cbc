(** The parser of Grammar.v answers on every text. *)

From Coq Require Import ZArith List String Ascii Bool Arith Lia.
Import ListNotations.
From Verif Require Import PyBase Generator Emit Exec Meaning Grammar Texts Tokens Fast ReadTexts.

Open Scope string_scope.
Open Scope list_scope.
Open Scope nat_scope.

(** * More fuel, same answer *)

Definition ext {A} (o o' : outcome A) : Prop := o = Raise LoopFuel \/ o' = o.
Lemma ext_same : forall A (o : outcome A), ext o o.
Proof. now right. Qed.
Local Hint Resolve ext_same : core.

Section More.
Variables f g : bool -> pexp -> string -> outcome (list tok).
Hypothesis better : forall act e s, ext (f act e s) (g act e s).

Ltac use := match goal with |- context [f ?act ?e ?s] =>
  destruct (better act e s) as [->| ->]; [now left|destruct (f act e s) as [?r ?a| |?x]; auto] end.

Lemma ext_and : forall act l s, ext (run_and f act l s) (run_and g act l s).
Proof.
  intros act l. induction l as [|e l IH]; intros s; [now right|]. cbn [run_and]. use. destruct (IH r) as [->| ->]; [now left|now right].
Qed.
Lemma ext_more : forall n m act e s a, n <= m -> ext (more f n act e s a) (more g m act e s a).
Proof.
  induction n as [|n IH]; intros [|m] act e s a L; try (now left). cbn [more]. use. apply IH. lia.
Qed.
Lemma ext_tries : forall l s, tries f l s = Err LoopFuel \/ tries g l s = tries f l s.
Proof.
  induction l as [|e l IH]; intros s; [now right|]. cbn [tries]. use.
  destruct (IH s) as [->| ->]; [now left|now right].
Qed.
Lemma ext_longest : forall l s b, ext (longest f l s b) (longest g l s b).
Proof.
  induction l as [|[n e] l IH]; intros s b; [now right|]. cbn [longest].
  destruct (match b with Some (b0, _) => String.length b0 <=? n | None => false end); [now right|]. use.
  destruct (String.length r <=? n); auto.
Qed.
Lemma ext_or : forall act l s, ext (run_or f act l s) (run_or g act l s).
Proof.
  intros act l s. unfold run_or. destruct (ext_tries l s) as [->| ->]; [now left|]. destruct (tries f l s) as [m|]; auto.
  destruct (sort_matches m) as [|[n e] r]; auto. destruct act; [apply ext_longest|apply better].
Qed.
Lemma ext_constraint : forall l, ext (constraint_of (f true g_constraint) l) (constraint_of (g true g_constraint) l).
Proof.
  intros [|t l]; [now right|]. unfold constraint_of. destruct (is_str "SIZE" t); auto. destruct (join_words (t :: l)) as [w|]; auto. use.
Qed.
Lemma ext_nested : forall n m act s, n <= m -> ext (nested (f true g_constraint) n act s) (nested (g true g_constraint) m act s).
Proof.
  induction n as [|n IH]; intros [|m] act s L; try (now left). cbn [nested]. assert (n <= m) as L' by lia.
  destruct (skip s) as [|c r]; auto. destruct (Ascii.eqb c ")"%char); auto. destruct (Ascii.eqb c "("%char).
  - destruct (IH m act r L') as [->| ->]; [now left|]. destruct (nested (f true g_constraint) n act r) as [r1 q| |]; auto.
    destruct act.
    + destruct (ext_constraint q) as [->| ->]; [now left|]. destruct (constraint_of (f true g_constraint) q) as [r2 t| |]; auto.
      destruct (IH m true r1 L') as [->| ->]; [now left|]. auto.
    + destruct (IH m false r1 L') as [->| ->]; [now left|]. auto.
  - destruct (is_quote c); auto. destruct (span in_nest (String c r)) as [w r1]. destruct (IH m act r1 L') as [->| ->]; [now left|]. auto.
Qed.
Lemma ext_step : forall n m act e s, n <= m -> ext (step f (run_or f) n act e s) (step g (run_or g) m act e s).
Proof.
  intros n m act e s L. destruct e as [t| |e|l|l|e|e|e|e|a e|r|]; cbn [step]; auto.
  - use.
  - apply ext_and.
  - apply ext_or.
  - use. now apply ext_more.
  - use. now apply ext_more.
  - use.
  - use.
  - destruct a; try use. destruct act; auto. destruct a as [|[| |q|] [|]]; auto. destruct (ext_constraint q) as [->| ->]; [now left|]. auto.
  - destruct s as [|c r]; auto. destruct (Ascii.eqb c "("%char); auto. destruct (ext_nested n m act r L) as [->| ->]; [now left|]. auto.
Qed.
End More.

Lemma run_ext : forall n m act e s, n <= m -> ext (run n act e s) (run m act e s).
Proof.
  induction n as [|n IH]; intros [|m] act e s L; try (now left). cbn [run]. apply ext_step; [|lia]. intros. apply IH. lia.
Qed.

(** An answer other than "out of fuel" is the answer for all larger bounds. *)
Theorem module_settled : forall n m s, n <= m -> parse_module n s <> Raise LoopFuel -> parse_module m s = parse_module n s.
Proof.
  intros n m s L N. unfold parse_module in *. destruct (run_ext n m true g_module (expandtabs 0 s) L) as [E|E]; [|now rewrite E].
  rewrite E in N. now elim N.
Qed.
Theorem schema_settled : forall n m s, n <= m -> read_schema n s <> Raise LoopFuel -> read_schema m s = read_schema n s.
Proof. intros n m s. apply module_settled. Qed.

(** * What a match leaves *)

(** [eats e]: a match of [e] takes at least one character. *)
Fixpoint eats (e : pexp) : bool :=
  match e with
  | PTerm (ULit "") => false
  | PTerm _ | PRule _ | PNest => true
  | PEmpty | PMany _ | POpt _ => false
  | PSup e | PMore e | PGroup e | PAct _ e => eats e
  | PAnd l => existsb eats l
  | POr l => forallb eats l
  end.
Lemma bodies_eat : forall r, eats (body r) = true.
Proof. intros []; reflexivity. Qed.

Section Pexp.
Variable P : pexp -> Prop.
Hypotheses (PT : forall t, P (PTerm t)) (PE : P PEmpty) (PS : forall e, P e -> P (PSup e))
  (PA : forall l, Forall P l -> P (PAnd l)) (PO : forall l, Forall P l -> P (POr l))
  (PM : forall e, P e -> P (PMany e)) (PM' : forall e, P e -> P (PMore e)) (PO' : forall e, P e -> P (POpt e))
  (PG : forall e, P e -> P (PGroup e)) (PX : forall a e, P e -> P (PAct a e)) (PR : forall r, P (PRule r)) (PN : P PNest).
Fixpoint pexp_rect' (e : pexp) : P e :=
  let list := fix list (l : list pexp) : Forall P l :=
    match l with [] => Forall_nil P | x :: r => Forall_cons x (pexp_rect' x) (list r) end in
  match e with
  | PTerm t => PT t | PEmpty => PE | PSup e => PS e (pexp_rect' e) | PAnd l => PA l (list l) | POr l => PO l (list l)
  | PMany e => PM e (pexp_rect' e) | PMore e => PM' e (pexp_rect' e) | POpt e => PO' e (pexp_rect' e)
  | PGroup e => PG e (pexp_rect' e) | PAct a e => PX a e (pexp_rect' e) | PRule r => PR r | PNest => PN
  end.
End Pexp.

Notation len := String.length.
Lemma span_len : forall f s a b, span f s = (a, b) -> len b <= len s.
Proof.
  intros f. induction s as [|c s IH]; intros a b E; cbn [span] in E; [injection E as <- <-; lia|].
  destruct (f c); [|injection E as <- <-; lia]. destruct (span f s) as [x y] eqn:X. injection E as <- <-. specialize (IH _ _ eq_refl). cbn [len]. lia.
Qed.
Lemma prefixed_len : forall p s r, prefixed p s = Some r -> len s = len p + len r.
Proof. intros p s r E. apply prefixed_inv in E as ->. apply length_app_s. Qed.
Lemma word_len : forall f g s m r, word f g s = Some (m, r) -> len r < len s.
Proof.
  intros f g [|c s] m r E; [discriminate|]. cbn [word] in E. destruct (f c); [|discriminate]. destruct (span g s) as [a b] eqn:X. injection E as <- <-.
  apply span_len in X. cbn [len]. lia.
Qed.
Lemma quoted_len : forall q f cl s m r, quoted q f cl s = Some (m, r) -> len r < len s.
Proof.
  intros q f cl [|c s] m r E; [discriminate|]. cbn [quoted] in E. destruct (Ascii.eqb c q); [|discriminate]. destruct (span f s) as [a b] eqn:X.
  destruct (prefixed (String q cl) b) as [r'|] eqn:Y; [|discriminate]. injection E as <- <-. apply span_len in X. apply prefixed_len in Y. cbn [len] in *. lia.
Qed.
Lemma term_len : forall t s m r, term t s = Some (m, r) -> len r <= len s /\ (eats (PTerm t) = true -> len r < len s).
Proof.
  intros t s m r E. assert (len r < len s -> len r <= len s /\ (eats (PTerm t) = true -> len r < len s)) as W by lia.
  destruct t as [l| | | | | | | |]; cbn [term] in E; try (apply W; eauto using word_len, quoted_len; fail).
  - destruct (prefixed l s) as [x|] eqn:X; [|discriminate]. injection E as <- <-. apply prefixed_len in X. split; [lia|]. intros EA.
    destruct l as [|c l]; [discriminate|]. cbn [len] in X. lia.
  - apply W. unfold real in E. destruct (word is_digit is_digit s) as [[a [|c b]]|] eqn:X; try discriminate.
    destruct (Ascii.eqb c "."%char); [|discriminate]. destruct (word is_digit is_digit b) as [[x y]|] eqn:Y; [|discriminate]. injection E as <- <-.
    apply word_len in X, Y. cbn [len] in *. lia.
Qed.

Section Leaves.
Variable f : bool -> pexp -> string -> outcome (list tok).
Hypothesis shorter : forall act e s r a, f act e s = Match r a -> len r <= len s /\ (eats e = true -> len r < len s).

Lemma and_len : forall act l s r a, run_and f act l s = Match r a -> len r <= len s /\ (existsb eats l = true -> len r < len s).
Proof.
  intros act l. induction l as [|e l IH]; intros s r a E; cbn [run_and existsb] in *; [injection E as <- <-; split; [lia|discriminate]|].
  destruct (f act e s) as [s1 b| |] eqn:X; try discriminate. destruct (run_and f act l s1) as [s2 b2| |] eqn:Y; try discriminate. injection E as <- <-.
  apply shorter in X as [X1 X2]. apply IH in Y as [Y1 Y2]. split; [lia|]. intros EA. apply orb_prop in EA as [EA|EA]; [specialize (X2 EA)|specialize (Y2 EA)]; lia.
Qed.
Lemma more_len : forall n act e s a r b, more f n act e s a = Match r b -> len r <= len s.
Proof.
  induction n as [|n IH]; intros act e s a r b E; cbn [more] in E; [discriminate|]. destruct (f act e s) as [s1 b1| |] eqn:X; try discriminate.
  - apply shorter in X as [X _]. apply IH in E. lia.
  - injection E as <- <-. lia.
Qed.
Lemma tries_in : forall l s m, tries f l s = Ok m -> forall n e, In (n, e) m -> In e l.
Proof.
  induction l as [|x l IH]; intros s m E n e IN; cbn [tries] in E; [injection E as <-; contradiction|].
  destruct (f false x s) as [s1 a| |]; [|right; eapply IH; eauto|discriminate].
  destruct (tries f l s) as [m'|] eqn:X; cbn [bind] in E; [|discriminate]. injection E as <-. destruct IN as [E|IN]; [injection E as <- <-; now left|].
  right. eapply IH; eauto.
Qed.
Lemma insert_in : forall x l y, In y (insert_match x l) -> y = x \/ In y l.
Proof.
  intros x l y. induction l as [|z l IH]; cbn [insert_match]; [intros [E|[]]; now left|]. destruct (fst x <=? fst z); [intros [E|IN]; [now left|now right]|].
  intros [E|IN]; [right; now left|]. destruct (IH IN); auto. right. now right.
Qed.
Lemma sort_in : forall l y, In y (sort_matches l) -> In y l.
Proof.
  intros l y. induction l as [|x l IH]; [auto|]. unfold sort_matches in *. cbn [fold_right]. intros IN. apply insert_in in IN as [->|IN]; [now left|right; auto].
Qed.
Lemma longest_len : forall (b : bool) l s best r a, (forall n e, In (n, e) l -> b = true -> eats e = true) ->
  (forall x y, best = Some (x, y) -> len x <= len s /\ (b = true -> len x < len s)) ->
  longest f l s best = Match r a -> len r <= len s /\ (b = true -> len r < len s).
Proof.
  intros b l. induction l as [|[n e] l IH]; intros s best r a EA BS E; cbn [longest] in E.
  - destruct best as [[x y]|]; [|discriminate]. injection E as <- <-. eauto.
  - destruct (match best with Some (b0, _) => len b0 <=? n | None => false end).
    { destruct best as [[x y]|]; [|discriminate]. injection E as <- <-. eauto. }
    destruct (f true e s) as [s1 q| |] eqn:X; [| |discriminate].
    + apply shorter in X as [X1 X2]. assert (b = true -> len s1 < len s) as X3 by (intros B'; apply X2; apply (EA n); [now left|exact B']).
      destruct (len s1 <=? n); [injection E as <- <-; auto|]. revert E. apply IH; [intros n' e' IN; apply (EA n'); now right|].
      intros x y BE. destruct best as [[b0 y0]|]; [destruct (len s1 <? len b0)|]; injection BE as <- <-; eauto.
    + revert E. apply IH; auto. intros n' e' IN. apply (EA n'). now right.
Qed.
Lemma or_len : forall act l s r a, run_or f act l s = Match r a -> len r <= len s /\ (forallb eats l = true -> len r < len s).
Proof.
  intros act l s r a E. unfold run_or in E. destruct (tries f l s) as [m|] eqn:T; [|discriminate].
  assert (forall n e, In (n, e) (sort_matches m) -> forallb eats l = true -> eats e = true) as EA.
  { intros n e IN A. rewrite forallb_forall in A. apply A. eapply tries_in; [exact T|]. apply sort_in. exact IN. }
  destruct (sort_matches m) as [|[n e] k]; [discriminate|]. destruct act.
  - revert E. apply longest_len; [exact EA|discriminate].
  - apply shorter in E as [X1 X2]. split; [exact X1|]. intros A. apply X2, (EA n); [now left|exact A].
Qed.
Lemma nested_len : forall p n act s r a, nested p n act s = Match r a -> len r < len s.
Proof.
  intros p. induction n as [|n IH]; intros act s r a E; cbn [nested] in E; [discriminate|]. pose proof (skip_length s) as SL. destruct (skip s) as [|c t]; [discriminate|].
  cbn [len] in SL. destruct (Ascii.eqb c ")"%char); [injection E as <- <-; lia|]. destruct (Ascii.eqb c "("%char).
  - destruct (nested p n act t) as [r1 q| |] eqn:X; try discriminate. apply IH in X.
    destruct (if act then constraint_of p q else Match "" (Grp q)); try discriminate. destruct (nested p n act r1) as [r2 q2| |] eqn:Y; try discriminate.
    apply IH in Y. injection E as <- <-. lia.
  - destruct (is_quote c); [discriminate|]. destruct (span in_nest (String c t)) as [w r1] eqn:SP. apply span_len in SP. cbn [len] in SP.
    destruct (nested p n act r1) as [r2 q2| |] eqn:Y; try discriminate. apply IH in Y. injection E as <- <-. lia.
Qed.
Lemma step_len : forall n act e s r a, step f (run_or f) n act e s = Match r a -> len r <= len s /\ (eats e = true -> len r < len s).
Proof.
  intros n act e s r a E. destruct e as [t| |e|l|l|e|e|e|e|ac e|ru|]; cbn [step] in E.
  - destruct (term t s) as [[m x]|] eqn:X; [|discriminate]. injection E as <- <-. now apply term_len in X.
  - injection E as <- <-. split; [lia|discriminate].
  - destruct (f act e s) as [s1 b| |] eqn:X; try discriminate. injection E as <- <-. now apply shorter in X.
  - now apply and_len in E.
  - now apply or_len in E.
  - destruct (f act e s) as [s1 b| |] eqn:X; try discriminate.
    + apply shorter in X as [X _]. apply more_len in E. split; [lia|discriminate].
    + injection E as <- <-. split; [lia|discriminate].
  - destruct (f act e s) as [s1 b| |] eqn:X; try discriminate. apply shorter in X as [X1 X2]. apply more_len in E. cbn [eats]. split; [lia|]. intros EA. specialize (X2 EA). lia.
  - destruct (f act e s) as [s1 b| |] eqn:X; try discriminate.
    + injection E as <- <-. apply shorter in X as [X _]. split; [lia|discriminate].
    + injection E as <- <-. split; [lia|discriminate].
  - destruct (f act e s) as [s1 b| |] eqn:X; try discriminate. injection E as <- <-. now apply shorter in X.
  - assert (exists q, f act e s = Match r q) as (q & X).
    { destruct ac; destruct (f act e s) as [s1 b| |]; try discriminate; destruct act; try (injection E as <- <-; eauto; fail);
        try (match type of E with context [act_on ?ac ?x] => destruct (act_on ac x) end; try discriminate; injection E as <- <-; eauto; fail).
      destruct b as [|[| |q|] [|]]; try discriminate. destruct (constraint_of (f true g_constraint) q); try discriminate. injection E as <- <-. eauto. }
    apply shorter in X. exact X.
  - apply shorter in E as [E1 E2]. split; [exact E1|]. intros _. apply E2, bodies_eat.
  - destruct s as [|c t]; [discriminate|]. destruct (Ascii.eqb c "("%char); [|discriminate].
    destruct (nested (f true g_constraint) n act t) as [r' q| |] eqn:X; try discriminate. injection E as <- <-. apply nested_len in X. cbn [len]. lia.
Qed.
End Leaves.

Lemma run_len : forall n act e s r a, run n act e s = Match r a -> len r <= len s /\ (eats e = true -> len r < len s).
Proof.
  induction n as [|n IH]; intros act e s r a E; cbn [run] in E; [discriminate|]. apply (step_len _ IH) in E as [E1 E2]. pose proof (skip_length s).
  split; [lia|]. intros EA. specialize (E2 EA). lia.
Qed.

(** * Every expression of the grammar answers *)

Definition Ans {A} (F : nat -> A) (bad : A) : Prop := exists o, o <> bad /\ ev (fun n => F n = o).
Definition settles (act : bool) (e : pexp) (s : string) : Prop := Ans (fun n => run n act e s) (Raise LoopFuel).
Notation fuel := (Raise LoopFuel).

Lemma ans_is : forall A (F : nat -> A) o bad, o <> bad -> (forall n, F n = o) -> Ans F bad.
Proof. intros A F o bad N E. exists o. split; [exact N|]. now apply ev_all. Qed.

(** No action runs out of fuel. *)
Lemma bind_fuel : forall A B (x : res A) (k : A -> res B), x <> Err LoopFuel -> (forall a, k a <> Err LoopFuel) -> (let* a := x in k a) <> Err LoopFuel.
Proof. intros A B' [a|e] k X K'; cbn [bind]; [apply K'|congruence]. Qed.
Lemma first_fuel : forall t, first_obj t <> Err LoopFuel.
Proof. intros [s|p|[|[s|p|l|c] r]|c]; discriminate. Qed.
Lemma member_fuel : forall l, member_list l <> Err LoopFuel.
Proof. induction l as [|[s|p|q|c] l IH]; cbn [member_list]; try discriminate; apply bind_fuel; auto; discriminate. Qed.
Lemma enum_fuel : forall l, enum_items l <> Err LoopFuel.
Proof.
  induction l as [|[s|p|q|c] l IH]; cbn [enum_items]; try discriminate; [apply bind_fuel; auto; discriminate|].
  destruct q as [|[s|p|q|c] [|[s2|p2|q2|c2] [|t r]]]; try discriminate. apply bind_fuel; auto; discriminate.
Qed.
Lemma pairs_fuel : forall n l, List.length l <= n -> pairs l <> Err LoopFuel.
Proof.
  induction n as [|n IH]; intros l L; [destruct l; [discriminate|cbn in L; lia]|]. destruct l as [|[s|p|q|c] [|t r]]; cbn [pairs]; try discriminate.
  apply bind_fuel; [apply first_fuel|]. intros p. apply bind_fuel; [|discriminate]. apply IH. cbn [List.length] in L. lia.
Qed.
Lemma seqof_fuel : forall t, seqof_obj t <> Err LoopFuel.
Proof. intros [[|c s]|p|[|[s|p|l|c] r]|c]; discriminate. Qed.
Lemma act_fuel : forall a l, act_on a l <> Err LoopFuel.
Proof.
  intros [] l; cbn [act_on]; try discriminate.
  - destruct l as [|[s|p|q|c] [|[s2|p2|q2|c2] [|t r]]]; discriminate.
  - destruct l as [|[s|p|q|c] r]; discriminate.
  - apply bind_fuel; [apply enum_fuel|discriminate].
  - destruct l as [|[s|p|q|c] [|t r]]; try discriminate. apply bind_fuel; [apply first_fuel|]. intros p. cbv zeta. destruct r as [|[m|p2|q2|c2] r]; try discriminate.
    destruct (m =? "OPTIONAL")%string; [discriminate|]. destruct (m =? "DEFAULT")%string; [|discriminate]. destruct r as [|[d|p2|q2|c2] r]; discriminate.
  - apply bind_fuel; [apply member_fuel|discriminate].
  - destruct l as [|x [|t r]]; try discriminate. unfold obj_only. apply bind_fuel; [apply seqof_fuel|discriminate].
  - apply (pairs_fuel (List.length l)). lia.
  - unfold additions. destruct (existsb (is_str "[[") l); [|apply (pairs_fuel (List.length l)); lia]. apply bind_fuel; [|discriminate]. eapply pairs_fuel, Nat.le_refl.
  - apply bind_fuel; [apply member_fuel|discriminate].
  - destruct l as [|[s|p|q|c] [|t [|t2 [|t3 r]]]]; try discriminate. destruct (s =? "SEQUENCE")%string; [|discriminate]. apply bind_fuel; [apply seqof_fuel|discriminate].
  - destruct l as [|[s|p|q|c] [|[s2|p2|q2|c2] r]]; discriminate.
  - destruct l as [|[s|p|q|c] [|t [|t2 r]]]; try discriminate. apply bind_fuel; [apply first_fuel|discriminate].
  - destruct l as [|[s|p|q|c] [|t r]]; try discriminate. apply bind_fuel; [apply first_fuel|]. intros p. destruct (last _ t); discriminate.
  - destruct (filter _ l) as [|[s|p|q|c] [|t r]]; discriminate.
Qed.
Lemma join_fuel : forall l, join_words l <> Err LoopFuel.
Proof.
  induction l as [|[s|p|q|c] l IH]; cbn [join_words]; try discriminate. destruct l as [|t l]; [discriminate|]. apply bind_fuel; [exact IH|discriminate].
Qed.

(** The loops. *)
Lemma and_answers : forall act l s, (forall e s', In e l -> len s' <= len s -> settles act e s') -> Ans (fun n => run_and (run n) act l s) fuel.
Proof.
  intros act l. induction l as [|e l IH]; intros s A; [now apply (ans_is _ _ (Match s []))|].
  destruct (A e s (or_introl eq_refl) (Nat.le_refl _)) as (o & N & E). destruct o as [s1 a| |x].
  - assert (len s1 <= len s) as LS by (destruct E as [n0 E]; exact (proj1 (run_len _ _ _ _ _ _ (E n0 (Nat.le_refl _))))).
    destruct (IH s1) as (o & N' & E'); [intros e' s' IN L; apply A; [now right|lia]|].
    exists (match o with Match s2 b => Match s2 (a ++ b) | o => o end). split; [now destruct o|].
    eapply ev_two; [exact E|exact E'|]. intros n X Y. cbn beta in *. cbn [run_and]. rewrite X, Y. now destruct o.
  - exists NoMatch. split; [discriminate|]. eapply ev_one; [exact E|]. intros n X. cbn beta in *. cbn [run_and]. now rewrite X.
  - exists (Raise x). split; [congruence|]. eapply ev_one; [exact E|]. intros n X. cbn beta in *. cbn [run_and]. now rewrite X.
Qed.
Lemma tries_answers : forall l s, (forall e, In e l -> settles false e s) -> Ans (fun n => tries (run n) l s) (Err LoopFuel).
Proof.
  induction l as [|e l IH]; intros s A; [apply (ans_is _ _ (Ok [])); [discriminate|reflexivity]|].
  destruct (A e (or_introl eq_refl)) as (o & N & E). destruct (IH s) as (o' & N' & E'); [intros; apply A; now right|]. destruct o as [s1 a| |x].
  - exists (let* m := o' in Ok ((len s1, e) :: m)). split; [destruct o'; [discriminate|exact N']|].
    eapply ev_two; [exact E|exact E'|]. intros n X Y. cbn beta in *. cbn [tries]. now rewrite X, Y.
  - exists o'. split; [exact N'|]. eapply ev_two; [exact E|exact E'|]. intros n X Y. cbn beta in *. cbn [tries]. now rewrite X, Y.
  - exists (Err x). split; [congruence|]. eapply ev_one; [exact E|]. intros n X. cbn beta in *. cbn [tries]. now rewrite X.
Qed.
Lemma longest_answers : forall l s best, (forall n e, In (n, e) l -> settles true e s) -> Ans (fun n => longest (run n) l s best) fuel.
Proof.
  induction l as [|[k e] l IH]; intros s best A; cbn [longest].
  - apply (ans_is _ _ (answer best)); [destruct best as [[? ?]|]; discriminate|reflexivity].
  - destruct (match best with Some (b0, _) => len b0 <=? k | None => false end);
      [apply (ans_is _ _ (answer best)); [destruct best as [[? ?]|]; discriminate|reflexivity]|].
    assert (forall b, Ans (fun n => longest (run n) l s b) fuel) as IH' by (intros b; apply IH; intros n x IN; apply (A n); now right).
    destruct (A k e (or_introl eq_refl)) as (o & N & E). destruct o as [s1 a| |x].
    + destruct (len s1 <=? k) eqn:LE.
      * exists (Match s1 a). split; [discriminate|]. eapply ev_one; [exact E|]. intros n X. cbn beta in *. now rewrite X, LE.
      * match type of LE with _ => destruct (IH' (match best with Some (b, _) => if len s1 <? len b then Some (s1, a) else best | None => Some (s1, a) end)) as (o' & N' & E') end.
        exists o'. split; [exact N'|]. eapply ev_two; [exact E|exact E'|]. intros n X Y. cbn beta in *. now rewrite X, LE.
    + destruct (IH' best) as (o' & N' & E'). exists o'. split; [exact N'|]. eapply ev_two; [exact E|exact E'|]. intros n X Y. cbn beta in *. now rewrite X.
    + exists (Raise x). split; [congruence|]. eapply ev_one; [exact E|]. intros n X. cbn beta in *. now rewrite X.
Qed.
Lemma or_answers : forall act l s, (forall act e, In e l -> settles act e s) -> Ans (fun n => run_or (run n) act l s) fuel.
Proof.
  intros act l s A. destruct (tries_answers l s (A false)) as (o & N & E). destruct o as [m|x].
  - assert (forall n e, In (n, e) (sort_matches m) -> In e l) as IN.
    { intros n e IN. destruct E as [n0 E]. eapply tries_in; [exact (E n0 (Nat.le_refl _))|]. apply sort_in. exact IN. }
    destruct (sort_matches m) as [|[k e] r] eqn:SM.
    + exists NoMatch. split; [discriminate|]. eapply ev_one; [exact E|]. intros n X. cbn beta in *. unfold run_or. now rewrite X, SM.
    + assert (Ans (fun n => if act then longest (run n) ((k, e) :: r) s None else run n false e s) fuel) as (o & N' & E').
      { destruct act; [apply longest_answers; intros; eapply A, IN; eauto|]. apply (A false e). apply (IN k). now left. }
      exists o. split; [exact N'|]. eapply ev_two; [exact E|exact E'|]. intros n X Y. cbn beta in *. unfold run_or. now rewrite X, SM.
  - exists (Raise x). split; [congruence|]. eapply ev_one; [exact E|]. intros n X. cbn beta in *. unfold run_or. now rewrite X.
Qed.
Lemma more_answers : forall act e L, eats e = true -> (forall s, len s <= L -> settles act e s) ->
  forall k s a, len s <= k -> len s <= L -> Ans (fun n => more (run n) n act e s a) fuel.
Proof.
  intros act e L EA A k s a LK LS.
  cut (exists o, o <> fuel /\ exists n0, forall n m, n0 <= n -> n0 <= m -> more (run n) m act e s a = o).
  { intros (o & N & n0 & E). exists o. split; [exact N|]. exists n0. auto. }
  revert s a LK LS. induction k as [|k IH]; intros s a LK LS; destruct (A s LS) as (o & N & n0 & E).
  - destruct o as [s1 b| |x].
    + pose proof (proj2 (run_len _ _ _ _ _ _ (E n0 (Nat.le_refl _))) EA). lia.
    + exists (Match s a). split; [discriminate|]. exists (S n0). intros n [|m] LN LM; [lia|]. cbn [more]. now rewrite E by lia.
    + exists (Raise x). split; [congruence|]. exists (S n0). intros n [|m] LN LM; [lia|]. cbn [more]. now rewrite E by lia.
  - destruct o as [s1 b| |x].
    + pose proof (proj2 (run_len _ _ _ _ _ _ (E n0 (Nat.le_refl _))) EA). destruct (IH s1 (a ++ b)) as (o & N' & n1 & E'); [lia|lia|].
      exists o. split; [exact N'|]. exists (S (n0 + n1)). intros n [|m] LN LM; [lia|]. cbn [more]. rewrite E by lia. apply E'; lia.
    + exists (Match s a). split; [discriminate|]. exists (S n0). intros n [|m] LN LM; [lia|]. cbn [more]. now rewrite E by lia.
    + exists (Raise x). split; [congruence|]. exists (S n0). intros n [|m] LN LM; [lia|]. cbn [more]. now rewrite E by lia.
Qed.
Lemma constraint_answers : (forall s, settles true g_constraint s) -> forall l, Ans (fun n => constraint_of (run n true g_constraint) l) fuel.
Proof.
  intros A [|t l]; [apply (ans_is _ _ NoMatch); [discriminate|reflexivity]|]. unfold constraint_of. destruct (is_str "SIZE" t).
  - destruct l as [|x l]; [apply (ans_is _ _ NoMatch); [discriminate|reflexivity]|apply (ans_is _ _ (Match "" x)); [discriminate|reflexivity]].
  - pose proof (join_fuel (t :: l)) as JF. destruct (join_words (t :: l)) as [w|x]; [|apply (ans_is _ _ (Raise x)); [congruence|reflexivity]].
    destruct (A ("(" ++ w ++ ")")%string) as (o & N & E).
    exists (match o with
            | Match _ ts => match all_str ts with
              | Some ws => match remove_word "..." ws with [] => NoMatch | lo :: rest => Match "" (Con (lo, last rest lo, mem "..." ws)) end
              | None => Raise NotModelled end
            | NoMatch => NoMatch | Raise e => Raise e end). split.
    + destruct o as [r ts| |x]; [|discriminate|congruence]. destruct (all_str ts) as [ws|]; [|discriminate]. destruct (remove_word "..." ws); discriminate.
    + eapply ev_one; [exact E|]. intros n X. cbn beta in *. now rewrite X.
Qed.
Lemma nested_answers : (forall s, settles true g_constraint s) -> forall act s, Ans (fun n => nested (run n true g_constraint) n act s) fuel.
Proof.
  intros A act s.
  cut (exists o, o <> fuel /\ exists n0, forall n m, n0 <= n -> n0 <= m -> nested (run n true g_constraint) m act s = o).
  { intros (o & N & n0 & E). exists o. split; [exact N|]. exists n0. auto. }
  remember (len s) as k eqn:EK. assert (len s <= k) as LK by lia. clear EK. revert s LK. induction k as [|k IH]; intros s LK.
  - pose proof (skip_length s) as SL. exists NoMatch. split; [discriminate|]. exists 1. intros n [|m] LN LM; [lia|]. cbn [nested].
    destruct (skip s) as [|c r]; [reflexivity|cbn [len] in SL; lia].
  - pose proof (skip_length s) as SL. destruct (skip s) as [|c r] eqn:SK.
    { exists NoMatch. split; [discriminate|]. exists 1. intros n [|m] LN LM; [lia|]. cbn [nested]. now rewrite SK. }
    cbn [len] in SL. destruct (Ascii.eqb c ")"%char) eqn:CL.
    { exists (Match r []). split; [discriminate|]. exists 1. intros n [|m] LN LM; [lia|]. cbn [nested]. now rewrite SK, CL. }
    destruct (Ascii.eqb c "("%char) eqn:OP.
    + destruct (IH r) as (o & N & n0 & E); [lia|]. destruct o as [r1 q| |x].
      * assert (len r1 < len r) as LR by exact (nested_len _ _ _ _ _ _ (E n0 n0 (Nat.le_refl _) (Nat.le_refl _))).
        assert (Ans (fun n => if act then constraint_of (run n true g_constraint) q else Match "" (Grp q)) fuel) as (o & N' & n1 & E').
        { destruct act; [now apply constraint_answers|apply (ans_is _ _ (Match "" (Grp q))); [discriminate|reflexivity]]. }
        destruct (IH r1) as (o2 & N2 & n2 & E2); [lia|].
        exists (match o with Match _ t => match o2 with Match r2 l => Match r2 (t :: l) | o => o end | NoMatch => NoMatch | Raise e => Raise e end). split.
        { destruct o as [r2 t| |x]; [now destruct o2|discriminate|congruence]. }
        exists (S (n0 + n1 + n2)). intros n [|m] LN LM; [lia|]. cbn [nested]. rewrite SK, CL, OP, E by lia. rewrite E' by lia. rewrite E2 by lia. destruct o; try reflexivity; now destruct o2.
      * exists NoMatch. split; [discriminate|]. exists (S n0). intros n [|m] LN LM; [lia|]. cbn [nested]. now rewrite SK, CL, OP, E by lia.
      * exists (Raise x). split; [exact N|]. exists (S n0). intros n [|m] LN LM; [lia|]. cbn [nested]. now rewrite SK, CL, OP, E by lia.
    + destruct (is_quote c) eqn:QU.
      { exists (Raise NotModelled). split; [discriminate|]. exists 1. intros n [|m] LN LM; [lia|]. cbn [nested]. now rewrite SK, CL, OP, QU. }
      destruct (span in_nest (String c r)) as [w r1] eqn:SP.
      destruct (is_white c) eqn:WH.
      { exfalso. assert (starts is_white (skip s) = false) as ST. { clear. induction s as [|c s IH]; [reflexivity|]. cbn [skip]. destruct (is_white c) eqn:W; [exact IH|exact W]. }
        rewrite SK in ST. cbn [starts] in ST. congruence. }
      assert (len r1 <= len r) as LR.
      { cbn [span] in SP. replace (in_nest c) with true in SP; [destruct (span in_nest r) as [w' r'] eqn:X; injection SP as <- <-; now apply span_len in X|].
        unfold in_nest, is_paren. now rewrite CL, OP, QU, WH. }
      destruct (IH r1) as (o & N & n0 & E); [lia|]. exists (match o with Match r2 l => Match r2 (Str w :: l) | o => o end). split; [now destruct o|].
      exists (S n0). intros n [|m] LN LM; [lia|]. cbn [nested]. rewrite SK, CL, OP, QU, SP, E by lia; now destruct o.
Qed.

(** [left e]: the rules [e] can call before a character is taken.  They get
    smaller in the order of [rank]: the grammar is not left-recursive. *)
Fixpoint left (e : pexp) : list rule :=
  match e with
  | PTerm _ | PEmpty | PNest => []
  | PSup e | PMany e | PMore e | POpt e | PGroup e | PAct _ e => left e
  | PRule r => [r]
  | PAnd l => (fix lefts (l : list pexp) : list rule :=
                 match l with [] => [] | e :: r => left e ++ if eats e then [] else lefts r end) l
  | POr l => flat_map left l
  end.
Definition lefts : list pexp -> list rule :=
  fix lefts (l : list pexp) : list rule := match l with [] => [] | e :: r => left e ++ if eats e then [] else lefts r end.
Definition rank (r : rule) : nat := match r with RSets => 2 | RSet => 1 | _ => 0 end.
Lemma bodies_ranked : forall r, Forall (fun r' => rank r' < rank r) (left (body r)).
Proof. intros []; vm_compute; repeat constructor. Qed.

(** Repetitions are of something, and only with [nest] there are constraints in
    parentheses. *)
Fixpoint good (nest : bool) (e : pexp) : bool :=
  match e with
  | PTerm _ | PEmpty => true
  | PSup e | POpt e | PGroup e => good nest e
  | PAct ToConstraint e => nest && good nest e
  | PAct _ e => good nest e
  | PMany e | PMore e => eats e && good nest e
  | PAnd l | POr l => forallb (good nest) l
  | PRule RType | PNest => nest
  | PRule _ => true
  end.
Lemma bodies_good : forall nest r, good nest (PRule r) = true -> good nest (body r) = true.
Proof. intros [] []; intros E; (discriminate || reflexivity). Qed.

Section Answers.
Variable nest : bool.
Hypothesis base : nest = true -> forall s, settles true g_constraint s.

Lemma settled_by : forall act e s, Ans (fun n => step (run n) (run_or (run n)) n act e (skip s)) fuel -> settles act e s.
Proof. intros act e s (o & N & E). exists o. split; [exact N|]. now apply ev_S. Qed.

Lemma ans_match : forall A B (F : nat -> outcome A) (h : outcome A -> outcome B), Ans F fuel ->
  (forall o, o <> fuel -> h o <> fuel) -> Ans (fun n => h (F n)) fuel.
Proof. intros A B' F h (o & N & E) HN. exists (h o). split; [now apply HN|]. eapply ev_one; [exact E|]. intros n X. cbn beta in *. now rewrite X. Qed.

Section Level.
Variables (L k : nat).
Hypothesis below : forall e s act, len s < L -> good nest e = true -> settles act e s.
Hypothesis rules : forall r s act, rank r < k -> len s <= L -> good nest (PRule r) = true -> settles act (PRule r) s.

Lemma level : forall e s act, len s <= L -> good nest e = true -> Forall (fun r => rank r < k) (left e) -> settles act e s.
Proof.
  intros e. induction e as [t| |e IH|l IH|l IH|e IH|e IH|e IH|e IH|a e IH|r|] using pexp_rect'; intros s act LS GD LF;
    [..|cbn [left] in LF; inversion LF; subst; now apply rules|]; apply settled_by; pose proof (skip_length s) as SL; assert (len (skip s) <= L) as LS' by lia; clear LS SL;
    revert LS'; generalize (skip s); clear s; intros s LS; cbn [step good left] in *.
  - destruct (term t s) as [[m x]|]; [apply (ans_is _ _ (Match x [Str m]))|apply (ans_is _ _ NoMatch)]; discriminate || reflexivity.
  - apply (ans_is _ _ (Match s [])); [discriminate|reflexivity].
  - apply (ans_match _ _ _ (fun o => match o with Match r _ => Match r [] | NoMatch => NoMatch | Raise x => Raise x end) (IH s act LS GD LF)). intros []; congruence.
  - change (Forall (fun r => rank r < k) (lefts l)) in LF. revert s LS LF GD. induction IH as [|e l IHe IH IHl]; intros s LS LF GD.
    { apply (ans_is _ _ (Match s [])); [discriminate|reflexivity]. }
    cbn [forallb lefts] in *. apply andb_prop in GD as [GE GL]. apply Forall_app in LF as [LE LR].
    destruct (IHe s act LS GE LE) as (o & N & E). destruct o as [s1 a| |x].
    + assert (len s1 <= len s /\ (eats e = true -> len s1 < len s)) as [S1 S2] by (destruct E as [n0 E]; exact (run_len _ _ _ _ _ _ (E n0 (Nat.le_refl _)))).
      assert (Ans (fun n => run_and (run n) act l s1) fuel) as (o & N' & E').
      { destruct (eats e); [|apply IHl; [lia|exact LR|exact GL]]. specialize (S2 eq_refl). apply and_answers. intros x s' IN LX. apply below; [lia|].
        rewrite forallb_forall in GL. now apply GL. }
      exists (match o with Match s2 b => Match s2 (a ++ b) | o => o end). split; [now destruct o|].
      eapply ev_two; [exact E|exact E'|]. intros n X Y. cbn beta in *. cbn [run_and]. rewrite X, Y. now destruct o.
    + exists NoMatch. split; [discriminate|]. eapply ev_one; [exact E|]. intros n X. cbn beta in *. cbn [run_and]. now rewrite X.
    + exists (Raise x). split; [congruence|]. eapply ev_one; [exact E|]. intros n X. cbn beta in *. cbn [run_and]. now rewrite X.
  - apply or_answers. intros act' e IN. rewrite Forall_forall in IH. rewrite forallb_forall in GD. apply IH; auto. rewrite Forall_forall in *. intros r IR. apply LF, in_flat_map. eauto.
  - apply andb_prop in GD as [EA GD]. destruct (IH s act LS GD LF) as (o & N & E). destruct o as [s1 a| |x].
    + assert (len s1 < len s) as S1 by (destruct E as [n0 E]; exact (proj2 (run_len _ _ _ _ _ _ (E n0 (Nat.le_refl _))) EA)).
      destruct (more_answers act e (len s1) EA) with (k := len s1) (s := s1) (a := a) as (o & N' & E'); [intros; apply below; [lia|exact GD]|lia|lia|].
      exists o. split; [exact N'|]. eapply ev_two; [exact E|exact E'|]. intros n X Y. cbn beta in *. now rewrite X.
    + exists (Match s []). split; [discriminate|]. eapply ev_one; [exact E|]. intros n X. cbn beta in *. now rewrite X.
    + exists (Raise x). split; [congruence|]. eapply ev_one; [exact E|]. intros n X. cbn beta in *. now rewrite X.
  - apply andb_prop in GD as [EA GD]. destruct (IH s act LS GD LF) as (o & N & E). destruct o as [s1 a| |x].
    + assert (len s1 < len s) as S1 by (destruct E as [n0 E]; exact (proj2 (run_len _ _ _ _ _ _ (E n0 (Nat.le_refl _))) EA)).
      destruct (more_answers act e (len s1) EA) with (k := len s1) (s := s1) (a := a) as (o & N' & E'); [intros; apply below; [lia|exact GD]|lia|lia|].
      exists o. split; [exact N'|]. eapply ev_two; [exact E|exact E'|]. intros n X Y. cbn beta in *. now rewrite X.
    + exists NoMatch. split; [discriminate|]. eapply ev_one; [exact E|]. intros n X. cbn beta in *. now rewrite X.
    + exists (Raise x). split; [congruence|]. eapply ev_one; [exact E|]. intros n X. cbn beta in *. now rewrite X.
  - apply (ans_match _ _ _ (fun o => match o with NoMatch => Match s [] | Match r a => Match r a | Raise x => Raise x end) (IH s act LS GD LF)). intros []; congruence.
  - apply (ans_match _ _ _ (fun o => match o with Match r a => Match r [Grp a] | NoMatch => NoMatch | Raise x => Raise x end) (IH s act LS GD LF)). intros []; congruence.
  - assert (settles act e s) as AE by (apply IH; [exact LS| |exact LF]; destruct a; try exact GD; now apply andb_prop in GD).
    assert (forall x : action, Ans (fun n => match run n act e s with
      | Match r l => if act then match act_on x l with Ok l' => Match r l' | Err x => Raise x end else Match r l | NoMatch => NoMatch | Raise x => Raise x end) fuel) as PL.
    { intros x. apply (ans_match _ _ _ (fun o => match o with
      | Match r l => if act then match act_on x l with Ok l' => Match r l' | Err x => Raise x end else Match r l | NoMatch => NoMatch | Raise x => Raise x end) AE).
      intros [r l| |y] NO; try congruence. destruct act; [|congruence]. pose proof (act_fuel x l). destruct (act_on x l); congruence. }
    destruct a; try apply PL. apply andb_prop in GD as [NE GD]. destruct AE as (o & N & E). destruct o as [s1 a| |x].
    + destruct act; [|exists (Match s1 a); split; [discriminate|]; eapply ev_one; [exact E|]; intros n X; cbn beta in *; now rewrite X].
      assert ((exists q, a = [Grp q]) \/ (forall (A : Type) (F : list tok -> A) y, match a with [Grp q] => F q | _ => y end = y)) as [[q ->]|NG].
      { destruct a as [|[| |q|] [|]]; eauto. }
      * destruct (constraint_answers (base NE) q) as (o & N' & E').
        exists (match o with Match _ t => Match s1 [t] | NoMatch => NoMatch | Raise x => Raise x end). split; [destruct o; congruence|].
        eapply ev_two; [exact E|exact E'|]. intros n X Y. cbn beta in *. now rewrite X, Y.
      * exists (Raise NotModelled). split; [discriminate|]. eapply ev_one; [exact E|]. intros n X. cbn beta in *. rewrite X. apply (NG _ (fun q => _)).
    + exists NoMatch. split; [discriminate|]. eapply ev_one; [exact E|]. intros n X. cbn beta in *. now rewrite X.
    + exists (Raise x). split; [congruence|]. eapply ev_one; [exact E|]. intros n X. cbn beta in *. now rewrite X.
  - destruct s as [|c r]; [apply (ans_is _ _ NoMatch); [discriminate|reflexivity]|]. destruct (Ascii.eqb c "("%char); [|apply (ans_is _ _ NoMatch); [discriminate|reflexivity]].
    apply (ans_match _ _ _ (fun o => match o with Match r' g => Match r' [Grp g] | NoMatch => NoMatch | Raise x => Raise x end) (nested_answers (base GD) act r)). intros []; congruence.
Qed.
End Level.

Lemma all_answer : forall e s act, good nest e = true -> settles act e s.
Proof.
  intros e s act GD. remember (len s) as L eqn:EL. assert (len s <= L) as LS by lia. clear EL. revert e s act LS GD.
  induction L as [L IHL] using lt_wf_ind.
  assert (forall e s act, len s < L -> good nest e = true -> settles act e s) as below by (intros; eapply IHL; eauto).
  assert (forall k r s act, rank r < k -> len s <= L -> good nest (PRule r) = true -> settles act (PRule r) s) as rules.
  { induction k as [|k IHk]; intros r s act RK LS GD; [lia|]. apply settled_by. cbn [step].
    apply (level L k below IHk); [pose proof (skip_length s); lia|now apply bodies_good|].
    eapply Forall_impl; [|apply bodies_ranked]. intros r'. cbn beta. lia. }
  intros e s act LS GD. apply (level L 3 below (rules 3)); auto. apply Forall_forall. intros [] _; cbn; lia.
Qed.
End Answers.

Lemma constraint_settles : forall s, settles true g_constraint s.
Proof. intros s. apply (all_answer false); [discriminate|reflexivity]. Qed.
Lemma settled : forall e s act, good true e = true -> settles act e s.
Proof. intros e s act GD. apply (all_answer true); [|exact GD]. intros _. apply constraint_settles. Qed.

(** ** The theorem *)

(** On every text, whatever it is, the library finds the objects, or reports an
    error; it does not loop.  The answer does not depend on the bound of the
    model. *)
Theorem C51_parser_answers : forall s, exists o, o <> Raise LoopFuel /\ exists n0, forall n, n0 <= n -> read_schema n s = o.
Proof.
  intros s. destruct (settled g_module (expandtabs 0 (of_codes (remove_comments (to_codes s)))) true eq_refl) as (o & N & E).
  exists (match o with
          | Match r l => match only_objs l with Some ps => Match r ps | None => Raise NotModelled end
          | NoMatch => NoMatch | Raise x => Raise x end). split.
  - destruct o as [r l| |x]; try congruence. destruct (only_objs l); discriminate.
  - eapply ev_one; [exact E|]. intros n X. cbn beta in *. unfold read_schema, parse_module. now rewrite X.
Qed.
Example C51_case : exists n0, forall n, n0 <= n -> read_schema n "M DEFINITIONS ::= BEGIN A ::= SEQUENCE { x INTEGER (((1.. , y " = NoMatch.
Proof.
  exists 60. intros n L. rewrite (schema_settled 60 n _ L); rewrite read_fast; vm_compute; [reflexivity|discriminate].
Qed.

(** ** One text, one list of objects *)

(** A text is not the text of two schemas with different objects. *)
Theorem C50_unambiguous : forall S S' s r r', text_of S s r -> text_of S' s r' -> map parsed_as S = map parsed_as S'.
Proof.
  intros S S' s r r' T T'. destruct (C50_reading_partial S s r T) as (q & n & E). destruct (C50_reading_partial S' s r' T') as (q' & n' & E').
  specialize (E (Nat.max n n') (Nat.le_max_l _ _)). specialize (E' (Nat.max n n') (Nat.le_max_r _ _)). congruence.
Qed.
