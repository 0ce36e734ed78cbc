(** The parser of Grammar.v on texts made of lexical items with blanks between
    them: which expressions match and which do not, as far as the items tell. *)

From Coq Require Import ZArith List String Ascii Bool Arith Lia.
Import ListNotations.
From Verif Require Import PyBase Generator Emit Exec Meaning Subtypes Grammar Texts.

Open Scope string_scope.
Open Scope list_scope.
Open Scope nat_scope.

(** * Texts *)

Lemma app_assoc_s : forall a b c : string, ((a ++ b) ++ c)%string = (a ++ b ++ c)%string.
Proof. induction a as [|x a IH]; [reflexivity|]. intros b c. cbn [append]. now rewrite IH. Qed.
Lemma app_nil_s : forall a : string, (a ++ "")%string = a.
Proof. induction a as [|x a IH]; [reflexivity|]. cbn [append]. now rewrite IH. Qed.
Lemma length_app_s : forall a b : string, String.length (a ++ b) = String.length a + String.length b.
Proof. induction a as [|x a IH]; [reflexivity|]. intros b. cbn [append String.length]. rewrite IH. lia. Qed.
Lemma prefixed_app : forall p s, prefixed p (p ++ s) = Some s.
Proof. induction p as [|c p IH]; [reflexivity|]. intros s. cbn [append prefixed]. rewrite Ascii.eqb_refl. apply IH. Qed.
Lemma prefixed_inv : forall p s r, prefixed p s = Some r -> s = (p ++ r)%string.
Proof.
  induction p as [|c p IH]; intros s r H; cbn [prefixed append] in *; [congruence|].
  destruct s as [|d s]; [discriminate|]. destruct (Ascii.eqb_spec c d) as [->|]; [|discriminate]. now rewrite (IH _ _ H).
Qed.

Lemma skip_blank : forall g s, blank g -> skip (g ++ s) = skip s.
Proof.
  unfold blank. induction g as [|c g IH]; [reflexivity|]. intros s H. cbn [all_chars] in H. apply andb_prop in H as [A B].
  cbn [append skip]. rewrite A. now apply IH.
Qed.
Lemma skip_skip : forall s, skip (skip s) = skip s.
Proof.
  induction s as [|c s IH]; [reflexivity|]. cbn [skip]. destruct (is_white c) eqn:W; [exact IH|]. cbn [skip]. now rewrite W.
Qed.
Lemma skip_split : forall s, exists g, blank g /\ s = (g ++ skip s)%string.
Proof.
  induction s as [|c s IH]; [now exists ""|]. cbn [skip]. destruct (is_white c) eqn:W; [|now exists ""].
  destruct IH as (g & B & E). exists (String c g). unfold blank in *. cbn [all_chars append]. rewrite W. split; [exact B|congruence].
Qed.
Lemma skip_length : forall s, String.length (skip s) <= String.length s.
Proof. intros s. destruct (skip_split s) as (g & _ & E). rewrite E at 2. rewrite length_app_s. lia. Qed.

Lemma skip_solid : forall s, starts is_white s = false -> skip s = s.
Proof. intros [|c s]; [reflexivity|]. cbn [starts skip]. intros ->. reflexivity. Qed.

Lemma span_all : forall f a s, all_chars f a = true -> starts f s = false -> span f (a ++ s) = (a, s).
Proof.
  induction a as [|c a IH]; intros s A S.
  - destruct s as [|c s]; [reflexivity|]. cbn [append span]. cbn [starts] in S. now rewrite S.
  - cbn [all_chars] in A. apply andb_prop in A as [B A]. cbn [append span]. rewrite B, (IH s A S). reflexivity.
Qed.

(** What is left behind some items. *)
Fixpoint after (l : list token) (s : string) : string :=
  match l with
  | [] => s
  | t :: l => match prefixed (t_text t) (skip s) with Some r => after l r | None => EmptyString end
  end.

Lemma upper_solid : forall c, is_upper c = true -> is_white c = false.
Proof. intros [[] [] [] [] [] [] [] []]; vm_compute; congruence. Qed.
Lemma lower_solid : forall c, is_lower c = true -> is_white c = false.
Proof. intros [[] [] [] [] [] [] [] []]; vm_compute; congruence. Qed.
Lemma digit_solid : forall c, is_digit c = true -> is_white c = false.
Proof. intros [[] [] [] [] [] [] [] []]; vm_compute; congruence. Qed.

Lemma proper_solid : forall t s, proper t = true -> starts is_white (t_text t ++ s) = false.
Proof.
  intros [k|k|k|k|k|k] s P; cbn [proper t_text] in *; try reflexivity; destruct k as [|c k]; try discriminate;
    cbn [append starts type_word value_word] in *.
  - apply andb_prop in P as [P _]. now apply negb_true_iff in P.
  - apply andb_prop in P as [P _]. now apply upper_solid.
  - apply andb_prop in P as [P _]. now apply lower_solid.
  - apply andb_prop in P as [P _]. now apply digit_solid.
Qed.
Lemma proper_long : forall t, proper t = true -> 0 < String.length (t_text t).
Proof.
  intros [k|k|k|k|k|k] P; cbn [proper t_text] in *; try (rewrite !length_app_s; cbn [String.length]; lia);
    destruct k as [|c k]; try discriminate; cbn [String.length]; lia.
Qed.

Lemma laid_inv : forall t l s r, laid (t :: l) s r ->
  skip s = (t_text t ++ after [t] s)%string /\ proper t = true /\ apart t (after [t] s) /\ laid l (after [t] s) r.
Proof.
  intros t l s r L. inversion L as [|g t' l' s' r' BL P A L']; subst. cbn [after].
  rewrite (skip_blank _ _ BL), (skip_solid _ (proper_solid t s' P)), prefixed_app. auto.
Qed.
Lemma laid_skip : forall t l s r, laid (t :: l) s r -> laid (t :: l) (skip s) r.
Proof.
  intros t l s r L. destruct (laid_inv _ _ _ _ L) as (E & P & A & L'). rewrite E.
  apply (laid_cons "" t l); auto. reflexivity.
Qed.
Lemma after_skip : forall t l s, after (t :: l) (skip s) = after (t :: l) s.
Proof. intros t l s. cbn [after]. now rewrite skip_skip. Qed.
Lemma after_app : forall a b s, after (a ++ b) s = after b (after a s) \/ after (a ++ b) s = "".
Proof.
  induction a as [|t a IH]; intros b s; [now left|]. cbn [app after]. destruct (prefixed (t_text t) (skip s)); [apply IH|now right].
Qed.
Lemma laid_app : forall a b s r, laid (a ++ b) s r -> laid b (after a s) r /\ after (a ++ b) s = after b (after a s).
Proof.
  induction a as [|t a IH]; intros b s r L; [easy|]. cbn [app] in *. destruct (laid_inv _ _ _ _ L) as (E & P & A & L').
  destruct (IH _ _ _ L') as [X Y]. cbn [after] in *. destruct (prefixed (t_text t) (skip s)) as [q|] eqn:Q.
  - split; [exact X|exact Y].
  - rewrite E in Q. rewrite prefixed_app in Q. discriminate.
Qed.
Lemma laid_shorter : forall t l s r, laid (t :: l) s r -> String.length (after [t] s) < String.length (skip s).
Proof.
  intros t l s r L. destruct (laid_inv _ _ _ _ L) as (E & P & _ & _). rewrite E. rewrite length_app_s.
  pose proof (proper_long t P). lia.
Qed.
Lemma after_shorter : forall l s b r, laid (l ++ b) s r -> String.length (after l s) <= String.length s.
Proof.
  induction l as [|t l IH]; intros s b r L; [cbn [after]; lia|]. cbn [app] in L.
  pose proof (laid_shorter _ _ _ _ L) as S1. destruct (laid_inv _ _ _ _ L) as (E & P & _ & L').
  specialize (IH _ _ _ L'). destruct (laid_app [t] (l ++ b) s r L) as [_ _].
  replace (after (t :: l) s) with (after l (after [t] s)).
  - pose proof (skip_length s). lia.
  - cbn [after]. rewrite E, prefixed_app. reflexivity.
Qed.

(** * Answers that do not depend on the bound, once it is large enough *)

Definition ev (P : nat -> Prop) : Prop := exists n0, forall n, n0 <= n -> P n.
Lemma ev_all : forall P : nat -> Prop, (forall n, P n) -> ev P.
Proof. intros P F. now exists 0. Qed.
Lemma ev_one : forall (P Q : nat -> Prop), ev P -> (forall n, P n -> Q n) -> ev Q.
Proof. intros P Q [a A] F. exists a. auto. Qed.
Lemma ev_two : forall (P Q X : nat -> Prop), ev P -> ev Q -> (forall n, P n -> Q n -> X n) -> ev X.
Proof. intros P Q X [a A] [b C] F. exists (Nat.max a b). intros n L. apply F; [apply A|apply C]; lia. Qed.
Lemma ev_S : forall P : nat -> Prop, ev (fun n => P (S n)) -> ev P.
Proof. intros P [a A]. exists (S a). intros [|n] L; [lia|]. apply A. lia. Qed.

Lemma run_skip : forall n act e s, run n act e (skip s) = run n act e s.
Proof. intros [|n] act e s; [reflexivity|]. cbn [run]. now rewrite skip_skip. Qed.

(** [Got e s s' ts]: the expression matches the text up to [s'] and gives [ts]
    ([Some] tokens when no actions run); [Fail e s]: it does not match. *)
Definition Got (e : pexp) (s s' : string) (ts : list tok) : Prop :=
  ev (fun n => run n true e s = Match s' ts) /\ exists ts0, ev (fun n => run n false e s = Match s' ts0).
Definition Fail (e : pexp) (s : string) : Prop := forall act, ev (fun n => run n act e s = NoMatch).

Lemma got_skip : forall e s s' ts, Got e (skip s) s' ts <-> Got e s s' ts.
Proof.
  intros e s s' ts. split; intros [A (ts0 & C)]; (split; [eapply ev_one; [exact A|]|exists ts0; eapply ev_one; [exact C|]]);
    intros n; cbn beta; now rewrite run_skip.
Qed.
Lemma fail_skip : forall e s, Fail e (skip s) <-> Fail e s.
Proof. intros e s. split; intros F act; (eapply ev_one; [apply (F act)|]); intros n; cbn beta; now rewrite run_skip. Qed.

Lemma got_term : forall t s m r, term t (skip s) = Some (m, r) -> Got (PTerm t) s r [Str m].
Proof.
  intros t s m r E. split; [|exists [Str m]]; apply ev_S, ev_all; intros n; cbn [run step]; now rewrite E.
Qed.
Lemma fail_term : forall t s, term t (skip s) = None -> Fail (PTerm t) s.
Proof. intros t s E act. apply ev_S, ev_all; intros n; cbn [run step]; now rewrite E. Qed.
Lemma got_empty : forall s, Got PEmpty s (skip s) [].
Proof. intros s. split; [|exists []]; apply ev_S, ev_all; reflexivity. Qed.

(** One expression around another. *)
Ltac around G := apply ev_S; eapply ev_one; [exact G|]; intros n G'; cbn beta in G' |- *; cbn [run step]; rewrite run_skip, G'.
Lemma got_sup : forall e s s' ts, Got e s s' ts -> Got (PSup e) s s' [].
Proof. intros e s s' ts [A (ts0 & C)]. split; [|exists []]; [around A|around C]; reflexivity. Qed.
Lemma fail_sup : forall e s, Fail e s -> Fail (PSup e) s.
Proof. intros e s F act. around (F act). reflexivity. Qed.
Lemma got_group : forall e s s' ts, Got e s s' ts -> Got (PGroup e) s s' [Grp ts].
Proof. intros e s s' ts [A (ts0 & C)]. split; [|exists [Grp ts0]]; [around A|around C]; reflexivity. Qed.
Lemma fail_group : forall e s, Fail e s -> Fail (PGroup e) s.
Proof. intros e s F act. around (F act). reflexivity. Qed.
Lemma got_act : forall a e s s' ts ts', a <> ToConstraint -> Got e s s' ts -> act_on a ts = Ok ts' -> Got (PAct a e) s s' ts'.
Proof.
  intros a e s s' ts ts' N [A (ts0 & C)] E. split; [|exists ts0].
  - around A. rewrite E. destruct a; try reflexivity. now elim N.
  - around C. destruct a; reflexivity.
Qed.
Lemma fail_act : forall a e s, Fail e s -> Fail (PAct a e) s.
Proof. intros a e s F act. around (F act). destruct a; reflexivity. Qed.
Lemma got_rule : forall r s s' ts, Got (body r) s s' ts -> Got (PRule r) s s' ts.
Proof. intros r s s' ts [A (ts0 & C)]. split; [|exists ts0]; [around A|around C]; reflexivity. Qed.
Lemma fail_rule : forall r s, Fail (body r) s -> Fail (PRule r) s.
Proof. intros e s F act. around (F act). reflexivity. Qed.
Lemma got_opt : forall e s s' ts, Got e s s' ts -> Got (POpt e) s s' ts.
Proof. intros e s s' ts [A (ts0 & C)]. split; [|exists ts0]; [around A|around C]; reflexivity. Qed.
Lemma got_opt_none : forall e s, Fail e s -> Got (POpt e) s (skip s) [].
Proof. intros e s F. split; [|exists []]; [around (F true)|around (F false)]; reflexivity. Qed.

(** Repetition. *)
Inductive Reps (e : pexp) : string -> string -> list tok -> Prop :=
| reps_nil s : Fail e s -> Reps e s s []
| reps_cons s s1 s2 a b : Got e s s1 a -> Reps e s1 s2 b -> Reps e s s2 (a ++ b).

Lemma reps_more : forall e s s' ts, Reps e s s' ts ->
  (exists n0, forall n k a, n0 <= n -> n0 <= k -> more (run n) k true e s a = Match s' (a ++ ts)) /\
  exists ts0, exists n0, forall n k a, n0 <= n -> n0 <= k -> more (run n) k false e s a = Match s' (a ++ ts0).
Proof.
  intros e s s' ts R'. induction R' as [s F|s s1 s2 a b [A (ts0 & C)] _ [[n1 IH1] (ts1 & n2 & IH2)]].
  - destruct (F true) as [n1 H1]. destruct (F false) as [n2 H2].
    split; [exists (S n1)|exists [], (S n2)]; intros n [|k] a L M; try lia; cbn [more].
    + rewrite H1 by lia. now rewrite app_nil_r.
    + rewrite H2 by lia. now rewrite app_nil_r.
  - destruct A as [n3 A]. destruct C as [n4 C]. split.
    + exists (S (Nat.max n1 n3)). intros n [|k] x L M; [lia|]. cbn [more]. rewrite A by lia. rewrite IH1 by lia. now rewrite app_assoc.
    + exists (ts0 ++ ts1), (S (Nat.max n2 n4)). intros n [|k] x L M; [lia|]. cbn [more]. rewrite C by lia. rewrite IH2 by lia.
      now rewrite app_assoc.
Qed.
Lemma got_many : forall e s s1 s2 a b, Got e s s1 a -> Reps e s1 s2 b -> Got (PMany e) s s2 (a ++ b).
Proof.
  intros e s s1 s2 a b [A (ts0 & C)] R'. destruct (reps_more _ _ _ _ R') as [[n1 M1] (ts1 & n2 & M2)]. split.
  - apply ev_S. destruct A as [n3 A]. exists (Nat.max n1 n3). intros n L. cbn [run step]. rewrite run_skip, A by lia. apply M1; lia.
  - exists (ts0 ++ ts1). apply ev_S. destruct C as [n3 C]. exists (Nat.max n2 n3). intros n L. cbn [run step].
    rewrite run_skip, C by lia. apply M2; lia.
Qed.
Lemma got_more : forall e s s1 s2 a b, Got e s s1 a -> Reps e s1 s2 b -> Got (PMore e) s s2 (a ++ b).
Proof.
  intros e s s1 s2 a b [A (ts0 & C)] R'. destruct (reps_more _ _ _ _ R') as [[n1 M1] (ts1 & n2 & M2)]. split.
  - apply ev_S. destruct A as [n3 A]. exists (Nat.max n1 n3). intros n L. cbn [run step]. rewrite run_skip, A by lia. apply M1; lia.
  - exists (ts0 ++ ts1). apply ev_S. destruct C as [n3 C]. exists (Nat.max n2 n3). intros n L. cbn [run step].
    rewrite run_skip, C by lia. apply M2; lia.
Qed.
Lemma got_many_none : forall e s, Fail e s -> Got (PMany e) s (skip s) [].
Proof. intros e s F. split; [|exists []]; [around (F true)|around (F false)]; reflexivity. Qed.
Lemma fail_more : forall e s, Fail e s -> Fail (PMore e) s.
Proof. intros e s F act. around (F act). reflexivity. Qed.

(** Sequences. *)
Definition Ands (l : list pexp) (s s' : string) (ts : list tok) : Prop :=
  ev (fun n => run_and (run n) true l s = Match s' ts) /\
  exists ts0, ev (fun n => run_and (run n) false l s = Match s' ts0).
Definition AndsFail (l : list pexp) (s : string) : Prop := forall act, ev (fun n => run_and (run n) act l s = NoMatch).
Lemma ands_nil : forall s, Ands [] s s [].
Proof. intros s. split; [|exists []]; apply ev_all; reflexivity. Qed.
Lemma ands_cons : forall e l s s1 s2 a b, Got e s s1 a -> Ands l s1 s2 b -> Ands (e :: l) s s2 (a ++ b).
Proof.
  intros e l s s1 s2 a b [A (a0 & A0)] [C (b0 & C0)].
  split; [eapply ev_two; [exact A|exact C|]|exists (a0 ++ b0); eapply ev_two; [exact A0|exact C0|]]; intros n X Y; cbn beta in *; cbn [run_and]; now rewrite X, Y.
Qed.
Lemma ands_fail : forall e l s, Fail e s -> AndsFail (e :: l) s.
Proof. intros e l s F act. eapply ev_one; [apply (F act)|]. intros n X. cbn beta in *. cbn [run_and]. now rewrite X. Qed.
Lemma ands_later : forall e l s s1 a, Got e s s1 a -> AndsFail l s1 -> AndsFail (e :: l) s.
Proof.
  intros e l s s1 a [A (a0 & A0)] F [|]; [eapply ev_two; [exact A|apply (F true)|]|eapply ev_two; [exact A0|apply (F false)|]]; intros n X Y; cbn beta in *; cbn [run_and]; now rewrite X, Y.
Qed.
Lemma and_skip : forall n act e l s, run_and (run n) act (e :: l) (skip s) = run_and (run n) act (e :: l) s.
Proof. intros. cbn [run_and]. now rewrite run_skip. Qed.
Lemma got_and : forall e l s s' ts, Ands (e :: l) s s' ts -> Got (PAnd (e :: l)) s s' ts.
Proof.
  intros e l s s' ts [A (ts0 & C)].
  split; [apply ev_S; eapply ev_one; [exact A|]|exists ts0; apply ev_S; eapply ev_one; [exact C|]];
    intros n X; cbn beta in *; cbn [run step]; now rewrite and_skip.
Qed.
Lemma fail_and : forall e l s, AndsFail (e :: l) s -> Fail (PAnd (e :: l)) s.
Proof.
  intros e l s F act. apply ev_S. eapply ev_one; [apply (F act)|]. intros n X. cbn beta in *. cbn [run step]. now rewrite and_skip.
Qed.

(** Alternatives: the one that leaves [k] characters wins. *)
Definition Beaten (strict : bool) (k : nat) (s : string) (e : pexp) : Prop :=
  ev (fun n => run n false e s = NoMatch) \/
  exists s' ts0, ev (fun n => run n false e s = Match s' ts0) /\
                 (if strict then k < String.length s' else k <= String.length s').

Lemma beaten_fail : forall b k s e, Fail e s -> Beaten b k s e.
Proof. intros b k s e F. left. apply F. Qed.
Lemma beaten_got : forall (b : bool) k s e s' ts, Got e s s' ts ->
  (if b then k < String.length s' else k <= String.length s') -> Beaten b k s e.
Proof. intros b k s e s' ts [_ (ts0 & C)] L. right. eauto. Qed.

Lemma tries_app : forall self a b s, tries self (a ++ b) s =
  (let* x := tries self a s in let* y := tries self b s in Ok (x ++ y)).
Proof.
  intros self a b s. induction a as [|e a IH]; cbn [app tries bind]; [now destruct (tries self b s)|].
  destruct (self false e s); [|exact IH|reflexivity]. rewrite IH. destruct (tries self a s); [|reflexivity]. cbn [bind].
  now destruct (tries self b s).
Qed.
Lemma tries_beaten : forall strict k s l, Forall (Beaten strict k s) l ->
  ev (fun n => exists m, tries (run n) l s = Ok m /\ Forall (fun x => if strict then k < fst x else k <= fst x) m).
Proof.
  intros strict k s l F. induction F as [|e l [A|(s' & ts0 & A & L)] _ IH].
  - apply ev_all. intros n. exists []. now split.
  - eapply ev_two; [exact A|exact IH|]. intros n X (m & E & Y). cbn beta in X. cbn [tries]. rewrite X. eauto.
  - eapply ev_two; [exact A|exact IH|]. intros n X (m & E & Y). cbn beta in X. cbn [tries]. rewrite X, E. cbn [bind].
    exists ((String.length s', e) :: m). split; [reflexivity|]. constructor; assumption.
Qed.
Lemma sort_min : forall m,
  match sort_matches m with
  | [] => m = []
  | x :: _ => In x m /\ forall y, In y m -> fst x <= fst y
  end.
Proof.
  intros m. induction m as [|x m IH]; [reflexivity|]. unfold sort_matches in *. cbn [fold_right].
  destruct (fold_right insert_match [] m) as [|y r].
  - subst m. cbn [insert_match]. split; [now left|]. intros y [<-|[]]. lia.
  - destruct IH as [I1 I2]. cbn [insert_match]. destruct (fst x <=? fst y) eqn:L.
    + apply Nat.leb_le in L. split; [now left|]. intros z [<-|Z']; [lia|]. specialize (I2 z Z'). lia.
    + apply Nat.leb_gt in L. split; [now right|]. intros z [<-|Z']; [lia|]. now apply I2.
Qed.
Lemma sort_best : forall a (x : nat * pexp) b, Forall (fun y => fst x < fst y) a -> Forall (fun y => fst x <= fst y) b ->
  exists r, sort_matches (a ++ x :: b) = x :: r.
Proof.
  intros a x b A C. induction A as [|y a L A [r IH]].
  - unfold sort_matches. cbn [app fold_right]. pose proof (sort_min b) as M. unfold sort_matches in M.
    destruct (fold_right insert_match [] b) as [|z r]; [now exists []|]. destruct M as [I1 _].
    cbn [insert_match]. rewrite Forall_forall in C. specialize (C z I1). apply Nat.leb_le in C. rewrite C. now eexists.
  - unfold sort_matches in *. cbn [app fold_right]. rewrite IH. cbn [insert_match].
    destruct (fst y <=? fst x) eqn:E; [apply Nat.leb_le in E; lia|]. now eexists.
Qed.

Lemma got_or : forall a e b s s' ts, Got e s s' ts ->
  Forall (Beaten true (String.length s') s) a -> Forall (Beaten false (String.length s') s) b ->
  Got (POr (a ++ e :: b)) s s' ts.
Proof.
  intros a e b s s' ts [G (ts0 & G0)] A C.
  assert (ev (fun n => exists r, (let* m := tries (run n) (a ++ e :: b) s in Ok (sort_matches m)) = Ok ((String.length s', e) :: r))) as T.
  { eapply ev_two; [exact (tries_beaten _ _ _ _ A)|eapply ev_two; [exact G0|exact (tries_beaten _ _ _ _ C)|]|].
    - intros n X Y. exact (conj X Y).
    - intros n (m1 & E1 & F1) (X & m2 & E2 & F2). rewrite tries_app, E1. cbn [bind tries]. rewrite X, E2. cbn [bind].
      destruct (sort_best m1 (String.length s', e) m2 F1 F2) as [r E]. exists r. now rewrite E. }
  assert (forall n act, run (S n) act (POr (a ++ e :: b)) s = run_or (run n) act (a ++ e :: b) (skip s)) as U by reflexivity.
  assert (forall n l, tries (run n) l (skip s) = tries (run n) l s) as TS.
  { intros n l. induction l as [|x l IH]; [reflexivity|]. cbn [tries]. now rewrite run_skip, IH. }
  split; [apply ev_S; eapply ev_two; [exact T|exact G|]|exists ts0; apply ev_S; eapply ev_two; [exact T|exact G0|]]; intros n (r & E) X; cbn beta in *; rewrite U; unfold run_or;
    rewrite TS; destruct (tries (run n) (a ++ e :: b) s) as [m|]; try discriminate; cbn [bind] in E; injection E as ->.
  - cbn [longest]. rewrite run_skip, X, Nat.leb_refl. reflexivity.
  - now rewrite run_skip.
Qed.
Lemma fail_or : forall l s, Forall (fun e => Fail e s) l -> Fail (POr l) s.
Proof.
  intros l s F act. apply ev_S.
  assert (ev (fun n => tries (run n) l (skip s) = Ok [])) as T.
  { induction F as [|e l X _ IH]; [now apply ev_all|]. eapply ev_two; [apply (X false)|exact IH|]. intros n Y E.
    cbn beta in *. cbn [tries]. now rewrite run_skip, Y. }
  eapply ev_one; [exact T|]. intros n E. cbn beta in *. cbn [run step]. unfold run_or. now rewrite E.
Qed.

(** * First characters *)

Inductive cls : Type := COne (c : ascii) | CUp | CLow | CDig | CNone.
Definition in_cls (k : cls) (c : ascii) : bool :=
  match k with
  | COne d => Ascii.eqb c d | CUp => is_upper c | CLow => is_lower c | CDig => is_digit c | CNone => true
  end.
Definition disjoint (a b : cls) : bool :=
  match a, b with
  | CNone, _ | _, CNone => false
  | COne c, x => negb (in_cls x c)
  | x, COne c => negb (in_cls x c)
  | CUp, CUp | CLow, CLow | CDig, CDig => false
  | _, _ => true
  end.
Lemma disjoint_ok : forall a b c, disjoint a b = true -> in_cls a c = true -> in_cls b c = true -> False.
Proof.
  assert (forall c, is_upper c = true -> is_lower c = true -> False) as UL by (intros [[] [] [] [] [] [] [] []]; vm_compute; congruence).
  assert (forall c, is_upper c = true -> is_digit c = true -> False) as UD by (intros [[] [] [] [] [] [] [] []]; vm_compute; congruence).
  assert (forall c, is_lower c = true -> is_digit c = true -> False) as LD by (intros [[] [] [] [] [] [] [] []]; vm_compute; congruence).
  intros [x| | | |] [y| | | |] c E P Q; cbn [disjoint in_cls] in *; try discriminate E;
    first [exact (UL c P Q)|exact (UL c Q P)|exact (UD c P Q)|exact (UD c Q P)|exact (LD c P Q)|exact (LD c Q P)
          |apply Ascii.eqb_eq in P; subst c; rewrite Q in E; discriminate
          |apply Ascii.eqb_eq in Q; subst c; rewrite P in E; discriminate].
Qed.

Definition head_cls (s : string) : cls := match s with String c _ => COne c | EmptyString => CNone end.
Definition tok_cls (t : token) : cls :=
  match t with
  | K s => head_cls s | R _ => CUp | I _ => CLow | D _ => CDig | B _ | H _ => COne "'"
  end.
Definition term_cls (t : terminal) : cls :=
  match t with
  | ULit l => head_cls l
  | UType | UEncoding => CUp | UIdent => CLow | UNumber | UReal => CDig | UBits | UHex => COne "'" | UChars => COne """"
  end.

Lemma tok_first : forall t s, proper t = true -> exists c r, (t_text t ++ s)%string = String c r /\ in_cls (tok_cls t) c = true.
Proof.
  intros [k|k|k|k|k|k] s P; cbn [proper t_text tok_cls] in *; try (destruct k as [|c k]; [discriminate|]);
    cbn [append head_cls type_word value_word starts] in *; eexists; eexists; (split; [reflexivity|]); cbn [in_cls];
    try apply Ascii.eqb_refl; try reflexivity; now apply andb_prop in P as [P _].
Qed.
Lemma word_first : forall f g c s x, word f g (String c s) = Some x -> f c = true.
Proof. intros f g c s x. cbn [word]. destruct (f c); [reflexivity|discriminate]. Qed.
Lemma quoted_first : forall q f k c s x, quoted q f k (String c s) = Some x -> Ascii.eqb c q = true.
Proof. intros q f k c s x. cbn [quoted]. destruct (Ascii.eqb c q); [reflexivity|discriminate]. Qed.
Lemma term_first : forall t c s x, term t (String c s) = Some x -> in_cls (term_cls t) c = true.
Proof.
  intros [l| | | | | | | |] c s x T; cbn [term term_cls in_cls] in *; try (now apply word_first in T); try (now apply quoted_first in T).
  - destruct l as [|d l]; [reflexivity|]. cbn [prefixed head_cls in_cls] in *. rewrite Ascii.eqb_sym.
    destruct (Ascii.eqb d c); [reflexivity|discriminate].
  - unfold real in T. destruct (word is_digit is_digit (String c s)) as [[a b]|] eqn:W; [|discriminate]. now apply word_first in W.
Qed.

Fixpoint clash (l s : string) : bool :=
  match l, s with
  | String c l', String d s' => if Ascii.eqb c d then clash l' s' else true
  | _, _ => false
  end.
Lemma clash_ok : forall l s x, clash l s = true -> prefixed l (s ++ x) = None.
Proof.
  induction l as [|c l IH]; intros [|d s] x C; try discriminate. cbn [clash append prefixed] in *.
  destruct (Ascii.eqb c d); [now apply IH|reflexivity].
Qed.
(** What is left of [l] behind its beginning [s]. *)
Fixpoint left_over (l s : string) : string :=
  match s, l with
  | EmptyString, _ => l
  | String d s', String c l' => if Ascii.eqb c d then left_over l' s' else EmptyString
  | _, EmptyString => EmptyString
  end.
Lemma left_over_ok : forall s l x, left_over l s <> "" -> prefixed l (s ++ x) = prefixed (left_over l s) x.
Proof.
  induction s as [|d s IH]; intros l x N; [now destruct l|]. destruct l as [|c l]; cbn [left_over] in *; [now elim N|].
  cbn [append prefixed]. destruct (Ascii.eqb c d); [now apply IH|now elim N].
Qed.
Lemma cross : forall rem g y c r, skip rem = String c r -> blank g -> starts is_white y = false ->
  starts (Ascii.eqb c) y = false -> prefixed rem (g ++ y) = None.
Proof.
  induction rem as [|d rem IH]; intros g y c r E G W N; [discriminate|]. cbn [skip] in E. unfold blank in G.
  destruct (is_white d) eqn:WD.
  - destruct g as [|e g]; cbn [append].
    + destruct y as [|f y]; [reflexivity|]. cbn [prefixed starts] in *. destruct (Ascii.eqb_spec d f) as [->|]; [congruence|reflexivity].
    + cbn [prefixed]. cbn [all_chars] in G. apply andb_prop in G as [_ G].
      destruct (Ascii.eqb d e); [now apply (IH g y c r)|reflexivity].
  - injection E as -> ->. destruct g as [|e g]; cbn [append].
    + destruct y as [|f y]; [reflexivity|]. cbn [prefixed starts] in *. now rewrite N.
    + cbn [prefixed]. cbn [all_chars] in G. apply andb_prop in G as [G _].
      destruct (Ascii.eqb_spec c e) as [->|]; [congruence|reflexivity].
Qed.

(** ** Quoted texts *)

Lemma span_quote : forall f s q z, f q = false -> all_chars (fun c => negb (Ascii.eqb c q)) s = true ->
  span f (s ++ String q z) = (s, String q z) \/
  exists a c b, span f (s ++ String q z) = (a, String c b) /\ Ascii.eqb q c = false.
Proof.
  intros f s q z Q. induction s as [|c s IH]; intros A.
  - left. cbn [append span]. now rewrite Q.
  - cbn [all_chars] in A. apply andb_prop in A as [N A]. cbn [append span]. destruct (f c).
    + destruct (IH A) as [->|(a & d & b & -> & E)]; [now left|right; eauto 6].
    + right. exists "", c, (s ++ String q z)%string. split; [reflexivity|]. apply negb_true_iff in N. now rewrite Ascii.eqb_sym.
Qed.
Lemma all_weaken : forall (f g : ascii -> bool) s, (forall c, f c = true -> g c = true) -> all_chars f s = true -> all_chars g s = true.
Proof.
  intros f g s W. induction s as [|c s IH]; [reflexivity|]. cbn [all_chars]. intros A. apply andb_prop in A as [X Y].
  now rewrite (W c X), (IH Y).
Qed.
Lemma bit_hex : forall c, is_bit c = true -> is_hex c = true.
Proof. intros [[] [] [] [] [] [] [] []]; vm_compute; congruence. Qed.
Lemma hex_no_quote : forall c, is_hex c = true -> negb (Ascii.eqb c "'") = true.
Proof. intros [[] [] [] [] [] [] [] []]; vm_compute; congruence. Qed.

Lemma term_bits : forall s x, all_chars is_bit s = true -> term UBits ("'" ++ s ++ "'B" ++ x) = Some ("'" ++ s ++ "'B", x)%string.
Proof.
  intros s x A. cbn [term]. unfold quoted. cbn [append]. rewrite Ascii.eqb_refl, span_all; [|apply (all_weaken is_bit); [intros c ->; reflexivity|exact A]|reflexivity].
  cbn [prefixed]. rewrite !Ascii.eqb_refl. reflexivity.
Qed.
Lemma term_hex : forall s x, all_chars is_hex s = true -> term UHex ("'" ++ s ++ "'H" ++ x) = Some ("'" ++ s ++ "'H", x)%string.
Proof.
  intros s x A. cbn [term]. unfold quoted. cbn [append]. rewrite Ascii.eqb_refl, span_all; [|apply (all_weaken is_hex); [intros c ->; reflexivity|exact A]|reflexivity].
  cbn [prefixed]. rewrite !Ascii.eqb_refl. reflexivity.
Qed.
Lemma bits_not_hex : forall s x, all_chars is_hex s = true -> term UBits ("'" ++ s ++ "'H" ++ x) = None.
Proof.
  intros s x A. cbn [term]. unfold quoted. cbn [append]. rewrite Ascii.eqb_refl.
  destruct (span_quote (fun c => is_bit c || is_space c) s "'" (String "H" x) eq_refl) as [->|(a & c & b & -> & N)].
  - apply (all_weaken is_hex); [exact hex_no_quote|exact A].
  - reflexivity.
  - cbn [prefixed]. now rewrite N.
Qed.
Lemma hex_not_bits : forall s x, all_chars is_bit s = true -> term UHex ("'" ++ s ++ "'B" ++ x) = None.
Proof.
  intros s x A. cbn [term]. unfold quoted. cbn [append]. rewrite Ascii.eqb_refl.
  destruct (span_quote (fun c => is_hex c || is_space c) s "'" (String "B" x) eq_refl) as [->|(a & c & b & -> & N)].
  - apply (all_weaken is_bit); [|exact A]. intros c X. now apply hex_no_quote, bit_hex.
  - reflexivity.
  - cbn [prefixed]. now rewrite N.
Qed.

(** * Terminals that do not match an item *)

Definition misses (t : terminal) (k : token) (nx : option token) : bool :=
  disjoint (term_cls t) (tok_cls k) ||
  match t, k with
  | ULit l, K s =>
    clash l s ||
    match nx with
    | Some u => match skip (left_over l s) with
                | String c _ => disjoint (COne c) (tok_cls u)
                | EmptyString => false
                end
    | None => false
    end
  | UReal, D _ =>
    match nx with
    | Some u => disjoint (COne ".") (tok_cls u) || String.eqb (t_text u) ".."
    | None => false
    end
  | UBits, H _ | UHex, B _ => true
  | _, _ => false
  end.

Lemma laid_next : forall u l s r, laid (u :: l) s r -> exists g x, s = (g ++ x)%string /\ blank g /\ starts is_white x = false /\
  (forall c, disjoint (COne c) (tok_cls u) = true -> starts (Ascii.eqb c) x = false) /\ x = (t_text u ++ after [u] s)%string.
Proof.
  intros u l s r L. pose proof (laid_inv _ _ _ _ L) as (E & P & _ & _). destruct (skip_split s) as (g & G & E').
  exists g, (skip s). split; [exact E'|]. split; [exact G|]. rewrite E. split; [now apply proper_solid|]. split; [|reflexivity].
  intros c X. destruct (tok_first u (after [u] s) P) as (d & q & -> & Y). cbn [starts].
  destruct (Ascii.eqb_spec c d) as [<-|]; [|reflexivity]. exfalso. apply (disjoint_ok _ _ c X); [apply Ascii.eqb_refl|exact Y].
Qed.

Lemma misses_ok : forall t k l s r, misses t k (hd_error l) = true -> laid (k :: l) s r -> term t (skip s) = None.
Proof.
  intros t k l s r M L. destruct (laid_inv _ _ _ _ L) as (E & P & A & L'). rewrite E. unfold misses in M.
  apply orb_prop in M as [M|M].
  { destruct (tok_first k (after [k] s) P) as (c & q & -> & Y). destruct (term t (String c q)) as [x|] eqn:T; [|reflexivity].
    exfalso. exact (disjoint_ok _ _ c M (term_first _ _ _ _ T) Y). }
  destruct t as [m| | | | | | | |]; try discriminate; destruct k as [k|k|k|k|k|k]; try discriminate.
  - cbn [term t_text]. apply orb_prop in M as [M|M]; [now rewrite clash_ok|].
    destruct l as [|u l]; [discriminate|]. cbn [hd_error] in M.
    destruct (laid_next _ _ _ _ L') as (g & x & -> & G & W & N & _).
    destruct (skip (left_over m k)) as [|c q] eqn:S; [discriminate|]. rewrite left_over_ok.
    + rewrite (cross _ g x c q S G W); [reflexivity|]. now apply N.
    + intros Z'. rewrite Z' in S. discriminate.
  - cbn [term t_text]. destruct l as [|u l]; [discriminate|]. cbn [hd_error] in M. cbn [proper] in P. apply andb_prop in P as [P1 P2].
    assert (starts is_digit (after [D k] s) = false) as ND.
    { specialize (A eq_refl). destruct (after [D k] s) as [|c q]; [reflexivity|]. cbn [starts] in *. unfold is_word in A.
      destruct (is_digit c); [|reflexivity]. rewrite !orb_true_r in A. discriminate. }
    unfold real. destruct k as [|c k]; [discriminate|]. cbn [append word]. cbn [starts] in P1. rewrite P1.
    cbn [all_chars] in P2. rewrite P1 in P2. cbn [andb] in P2. rewrite (span_all _ _ _ P2 ND).
    destruct (laid_next _ _ _ _ L') as (g & x & E' & G & W & N & X). rewrite E'. rewrite E' in X. clear E E' A ND L L'.
    destruct g as [|d g].
    + cbn [append] in *. destruct x as [|d x]; [reflexivity|]. destruct (Ascii.eqb_spec d ".") as [->|]; [|reflexivity].
      apply orb_prop in M as [M|M].
      * specialize (N "."%char M). cbn [starts] in N. discriminate.
      * apply String.eqb_eq in M. rewrite M in X. cbn [append] in X. injection X as X. rewrite X. reflexivity.
    + cbn [append]. unfold blank in G. cbn [all_chars] in G. apply andb_prop in G as [G _].
      destruct (Ascii.eqb_spec d ".") as [->|]; [discriminate|reflexivity].
  - cbn [t_text]. rewrite !app_assoc_s. now apply bits_not_hex.
  - cbn [t_text]. rewrite !app_assoc_s. now apply hex_not_bits.
Qed.

(** Expressions that cannot match, by their first item and the one behind it. *)
Fixpoint dead (n : nat) (e : pexp) (k : token) (nx : option token) : bool :=
  match n with
  | O => false
  | S n' =>
    match e with
    | PTerm t => misses t k nx
    | PSup e | PGroup e | PAct _ e | PMore e => dead n' e k nx
    | PAnd (e :: _) => dead n' e k nx
    | POr l => forallb (fun e => dead n' e k nx) l
    | PRule r => dead n' (body r) k nx
    | PNest => disjoint (COne "(") (tok_cls k)
    | PEmpty | PMany _ | POpt _ | PAnd [] => false
    end
  end.
Lemma fail_nest : forall s, starts (Ascii.eqb "(") (skip s) = false -> Fail PNest s.
Proof.
  intros s N act. apply ev_S, ev_all. intros n. cbn [run step]. destruct (skip s) as [|c q]; [reflexivity|].
  cbn [starts] in N. rewrite Ascii.eqb_sym in N. now rewrite N.
Qed.
Lemma dead_fail : forall n e k l s r, dead n e k (hd_error l) = true -> laid (k :: l) s r -> Fail e s.
Proof.
  induction n as [|n IH]; [discriminate|]. intros e k l s r X L. destruct e; cbn [dead] in X; try discriminate.
  - apply fail_term. exact (misses_ok _ _ _ _ _ X L).
  - apply fail_sup. exact (IH _ _ _ _ _ X L).
  - destruct l0 as [|e l0]; [discriminate|]. apply fail_and, ands_fail. exact (IH _ _ _ _ _ X L).
  - apply fail_or. apply Forall_forall. intros e I'. rewrite forallb_forall in X. exact (IH _ _ _ _ _ (X e I') L).
  - apply fail_more. exact (IH _ _ _ _ _ X L).
  - apply fail_group. exact (IH _ _ _ _ _ X L).
  - apply fail_act. exact (IH _ _ _ _ _ X L).
  - apply fail_rule. exact (IH _ _ _ _ _ X L).
  - apply fail_nest. destruct (laid_inv _ _ _ _ L) as (E & P & _ & _). rewrite E.
    destruct (tok_first k (after [k] s) P) as (c & q & -> & Y). cbn [starts]. destruct (Ascii.eqb_spec "(" c) as [<-|]; [|reflexivity].
    exfalso. exact (disjoint_ok _ _ "("%char X (Ascii.eqb_refl _) Y).
Qed.

(** * Expressions on lists of items *)

(** A match ends right behind its last item or, when something empty came last,
    behind the blanks that follow. *)
Inductive pos : Type := Tight | Skipped.
Definition cut (b : pos) (c : list token) (s : string) : string :=
  match b with Tight => after c s | Skipped => skip (after c s) end.

(** [Yes e l l' b ts]: on every text made of [l] the expression matches up to the
    items [l'] and gives [ts]. *)
Definition Yes (e : pexp) (l l' : list token) (b : pos) (ts : list tok) : Prop :=
  exists c, l = c ++ l' /\ forall s r, laid l s r -> Got e s (cut b c s) ts.
Definition All (es : list pexp) (l l' : list token) (b : pos) (ts : list tok) : Prop :=
  exists c, l = c ++ l' /\ forall s r, laid l s r -> Ands es s (cut b c s) ts.
Definition No (e : pexp) (l : list token) : Prop := forall s r, laid l s r -> Fail e s.
Definition AllNo (es : list pexp) (l : list token) : Prop := forall s r, laid l s r -> AndsFail es s.
Definition Loses (strict : bool) (p : pos) (l l' : list token) (e : pexp) : Prop :=
  forall c, l = c ++ l' -> forall s r, laid l s r -> Beaten strict (String.length (cut p c s)) s e.
Definition Reads (e : pexp) (l l' : list token) (b : pos) (ts : list tok) : Prop :=
  exists c, l = c ++ l' /\ forall s r, laid l s r -> Reps e s (cut b c s) ts.

Lemma after_cat : forall a x b s r, laid (a ++ x) s r -> after (a ++ b) s = after b (after a s).
Proof.
  induction a as [|t a IH]; intros x b s r L; [reflexivity|]. cbn [app] in L. destruct (laid_inv _ _ _ _ L) as (E & P & _ & L').
  assert (forall y, after (t :: y) s = after y (after [t] s)) as U by (intros y; cbn [after]; now rewrite E, prefixed_app).
  cbn [app]. rewrite (U (a ++ b)), (U a). exact (IH x b _ r L').
Qed.
Lemma laid_cut : forall c t l b s r, laid (c ++ t :: l) s r -> laid (t :: l) (cut b c s) r.
Proof. intros c t l b s r L. destruct (laid_app c (t :: l) s r L) as [L' _]. destruct b; [exact L'|now apply laid_skip]. Qed.
Lemma cut_cut : forall c1 c2 b1 b2 x s r, laid (c1 ++ x) s r -> (b1 = Skipped -> b2 = Tight -> c2 <> []) ->
  cut b2 c2 (cut b1 c1 s) = cut b2 (c1 ++ c2) s.
Proof.
  intros c1 c2 b1 b2 x s r L N. pose proof (after_cat c1 x c2 s r L) as E. destruct b1; cbn [cut].
  - destruct b2; cbn [cut]; now rewrite E.
  - destruct c2 as [|t c2].
    + destruct b2; [now elim (N eq_refl eq_refl)|]. cbn [cut after]. rewrite app_nil_r. apply skip_skip.
    + destruct b2; cbn [cut]; rewrite after_skip; now rewrite E.
Qed.

Lemma all_last : forall e l l' b ts, Yes e l l' b ts -> All [e] l l' b ts.
Proof.
  intros e l l' b ts (c & E & Y). exists c. split; [exact E|]. intros s r L. rewrite <- (app_nil_r ts).
  eapply ands_cons; [exact (Y s r L)|apply ands_nil].
Qed.
Lemma all_cons : forall e es l l1 l2 b1 b2 a b, Yes e l l1 b1 a -> All es l1 l2 b2 b -> l1 <> [] ->
  (b1 = Skipped -> b2 = Tight -> l1 <> l2) -> All (e :: es) l l2 b2 (a ++ b).
Proof.
  intros e es l l1 l2 b1 b2 a b (c1 & E1 & Y1) (c2 & E2 & Y2) N N'. exists (c1 ++ c2). split; [now rewrite E1, E2, app_assoc|].
  intros s r L. eapply ands_cons; [exact (Y1 s r L)|]. rewrite E1 in L. rewrite <- (cut_cut c1 c2 b1 b2 l1 s r L).
  - destruct l1 as [|t l1]; [now elim N|]. apply (Y2 _ r). now apply laid_cut.
  - intros X Y ->. now apply (N' X Y).
Qed.
Lemma allno_now : forall e es l, No e l -> AllNo (e :: es) l.
Proof. intros e es l F s r L. apply ands_fail. exact (F s r L). Qed.
Lemma allno_later : forall e es l l1 b a, Yes e l l1 b a -> AllNo es l1 -> l1 <> [] -> AllNo (e :: es) l.
Proof.
  intros e es l l1 b a (c1 & E1 & Y1) F N s r L. eapply ands_later; [exact (Y1 s r L)|]. rewrite E1 in L.
  destruct l1 as [|t l1]; [now elim N|]. apply (F _ r). now apply laid_cut.
Qed.
Lemma yes_and : forall e es l l' b ts, All (e :: es) l l' b ts -> Yes (PAnd (e :: es)) l l' b ts.
Proof. intros e es l l' b ts (c & E & Y). exists c. split; [exact E|]. intros s r L. apply got_and, (Y s r L). Qed.
Lemma no_and : forall e es l, AllNo (e :: es) l -> No (PAnd (e :: es)) l.
Proof. intros e es l F s r L. apply fail_and, (F s r L). Qed.

Lemma yes_sup : forall e l l' b ts, Yes e l l' b ts -> Yes (PSup e) l l' b [].
Proof. intros e l l' b ts (c & E & Y). exists c. split; [exact E|]. intros s r L. exact (got_sup _ _ _ _ (Y s r L)). Qed.
Lemma yes_group : forall e l l' b ts, Yes e l l' b ts -> Yes (PGroup e) l l' b [Grp ts].
Proof. intros e l l' b ts (c & E & Y). exists c. split; [exact E|]. intros s r L. exact (got_group _ _ _ _ (Y s r L)). Qed.
Lemma yes_act : forall a e l l' b ts ts', a <> ToConstraint -> Yes e l l' b ts -> act_on a ts = Ok ts' -> Yes (PAct a e) l l' b ts'.
Proof.
  intros a e l l' b ts ts' N (c & E & Y) X. exists c. split; [exact E|]. intros s r L. exact (got_act _ _ _ _ _ _ N (Y s r L) X).
Qed.
Lemma yes_rule : forall q l l' b ts, Yes (body q) l l' b ts -> Yes (PRule q) l l' b ts.
Proof. intros q l l' b ts (c & E & Y). exists c. split; [exact E|]. intros s r L. exact (got_rule _ _ _ _ (Y s r L)). Qed.
Lemma yes_opt : forall e l l' b ts, Yes e l l' b ts -> Yes (POpt e) l l' b ts.
Proof. intros e l l' b ts (c & E & Y). exists c. split; [exact E|]. intros s r L. exact (got_opt _ _ _ _ (Y s r L)). Qed.
Lemma yes_opt_none : forall e l, No e l -> Yes (POpt e) l l Skipped [].
Proof. intros e l F. exists []. split; [reflexivity|]. intros s r L. exact (got_opt_none _ _ (F s r L)). Qed.
Lemma yes_empty : forall l, Yes PEmpty l l Skipped [].
Proof. intros l. exists []. split; [reflexivity|]. intros s r L. apply got_empty. Qed.
Lemma no_group : forall e l, No e l -> No (PGroup e) l.
Proof. intros e l F s r L. exact (fail_group _ _ (F s r L)). Qed.
Lemma no_act : forall a e l, No e l -> No (PAct a e) l.
Proof. intros a e l F s r L. exact (fail_act _ _ _ (F s r L)). Qed.
Lemma no_rule : forall q l, No (body q) l -> No (PRule q) l.
Proof. intros q l F s r L. exact (fail_rule _ _ (F s r L)). Qed.
Lemma no_or : forall es l, Forall (fun e => No e l) es -> No (POr es) l.
Proof. intros es l F s r L. apply fail_or. eapply Forall_impl; [|exact F]. intros e X. exact (X s r L). Qed.
Lemma no_dead : forall n e k l, dead n e k (hd_error l) = true -> No e (k :: l).
Proof. intros n e k l X s r L. exact (dead_fail n e k l s r X L). Qed.

(** Alternatives. *)
Lemma yes_or : forall es1 e es2 l l' b ts, Yes e l l' b ts -> Forall (Loses true b l l') es1 -> Forall (Loses false b l l') es2 ->
  Yes (POr (es1 ++ e :: es2)) l l' b ts.
Proof.
  intros es1 e es2 l l' b ts (c & E & Y) A C. exists c. split; [exact E|]. intros s r L.
  apply got_or; [exact (Y s r L)|..].
  - eapply Forall_impl; [|exact A]. intros x X. exact (X c E s r L).
  - eapply Forall_impl; [|exact C]. intros x X. exact (X c E s r L).
Qed.
Lemma loses_no : forall b p l l' e, No e l -> Loses b p l l' e.
Proof. intros b p l l' e F c E s r L. apply beaten_fail, (F s r L). Qed.
Lemma loses_dead : forall n b p k l l' e, dead n e k (hd_error l) = true -> Loses b p (k :: l) l' e.
Proof. intros n b p k l l' e X. apply loses_no. exact (no_dead _ _ _ _ X). Qed.
Lemma cut_le : forall b c s, String.length (cut b c s) <= String.length (after c s).
Proof. intros [|] c s; [apply Nat.le_refl|apply skip_length]. Qed.
Lemma loses_less : forall b q e l t m l' p ts, Yes e l (t :: m ++ l') p ts -> Loses b q l l' e.
Proof.
  intros b q e l t m l' p ts (c & E & Y) c' E' s r L.
  assert (c' = c ++ t :: m) as ->. { rewrite E in E'. apply (app_inv_tail l'). rewrite <- E', <- app_assoc. reflexivity. }
  apply (beaten_got _ _ _ _ _ _ (Y s r L)). pose proof (cut_le q (c ++ t :: m) s) as Q.
  assert (String.length (after (c ++ t :: m) s) < String.length (cut p c s)) as X; [|destruct b; lia].
  rewrite E in L. rewrite (after_cat c _ (t :: m) s r L). pose proof (laid_cut c t (m ++ l') p s r L) as L1.
  destruct (laid_inv _ _ _ _ L1) as (U & P & _ & L2). pose proof (laid_shorter _ _ _ _ L1) as S1.
  pose proof (after_shorter m _ l' r L2) as S2. pose proof (skip_length (cut p c s)) as S3.
  replace (after (t :: m) (after c s)) with (after m (after [t] (cut p c s))); [lia|].
  destruct p; cbn [cut] in *.
  - cbn [after]. rewrite U, prefixed_app. reflexivity.
  - rewrite <- (after_skip t m). cbn [after]. rewrite U, prefixed_app. reflexivity.
Qed.
Lemma loses_same : forall p e l l' ts, Yes e l l' p ts -> Loses false p l l' e.
Proof.
  intros p e l l' ts (c & E & Y) c' E' s r L. assert (c' = c) as -> by (apply (app_inv_tail l'); congruence).
  apply (beaten_got _ _ _ _ _ _ (Y s r L)). apply Nat.le_refl.
Qed.

(** Repetition. *)
Lemma reads_last : forall e l l1 b a, Yes e l l1 b a -> No e l1 -> l1 <> [] -> Reads e l l1 b a.
Proof.
  intros e l l1 b a (c & E & Y) F N. exists c. split; [exact E|]. intros s r L. rewrite <- (app_nil_r a).
  eapply reps_cons; [exact (Y s r L)|]. apply reps_nil. rewrite E in L. destruct l1 as [|t l1]; [now elim N|].
  apply (F _ r). now apply laid_cut.
Qed.
Lemma reads_cons : forall e l l1 l2 b1 b2 a b, Yes e l l1 b1 a -> Reads e l1 l2 b2 b -> l1 <> [] ->
  (b1 = Skipped -> b2 = Tight -> l1 <> l2) -> Reads e l l2 b2 (a ++ b).
Proof.
  intros e l l1 l2 b1 b2 a b (c1 & E1 & Y1) (c2 & E2 & Y2) N N'. exists (c1 ++ c2). split; [now rewrite E1, E2, app_assoc|].
  intros s r L. eapply reps_cons; [exact (Y1 s r L)|]. rewrite E1 in L. rewrite <- (cut_cut c1 c2 b1 b2 l1 s r L).
  - destruct l1 as [|t l1]; [now elim N|]. apply (Y2 _ r). now apply laid_cut.
  - intros X Y ->. now apply (N' X Y).
Qed.
Lemma yes_reads : forall e l l1 l2 b1 b2 a b, Yes e l l1 b1 a -> Reads e l1 l2 b2 b -> l1 <> [] ->
  (b1 = Skipped -> b2 = Tight -> l1 <> l2) ->
  Yes (PMany e) l l2 b2 (a ++ b) /\ Yes (PMore e) l l2 b2 (a ++ b).
Proof.
  intros e l l1 l2 b1 b2 a b (c1 & E1 & Y1) (c2 & E2 & Y2) N N'.
  assert (forall s r, laid l s r -> Reps e (cut b1 c1 s) (cut b2 (c1 ++ c2) s) b) as Q.
  { intros s r L. rewrite E1 in L. rewrite <- (cut_cut c1 c2 b1 b2 l1 s r L).
    - destruct l1 as [|t l1]; [now elim N|]. apply (Y2 _ r). now apply laid_cut.
    - intros X Y ->. now apply (N' X Y). }
  split; (exists (c1 ++ c2); split; [now rewrite E1, E2, app_assoc|]); intros s r L.
  - eapply got_many; [exact (Y1 s r L)|exact (Q s r L)].
  - eapply got_more; [exact (Y1 s r L)|exact (Q s r L)].
Qed.
Lemma yes_once : forall e l l1 b a, Yes e l l1 b a -> No e l1 -> l1 <> [] -> Yes (PMany e) l l1 b a /\ Yes (PMore e) l l1 b a.
Proof.
  intros e l l1 b a (c & E & Y) F N.
  assert (forall s r, laid l s r -> Reps e (cut b c s) (cut b c s) []) as Q.
  { intros s r L. apply reps_nil. rewrite E in L. destruct l1 as [|t l1]; [now elim N|]. apply (F _ r). now apply laid_cut. }
  split; (exists c; split; [exact E|]); intros s r L; rewrite <- (app_nil_r a).
  - eapply got_many; [exact (Y s r L)|exact (Q s r L)].
  - eapply got_more; [exact (Y s r L)|exact (Q s r L)].
Qed.
Lemma yes_many_none : forall e l, No e l -> Yes (PMany e) l l Skipped [].
Proof. intros e l F. exists []. split; [reflexivity|]. intros s r L. exact (got_many_none _ _ (F s r L)). Qed.

(** Terminals. *)
Lemma yes_term : forall t k l m, (forall s r, laid (k :: l) s r -> term t (skip s) = Some (m, after [k] s)) ->
  Yes (PTerm t) (k :: l) l Tight [Str m].
Proof. intros t k l m T. exists [k]. split; [reflexivity|]. intros s r L. apply got_term. exact (T s r L). Qed.
Lemma yes_lit : forall k l, Yes (lit k) (K k :: l) l Tight [Str k].
Proof.
  intros k l. apply yes_term. intros s r L. destruct (laid_inv _ _ _ _ L) as (E & _). rewrite E. cbn [term t_text]. now rewrite prefixed_app.
Qed.
Lemma word_is : forall s, all_chars word_char s = all_chars is_word s.
Proof. reflexivity. Qed.
Lemma yes_type : forall k l, Yes typereference (R k :: l) l Tight [Str k].
Proof.
  intros k l. apply yes_term. intros s r L. destruct (laid_inv _ _ _ _ L) as (E & P & A & _). rewrite E. cbn [term t_text proper] in *.
  destruct k as [|c k]; [discriminate|]. cbn [type_word] in P. apply andb_prop in P as [P1 P2]. cbn [append word]. rewrite P1.
  now rewrite (span_all is_word _ _ P2 (A eq_refl)).
Qed.
Lemma yes_type_word : forall k l, type_word k = true -> Yes typereference (K k :: l) l Tight [Str k].
Proof.
  intros k l P. apply yes_term. intros s r L. destruct (laid_inv _ _ _ _ L) as (E & _ & A & _). rewrite E. cbn [term t_text].
  destruct k as [|c k]; [discriminate|]. cbn [type_word] in P. apply andb_prop in P as [P1 P2]. cbn [append word]. rewrite P1.
  unfold apart in A. cbn [wordy starts] in A. rewrite P1 in A. now rewrite (span_all is_word _ _ P2 (A eq_refl)).
Qed.
Lemma yes_ident : forall k l, Yes identifier (I k :: l) l Tight [Str k].
Proof.
  intros k l. apply yes_term. intros s r L. destruct (laid_inv _ _ _ _ L) as (E & P & A & _). rewrite E. cbn [term t_text proper] in *.
  destruct k as [|c k]; [discriminate|]. cbn [value_word] in P. apply andb_prop in P as [P1 P2]. cbn [append word]. rewrite P1.
  now rewrite (span_all is_word _ _ P2 (A eq_refl)).
Qed.
Lemma yes_number : forall k l, Yes number (D k :: l) l Tight [Str k].
Proof.
  intros k l. apply yes_term. intros s r L. destruct (laid_inv _ _ _ _ L) as (E & P & A & _). rewrite E. cbn [term t_text proper] in *.
  destruct k as [|c k]; [discriminate|]. apply andb_prop in P as [P1 P2]. cbn [starts all_chars] in *. rewrite P1 in P2. cbn [andb] in P2.
  cbn [append word]. rewrite P1. rewrite (span_all _ _ _ P2); [reflexivity|].
  specialize (A eq_refl). destruct (after [D (String c k)] s) as [|d q]; [reflexivity|]. cbn [starts] in *. unfold is_word in A.
  destruct (is_digit d); [|reflexivity]. rewrite !orb_true_r in A. discriminate.
Qed.
Lemma yes_bits : forall k l, Yes (PTerm UBits) (B k :: l) l Tight [Str (t_text (B k))].
Proof.
  intros k l. apply yes_term. intros s r L. destruct (laid_inv _ _ _ _ L) as (E & P & _). rewrite E. cbn [t_text]. rewrite !app_assoc_s.
  now apply term_bits.
Qed.
Lemma yes_hex : forall k l, Yes (PTerm UHex) (H k :: l) l Tight [Str (t_text (H k))].
Proof.
  intros k l. apply yes_term. intros s r L. destruct (laid_inv _ _ _ _ L) as (E & P & _). rewrite E. cbn [t_text]. rewrite !app_assoc_s.
  now apply term_hex.
Qed.

(** A text of two words is also two items. *)
Lemma laid_split : forall a z l s r, starts (fun c => is_upper c || is_lower c) a = true ->
  starts (fun c => is_upper c || is_lower c) z = true ->
  laid (K (a ++ " " ++ z) :: l) s r -> laid (K a :: K z :: l) s r /\ (forall m, after (K (a ++ " " ++ z) :: m) s = after (K a :: K z :: m) s).
Proof.
  intros a z l s r A Z' L. inversion L as [|g t' l' s' r' BL P AP L']; subst.
  cbn [proper] in P. apply andb_prop in P as [_ P].
  assert (forall f x y, all_chars f (x ++ y) = all_chars f x && all_chars f y) as AC.
  { intros f x y. induction x as [|c x IH]; [reflexivity|]. cbn [append all_chars]. rewrite IH. now rewrite andb_assoc. }
  rewrite !AC in P. apply andb_prop in P as [PA P]. apply andb_prop in P as [_ PZ].
  assert (forall k, starts (fun c => is_upper c || is_lower c) k = true -> all_chars (fun c => negb (is_white c) || Ascii.eqb c " ") k = true -> proper (K k) = true) as W'.
  { intros [|c k]; [discriminate|]. cbn [starts proper]. intros X ->. rewrite andb_true_r.
    apply orb_prop in X as [X|X]; [now rewrite (upper_solid _ X)|now rewrite (lower_solid _ X)]. }
  pose proof (fun X => W' a X PA) as WA. pose proof (fun X => W' z X PZ) as WZ.
  assert (laid (K z :: l) (" " ++ z ++ s')%string r) as LZ.
  { apply (laid_cons " " (K z) l s' r eq_refl (WZ Z')); [|exact L']. intros _. apply AP. cbn [wordy]. destruct a; [discriminate|exact A]. }
  assert (laid (K a :: K z :: l) (g ++ a ++ (" " ++ z ++ s'))%string r) as LA.
  { apply (laid_cons g (K a) _ _ r BL (WA A)); [|exact LZ]. intros _. reflexivity. }
  change (String " " z) with (" " ++ z)%string in *.
  assert ((g ++ t_text (K (a ++ " " ++ z)) ++ s')%string = (g ++ a ++ (" " ++ z ++ s'))%string) as -> by (cbn [t_text]; now rewrite !app_assoc_s).
  split; [exact LA|]. intros m.
  assert (skip (g ++ a ++ " " ++ z ++ s') = (a ++ " " ++ z ++ s')%string) as S1.
  { rewrite (skip_blank _ _ BL). exact (skip_solid _ (proper_solid (K a) (" " ++ z ++ s') (WA A))). }
  assert (skip (" " ++ z ++ s') = (z ++ s')%string) as S2 by exact (skip_solid _ (proper_solid (K z) s' (WZ Z'))).
  assert (prefixed (a ++ " " ++ z) (a ++ " " ++ z ++ s') = Some s') as S3.
  { replace (a ++ " " ++ z ++ s')%string with ((a ++ " " ++ z) ++ s')%string by (now rewrite !app_assoc_s). apply prefixed_app. }
  unfold after at 1. fold after. cbn [t_text]. rewrite S1, S3. unfold after at 2. fold after. cbn [t_text]. rewrite S1, prefixed_app, S2, prefixed_app.
  reflexivity.
Qed.
Definition wordlike (a : string) : bool := starts (fun c => is_upper c || is_lower c) a.
Lemma no_split : forall a z l e, wordlike a = true -> wordlike z = true -> No e (K a :: K z :: l) -> No e (K (a ++ " " ++ z) :: l).
Proof. intros a z l e A Z' F s r L. destruct (laid_split a z l s r A Z' L) as [L' _]. exact (F s r L'). Qed.
Lemma loses_split : forall b p a z l m l' e, wordlike a = true -> wordlike z = true -> l = m ++ l' ->
  Loses b p (K a :: K z :: l) l' e -> Loses b p (K (a ++ " " ++ z) :: l) l' e.
Proof.
  intros b p a z l m l' e A Z' -> F c E s r L. destruct (laid_split a z _ s r A Z' L) as [L' Q].
  assert (c = K (a ++ " " ++ z) :: m) as -> by (apply (app_inv_tail l'); now rewrite <- E).
  replace (cut p (K (a ++ " " ++ z) :: m) s) with (cut p (K a :: K z :: m) s) by (destruct p; cbn [cut]; now rewrite Q).
  exact (F (K a :: K z :: m) eq_refl s r L').
Qed.
