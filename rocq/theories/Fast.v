(** The parser of Grammar.v with fewer repetitions; for running it on examples. *)

From Coq Require Import ZArith List String Ascii Bool Arith Lia.
Import ListNotations.
From Verif Require Import PyBase Generator Grammar.

Open Scope string_scope.
Open Scope list_scope.
Open Scope nat_scope.

(** The parser tries every alternative of an Or and then parses the best one
    again; the time is exponential in the depth of the schema.  Without actions
    the second time can be left out: [fast] gives the same answers. *)
Fixpoint best_of (self : bool -> pexp -> string -> outcome (list tok)) (l : list pexp) (s : string)
  : outcome (list tok) :=
  match l with
  | [] => NoMatch
  | e :: r =>
    match self false e s with
    | Match s1 a => match best_of self r s with
                    | Match s2 b => if String.length s1 <=? String.length s2 then Match s1 a else Match s2 b
                    | NoMatch => Match s1 a
                    | Raise x => Raise x
                    end
    | NoMatch => best_of self r s
    | Raise x => Raise x
    end
  end.
Definition fast_or (self : bool -> pexp -> string -> outcome (list tok)) (act : bool) (l : list pexp) (s : string) :=
  if act then run_or self act l s else best_of self l s.
Fixpoint fast (n : nat) (act : bool) (e : pexp) (s : string) {struct n} : outcome (list tok) :=
  match n with
  | O => Raise LoopFuel
  | S n' => step (fast n') (fast_or (fast n')) n' act e (skip s)
  end.

Lemma best_tries : forall self l s,
  match tries self l s with
  | Err x => best_of self l s = Raise x
  | Ok m => match sort_matches m with
            | [] => best_of self l s = NoMatch
            | (n, e) :: _ => exists s1 a, self false e s = Match s1 a /\ n = String.length s1 /\
                                          best_of self l s = Match s1 a
            end
  end.
Proof.
  intros self l s. induction l as [|e r IH]; [reflexivity|]. cbn [tries best_of].
  destruct (self false e s) as [s1 a| |x] eqn:E; [|exact IH|reflexivity].
  destruct (tries self r s) as [m|x]; [|cbn [bind]; now rewrite IH].
  cbn [bind]. unfold sort_matches. cbn [fold_right]. fold (sort_matches m).
  destruct (sort_matches m) as [|[n f] k].
  - cbn [insert_match]. rewrite IH. eauto.
  - cbn [insert_match fst]. destruct IH as (s2 & b & F & -> & ->).
    destruct (String.length s1 <=? String.length s2); eauto.
Qed.
Lemma or_fast : forall self act l s, run_or self act l s = fast_or self act l s.
Proof.
  intros self [|] l s; [reflexivity|]. unfold run_or, fast_or. pose proof (best_tries self l s) as H.
  destruct (tries self l s) as [m|x]; [|now rewrite H]. destruct (sort_matches m) as [|[n e] k]; [now rewrite H|].
  destruct H as (s1 & a & E & _ & ->). exact E.
Qed.

(** The loops depend on the answers only. *)
Section Same.
Variables f g : bool -> pexp -> string -> outcome (list tok).
Hypothesis same : forall act e s, f act e s = g act e s.

Lemma same_and : forall act l s, run_and f act l s = run_and g act l s.
Proof.
  intros act l. induction l as [|e r IH]; [reflexivity|]. intros s. cbn [run_and]. rewrite same.
  destruct (g act e s); [|reflexivity..]. now rewrite IH.
Qed.
Lemma same_more : forall n act e s a, more f n act e s a = more g n act e s a.
Proof.
  induction n as [|n IH]; [reflexivity|]. intros act e s a. cbn [more]. rewrite same.
  destruct (g act e s); [apply IH|reflexivity..].
Qed.
Lemma same_tries : forall l s, tries f l s = tries g l s.
Proof. induction l as [|e r IH]; [reflexivity|]. intros s. cbn [tries]. now rewrite same, IH. Qed.
Lemma same_longest : forall l s b, longest f l s b = longest g l s b.
Proof.
  induction l as [|[n e] r IH]; [reflexivity|]. intros s b. cbn [longest]. rewrite same.
  destruct (match b with Some (b0, _) => String.length b0 <=? n | None => false end); [reflexivity|].
  destruct (g true e s) as [s1 a| |]; [|apply IH|reflexivity]. destruct (String.length s1 <=? n); [reflexivity|apply IH].
Qed.
Lemma same_or : forall act l s, run_or f act l s = run_or g act l s.
Proof.
  intros act l s. unfold run_or. rewrite same_tries. destruct (tries g l s) as [m|]; [|reflexivity].
  destruct (sort_matches m) as [|[n e] k]; [reflexivity|]. destruct act; [apply same_longest|apply same].
Qed.
Lemma same_constraint : forall l, constraint_of (f true g_constraint) l = constraint_of (g true g_constraint) l.
Proof.
  intros l. unfold constraint_of. destruct l; [reflexivity|]. destruct (is_str "SIZE" t); [reflexivity|].
  destruct (join_words (t :: l)); [|reflexivity]. now rewrite same.
Qed.
Lemma same_nested : forall n act s, nested (f true g_constraint) n act s = nested (g true g_constraint) n act s.
Proof.
  induction n as [|n IH]; [reflexivity|]. intros act s. cbn [nested].
  destruct (skip s) as [|c r]; [reflexivity|]. destruct (Ascii.eqb c ")"%char); [reflexivity|].
  destruct (Ascii.eqb c "("%char).
  - rewrite IH. destruct (nested (g true g_constraint) n act r); [|reflexivity..].
    destruct act; [rewrite same_constraint; destruct (constraint_of (g true g_constraint) a)|]; now rewrite ?IH.
  - destruct (is_quote c); [reflexivity|]. destruct (span in_nest (String c r)). now rewrite IH.
Qed.
End Same.

Lemma run_fast : forall n act e s, run n act e s = fast n act e s.
Proof.
  induction n as [|n IH]; [reflexivity|]. intros act e s. cbn [run fast]. generalize (skip s). clear s. intros s.
  destruct e; cbn [step]; rewrite ?IH; try reflexivity.
  - now apply same_and.
  - rewrite (same_or _ _ IH). apply or_fast.
  - destruct (fast n act e s); try reflexivity. now apply same_more.
  - destruct (fast n act e s); try reflexivity. now apply same_more.
  - destruct a; try reflexivity. destruct (fast n act e s); try reflexivity. destruct act; try reflexivity.
    destruct a as [|[] []]; try reflexivity. now rewrite (same_constraint _ _ IH).
  - destruct s; [reflexivity|]. now rewrite (same_nested _ _ IH).
Qed.

(** The last line of read_schema with [fast]. *)
Definition fast_schema (n : nat) (s : string) : outcome (list ptype) :=
  match fast n true g_module (expandtabs 0 (of_codes (remove_comments (to_codes s)))) with
  | Match r l => match only_objs l with Some ps => Match r ps | None => Raise NotModelled end
  | NoMatch => NoMatch
  | Raise x => Raise x
  end.
Lemma read_fast : forall n s, read_schema n s = fast_schema n s.
Proof. intros. unfold read_schema, parse_module, fast_schema. now rewrite run_fast. Qed.
