(** C74 for what the generator writes: the text of a generated module that runs is
    read back as its statements. *)
From Coq Require Import ZArith List String Ascii Bool Arith Lia Permutation DecimalString.
Import ListNotations.
From Verif Require Import PyBase Schema Generator Ordering Emit Exec Meaning Modules Generated Leftovers Grammar Texts Tokens Printed Printing.
Open Scope string_scope.
Open Scope list_scope.
Open Scope nat_scope.

(** * Objects whose names are words and whose values are one line *)

Definition line_opt (o : option string) : bool := match o with Some s => solid s | None => true end.
Definition item_ok (k : kind) (s : string) : bool := match k with KEnum => wordb s || is s "..." | _ => true end.

Fixpoint tidy (p : ptype) : bool :=
  match p with
  | PT k _ id _ _ d v _ ms =>
    wordb id && line_opt d && line_opt v && forallb (fun m => match m with inl s => item_ok k s | inr q => tidy q end) ms
  end.

Lemma tidy_parts p : tidy p = true -> wordb (ident p) = true /\ line_opt (dflt p) = true /\ line_opt (pvalue p) = true /\
  (forall q, In (inr q) (members p) -> tidy q = true) /\ (forall s, In (inl s) (members p) -> item_ok (pkind p) s = true).
Proof.
  destruct p as [k tr id vr o d v c ms]. cbn [tidy ident dflt pvalue members pkind]. rewrite !andb_true_iff, forallb_forall. intros (((A & B0) & C) & F).
  repeat split; auto; [intros q X; exact (F _ X)|intros s X; exact (F _ X)].
Qed.

(** * What the statements are like *)

Definition sh_arg (a : parg) : bool := solid (arg_text a).
Definition sh_expr (e : expr) : bool := match e with New _ (Some a) => sh_arg a | _ => true end.
Definition sh_entry (e : entry) : bool := wordb (e_name e) && sh_expr (e_expr e).
Fixpoint sh_class (c : pclass) : bool :=
  match c with
  | CLeaf _ b _ => mem b leaf_refs
  | CEnum _ b _ root adds => is b "EnumeratedType" && forallb wf_value root && forallb wf_value adds
  | CSeqOf _ b _ _ => is b "SequenceOfType"
  | CComps _ b subs _ root adds groups =>
    (is b "SequenceType" || is b "ChoiceType") && forallb sh_class subs
    && forallb sh_entry root && forallb sh_entry adds && forallb (forallb sh_entry) groups
  end.
Definition sh_stmt (s : stmt) : bool :=
  match s with SClass c => sh_class c | SAlias _ _ => true | SValue _ _ a => sh_arg a end.

Lemma but_last_solid s : solid s = true -> solid (but_last s) = true.
Proof.
  unfold solid. induction s as [|c s IH]; [reflexivity|]. cbn [all_chars but_last]. intros E. apply andb_prop in E as [A E].
  destruct s as [|d s]; [reflexivity|]. cbn [all_chars] in *. rewrite A. now apply IH.
Qed.
Lemma parse_solid k a b : sh_arg a = true -> parse_value k a = Some b -> sh_arg b = true.
Proof.
  intros S0 E. unfold sh_arg in *.
  assert (O : (if ends_with "B" (arg_text a) then Some (ABin (but_last (arg_text a)))
    else if ends_with "H" (arg_text a) then Some (AHex (but_last (arg_text a))) else None) = Some b -> solid (arg_text b) = true).
  { pose proof (but_last_solid _ S0) as L. destruct (ends_with "B" (arg_text a)); [intros X; injection X as <-; cbn [arg_text]; solids|].
    destruct (ends_with "H" (arg_text a)); [|discriminate]. intros X; injection X as <-. cbn [arg_text]. solids. }
  destruct k; cbn [parse_value] in E; try (injection E as <-; assumption); try now apply O.
  - injection E as <-. cbn [arg_text]. now destruct (String.eqb (arg_text a) "TRUE").
  - injection E as <-. cbn [arg_text]. solids.
Qed.

Lemma default_solid p a : tidy p = true -> default_of p = Some a -> sh_arg a = true.
Proof.
  intros T E. destruct (tidy_parts p T) as (_ & D0 & _). unfold default_of in E. destruct (dflt p) as [s|]; [|discriminate]. cbn [line_opt] in D0.
  destruct (String.eqb s ""); [injection E as <-; exact D0|]. eapply parse_solid; [|exact E]. exact D0.
Qed.
Lemma value_solid p a : tidy p = true -> value_of p = Some a -> sh_arg a = true.
Proof.
  intros T E. destruct (tidy_parts p T) as (_ & _ & D0 & _). unfold value_of in E. destruct (pvalue p) as [s|]; [|discriminate]. cbn [line_opt] in D0.
  assert (X : parse_value (pkind p) (ARaw s) = Some a) by (destruct (pkind p); try exact E; destruct (String.eqb s ""); (discriminate || exact E)).
  eapply parse_solid; [|exact X]. exact D0.
Qed.

Lemma entry_shape ts cs k p : tidy p = true -> sh_entry (entry_of ts cs k p) = true.
Proof.
  intros T. destruct (tidy_parts p T) as (N & _). unfold entry_of, sh_entry.
  assert (P0 : forall m t, wordb (e_name (Entry m (ident p) (New t None))) && sh_expr (e_expr (Entry m (ident p) (New t None))) = true) by (intros; cbn [e_name e_expr sh_expr]; now rewrite N).
  assert (Q : forall t, wordb (e_name (if optional p then Entry EOptional (ident p) (New t None)
    else match default_of p with
         | None => Entry EPlain (ident p) (New t None)
         | Some a =>
           if mem (arg_text a) cs then Entry EDefault (ident p) (Const (arg_text a))
           else Entry EDefault (ident p)
                  (New t (Some match lookup (typeref p) ts with
                               | Some d => match parse_value (pkind d) a with
                                           | Some b => b
                                           | None => ANone
                                           end
                               | None => a
                               end))
         end)) && sh_expr (e_expr (if optional p then Entry EOptional (ident p) (New t None)
    else match default_of p with
         | None => Entry EPlain (ident p) (New t None)
         | Some a =>
           if mem (arg_text a) cs then Entry EDefault (ident p) (Const (arg_text a))
           else Entry EDefault (ident p)
                  (New t (Some match lookup (typeref p) ts with
                               | Some d => match parse_value (pkind d) a with
                                           | Some b => b
                                           | None => ANone
                                           end
                               | None => a
                               end))
         end)) = true).
  { intros t. destruct (optional p); [apply P0|]. destruct (default_of p) as [a|] eqn:E; [|apply P0]. apply default_solid in E; [|exact T].
    destruct (mem (arg_text a) cs); cbn [e_name e_expr sh_expr]; rewrite N; [reflexivity|]. cbn [andb].
    destruct (lookup (typeref p) ts) as [d|]; [|exact E]. destruct (parse_value (pkind d) a) as [b|] eqn:V; [|reflexivity]. now apply (parse_solid _ _ _ E V). }
  destruct k; try apply Q. apply P0.
Qed.

Lemma leaf_shape p : pkind p = KInt \/ pkind p = KBool \/ pkind p = KOcts \/ pkind p = KBits -> sh_class (leaf_class p) = true.
Proof. unfold leaf_class. cbn [sh_class]. intros [-> | [-> | [-> | ->]]]; reflexivity. Qed.

Lemma enum_fill_words l : Forall (fun i => is_dots i = true \/ wordb (item_text i) = true) l -> forall st,
  forallb wf_value (e_root st) = true -> forallb wf_value (e_adds st) = true ->
  forallb wf_value (e_root (fold_left enum_step l st)) = true /\ forallb wf_value (e_adds (fold_left enum_step l st)) = true.
Proof.
  induction 1 as [|i l P0 _ IH]; intros st A C; [now split|]. cbn [fold_left]. apply IH; unfold enum_step; destruct (is_dots i) eqn:E; cbn [e_root e_adds]; try assumption;
    (destruct P0 as [P0|P0]; [congruence|]); destruct (negb (e_ext st)); cbn [e_root e_adds]; try assumption; rewrite forallb_app; cbn [forallb]; unfold wf_value at 2; cbn [fst]; now rewrite P0, ?A, ?C.
Qed.
Lemma enum_shape p : tidy p = true -> pkind p = KEnum -> sh_class (enum_class p) = true.
Proof.
  intros T K0. destruct (tidy_parts p T) as (_ & _ & _ & _ & W). rewrite K0 in W. unfold enum_class. cbn [sh_class]. rewrite K0.
  destruct (enum_fill_words (items p)) with (st := EL false [] [] 0) as [X Y]; [|reflexivity|reflexivity|].
  - apply Forall_forall. intros i E. unfold items in E. apply in_flat_map in E as ([s|q] & I0 & E); [|destruct E]. destruct E as [<-|[]].
    specialize (W s I0). cbn [item_ok] in W. apply orb_prop in W as [W|W]; [right; exact W|left; exact W].
  - unfold enum_fill. rewrite X, Y. reflexivity.
Qed.
Lemma seqof_shape p e c : tidy p = true -> pkind p = KSeqOf -> seqof_class p = Ok (e, c) -> tidy e = true /\ sh_class c = true.
Proof.
  intros T K0 E. destruct (tidy_parts p T) as (_ & _ & _ & W & _). unfold seqof_class in E. destruct (members p) as [|[s|q] [|? ?]]; try discriminate.
  injection E as <- <-. split; [apply W; now left|]. cbn [sh_class]. now rewrite K0.
Qed.

Definition sh_work (w : work) : bool :=
  forallb sh_entry (w_root w) && forallb sh_entry (w_adds w) && forallb (forallb sh_entry) (w_groups w) && forallb sh_entry (w_open w)
  && forallb sh_class (w_subs w) && forallb tidy (w_comps w).

Lemma mark_shape w s w' : sh_work w = true -> mark w s = Ok w' -> sh_work w' = true.
Proof.
  destruct w as [ro ad gr op i x su co]. unfold sh_work. cbn [mark w_root w_adds w_groups w_open w_subs w_comps]. rewrite !andb_true_iff. intros (((((A & C) & D0) & E) & F) & T).
  destruct (String.eqb s "[["); [intros X; injection X as <-; cbn [w_root w_adds w_groups w_open w_subs w_comps]; now rewrite A, C, D0, E, F, T|].
  destruct (String.eqb s "]]"); [intros X; injection X as <-; cbn [w_root w_adds w_groups w_open w_subs w_comps forallb]; rewrite forallb_app; cbn [forallb]; now rewrite A, C, D0, E, F, T|].
  destruct i; [discriminate|]. destruct (String.eqb s "..."); [|discriminate]. intros X; injection X as <-. cbn [w_root w_adds w_groups w_open w_subs w_comps]. now rewrite A, C, D0, E, F, T.
Qed.
Lemma put_shape w e : sh_work w = true -> sh_entry e = true -> sh_work (put w e) = true.
Proof.
  destruct w as [ro ad gr op i x su co]. unfold sh_work. cbn [put w_root w_adds w_groups w_open w_subs w_comps]. rewrite !andb_true_iff. intros (((((A & C) & D0) & E) & F) & T) X.
  destruct i; [|destruct x]; cbn [negb w_root w_adds w_groups w_open w_subs w_comps]; rewrite ?forallb_app; cbn [forallb]; now rewrite A, C, D0, E, F, T, X.
Qed.
Lemma sub_shape w c l : sh_work w = true -> sh_class c = true -> forallb tidy l = true -> sh_work (add_sub w c l) = true.
Proof.
  destruct w as [ro ad gr op i x su co]. unfold sh_work. cbn [add_sub w_root w_adds w_groups w_open w_subs w_comps]. rewrite !andb_true_iff. intros (((((A & C) & D0) & E) & F) & T) X Y.
  rewrite !forallb_app. cbn [forallb]. now rewrite A, C, D0, E, F, T, X, Y.
Qed.
Lemma comp_shape w p : sh_work w = true -> tidy p = true -> sh_work (add_comp w p) = true.
Proof.
  destruct w as [ro ad gr op i x su co]. unfold sh_work. cbn [add_comp w_root w_adds w_groups w_open w_subs w_comps]. rewrite !andb_true_iff. intros (((((A & C) & D0) & E) & F) & T) X.
  rewrite !forallb_app. cbn [forallb]. now rewrite A, C, D0, E, F, T, X.
Qed.

Lemma loop_shape ts cs k ms : (forall q, In (inr q) ms -> tidy q = true /\ forall l c, inline ts cs q = Ok (l, c) -> forallb tidy l = true /\ sh_class c = true) ->
  forall w w', sh_work w = true -> comps_loop ts cs k ms w = Ok w' -> sh_work w' = true.
Proof.
  induction ms as [|[s|q] ms IH]; intros M w w' F E.
  - rewrite comps_nil in E. now injection E as <-.
  - rewrite comps_mark in E. destruct (mark w s) as [w1|] eqn:K0; [|discriminate]. cbn [bind] in E.
    eapply IH; [| |exact E]; [intros q I0; apply M; now right|]. eapply mark_shape; eauto.
  - destruct (M q (or_introl eq_refl)) as (W & L). rewrite comps_part in E. cbv zeta in E.
    set (w1 := put w (entry_of ts cs k q)) in *. assert (F1 : sh_work w1 = true) by (apply put_shape; [exact F|now apply entry_shape]).
    assert (M' : forall q, In (inr q) ms -> tidy q = true /\ forall l c, inline ts cs q = Ok (l, c) -> forallb tidy l = true /\ sh_class c = true) by (intros x I0; apply M; now right).
    destruct (mem (typeref q) leaf_refs); [destruct (constraint q)|destruct (mem (typeref q) nested_refs)].
    + destruct (inline ts cs q) as [[x y]|]; [|discriminate]. cbn [bind] in E. destruct (L x y eq_refl) as [_ Y]. eapply IH; [exact M'| |exact E]. now apply sub_shape.
    + eapply IH; eauto.
    + destruct (inline ts cs q) as [[x y]|]; [|discriminate]. cbn [bind] in E. destruct (L x y eq_refl) as [X Y]. eapply IH; [exact M'| |exact E]. now apply sub_shape.
    + eapply IH; [exact M'| |exact E]. now apply comp_shape.
Qed.

Lemma inline_shape ts cs p : tidy p = true -> forall l c, inline ts cs p = Ok (l, c) -> forallb tidy l = true /\ sh_class c = true.
Proof.
  induction p as [k tr id vr o d v cn ms IH] using ptype_ind2. intros T l c E.
  destruct (tidy_parts _ T) as (_ & _ & _ & W & _). cbn [members] in W.
  assert (SS : k = KSeq \/ k = KChoice -> forallb tidy l = true /\ sh_class c = true).
  { intros K0. rewrite inline_comps in E by exact K0. destruct (comps_loop ts cs k ms _) as [w|] eqn:L; [|discriminate]. cbn [bind] in E. injection E as <- <-.
    eapply loop_shape in L; [|intros q I0; split; [now apply W|intros x y; now apply (IH q I0 (W q I0))]|reflexivity].
    unfold sh_work in L. rewrite !andb_true_iff in L. destruct L as (((((A & C) & D0) & _) & F) & X). split; [exact X|]. cbn [sh_class]. rewrite F, A, C, D0.
    destruct K0 as [-> | ->]; reflexivity. }
  destruct k; try (now apply SS; auto); cbn [inline] in E; try discriminate; try (injection E as <- <-; split; [reflexivity|]; apply leaf_shape; cbn [pkind]; tauto).
  - injection E as <- <-. split; [reflexivity|]. now apply enum_shape.
  - destruct (seqof_class _) as [[e c0]|] eqn:Q; [|discriminate]. cbn [bind] in E. injection E as <- <-. apply seqof_shape in Q as [X Y]; [|exact T|reflexivity].
    split; [cbn [forallb]; now rewrite X|exact Y].
Qed.

Definition tidy_state (st : gstate) : Prop := forall n d, lookup n (types st) = Some d -> tidy d = true.

Lemma chase_tidy st n key r : tidy_state st -> chase n (types st) key = Ok r -> tidy (snd r) = true.
Proof.
  intros A. revert key. induction n as [|n IH]; intros key E; [discriminate|]. cbn [chase] in E. destruct (lookup key (types st)) as [d|] eqn:Lk; [|discriminate].
  pose proof (A key d Lk) as W. destruct (pkind d); (injection E as <-; exact W) || eapply IH; eauto.
Qed.
Lemma with_tidy vr tr p d : tidy p = true -> tidy d = true -> tidy (with_value vr tr (pvalue p) d) = true.
Proof.
  intros T S0. destruct (tidy_parts p T) as (_ & _ & V & _). destruct d as [k t i r o df v c ms]. cbn [with_value tidy] in *. rewrite !andb_true_iff in *. tauto.
Qed.
Lemma set_tidy st key d : tidy_state st -> tidy d = true -> tidy_state (G (filled st) (set_entry key d (types st)) (consts st)).
Proof. intros A T n x. cbn [types set_entry lookup]. destruct (String.eqb n key); [intros E; injection E as <-; exact T|apply A]. Qed.
Lemma once_shape st c st' l : tidy_state st -> sh_class c = true -> once st c = (st', l) -> tidy_state st' /\ forallb sh_stmt l = true.
Proof.
  intros A C E. unfold once in E. destruct (mem (class_text c) (filled st)); injection E as <- <-; (split; [exact A|]); [reflexivity|]. cbn [forallb sh_stmt]. now rewrite C.
Qed.

Lemma fold_shape n comps : (forall st p st' l, tidy_state st -> tidy p = true -> fill n st p = Ok (st', l) -> tidy_state st' /\ forallb sh_stmt l = true) ->
  forallb tidy comps = true -> forall st l st' l', tidy_state st -> forallb sh_stmt l = true ->
  fold_left (Leftovers.step n) comps (Ok (st, l)) = Ok (st', l') -> tidy_state st' /\ forallb sh_stmt l' = true.
Proof.
  intros F. induction comps as [|q comps IH]; intros W st l st' l' A L E; [injection E as <- <-; now split|].
  cbn [forallb] in W. apply andb_prop in W as [Wq W]. cbn [fold_left] in E. unfold Leftovers.step at 2 in E. cbn [bind] in E.
  destruct (_ || _); [eapply IH; eauto|]. destruct (fill n st q) as [[s1 l1]|] eqn:Ef; [|cbn [bind] in E].
  - cbn [bind] in E. destruct (F _ _ _ _ A Wq Ef) as [A1 L1]. eapply IH; [exact W|exact A1| |exact E]. now rewrite forallb_app, L, L1.
  - exfalso. clear - E. revert E. generalize e. induction comps as [|x c IH]; intros y X; [discriminate|]. cbn [fold_left] in X. eapply IH. exact X.
Qed.

Lemma fill_shape n : forall st p st' l, tidy_state st -> tidy p = true -> fill n st p = Ok (st', l) -> tidy_state st' /\ forallb sh_stmt l = true.
Proof.
  induction n as [|n IH]; intros st p st' l A T E; [discriminate|]. cbn [fill] in E.
  assert (LF : pkind p = KInt \/ pkind p = KBool \/ pkind p = KOcts \/ pkind p = KBits ->
     match value_of p with
      | Some a => Ok (st, [SValue (valref p) (field_type p) a])
      | None => Ok (once st (leaf_class p))
      end = Ok (st', l) -> tidy_state st' /\ forallb sh_stmt l = true).
  { intros K0 E0. destruct (value_of p) as [a|] eqn:V.
    - injection E0 as <- <-. split; [exact A|]. cbn [forallb sh_stmt]. now rewrite (value_solid p a T V).
    - injection E0 as E0. eapply once_shape; [exact A| |exact E0]. now apply leaf_shape. }
  assert (CS : (let* (comps, c) := inline (types st) (consts st) p in
      if mem (class_text c) (filled st) then Ok (st, [])
      else bind (fold_left (Leftovers.step n) comps (Ok (put_text st c, []))) (fun '(st2, l) => Ok (st2, l ++ [SClass c]))) = Ok (st', l) -> tidy_state st' /\ forallb sh_stmt l = true).
  { intros E0. destruct (inline (types st) (consts st) p) as [[comps c]|] eqn:In0; [|discriminate]. cbn [bind] in E0. apply inline_shape in In0 as [X Y]; [|exact T].
    destruct (mem (class_text c) (filled st)); [injection E0 as <- <-; now split|].
    destruct (fold_left (Leftovers.step n) comps _) as [[s2 x]|] eqn:Fo; [|discriminate]. cbn [bind] in E0. injection E0 as <- <-.
    eapply fold_shape in Fo as [A2 L2]; [|exact IH|exact X|exact A|reflexivity]. split; [exact A2|]. rewrite forallb_app, L2. cbn [forallb sh_stmt]. now rewrite Y. }
  destruct (pkind p) eqn:K0; try (apply LF; [tauto|exact E]); try (apply CS; exact E); try discriminate.
  - injection E as E. eapply once_shape; [exact A| |exact E]. now apply enum_shape.
  - destruct (lookup (typeref p) (types st)) as [d|] eqn:Lk; [|discriminate]. pose proof (A _ _ Lk) as WD. destruct (value_of p) as [a|] eqn:V.
    + destruct (negb (String.eqb (valref p) "") && negb (String.eqb (typeref p) "")).
      * destruct (chase (S (List.length (types st))) (types st) (typeref p)) as [[key d']|] eqn:Ch; [|discriminate]. cbn [bind] in E. injection E as <- <-.
        apply (chase_tidy st) in Ch; [|exact A]. cbn [snd] in Ch. split; [apply set_tidy; [exact A|now apply with_tidy]|].
        cbn [forallb sh_stmt]. rewrite andb_true_r. destruct (parse_value (pkind d') a) as [b|] eqn:PV; [|reflexivity]. exact (parse_solid _ _ _ (value_solid p a T V) PV).
      * eapply IH; [| |exact E]; [apply set_tidy; [exact A|]|]; now apply with_tidy.
    + destruct (negb (String.eqb (ident p) "") && negb (String.eqb (typeref p) "")); [injection E as <- <-; now split|].
      destruct (pkind d); try (injection E as <- <-; now split); eapply IH; eauto.
  - destruct (seqof_class p) as [[e c]|] eqn:Q; [|discriminate]. cbn [bind] in E. apply seqof_shape in Q as [X Y]; [|exact T|exact K0].
    destruct (mem (class_text c) (filled st)); [injection E as <- <-; now split|].
    destruct (mem (typeref e) leaf_refs); [injection E as <- <-; split; [exact A|]; cbn [forallb sh_stmt]; now rewrite Y|].
    destruct (fill n (put_text st c) e) as [[s2 x]|] eqn:Fe; [|discriminate]. cbn [bind] in E. injection E as <- <-.
    apply IH in Fe as [A2 L2]; [|exact A|exact X]. split; [exact A2|]. rewrite forallb_app, L2. cbn [forallb sh_stmt]. now rewrite Y.
Qed.

Lemma fill_all_shape n l : forall st st' out, tidy_state st -> forallb tidy l = true -> fill_all n st l = Ok (st', out) -> forallb sh_stmt out = true.
Proof.
  induction l as [|p l IH]; intros st st' out A T E; cbn [fill_all] in E; [injection E as <- <-; reflexivity|].
  cbn [forallb] in T. apply andb_prop in T as [Tp T]. destruct (fill n st p) as [[s1 a]|] eqn:F; [|discriminate]. cbn [bind] in E.
  apply fill_shape in F as [A1 L1]; [|exact A|exact Tp]. destruct (fill_all n s1 l) as [[s2 b]|] eqn:R0; [|discriminate]. cbn [bind] in E. injection E as <- <-.
  rewrite forallb_app, L1. now apply (IH s1 s2 b).
Qed.

Lemma registered_tidy l : forall old, (forall n d, lookup n old = Some d -> tidy d = true) -> forallb tidy l = true ->
  forall n d, lookup n (registered old l) = Some d -> tidy d = true.
Proof.
  unfold registered. induction l as [|p l IH]; intros old A T n d; [apply A|]. cbn [forallb fold_left] in *. apply andb_prop in T as [Tp T].
  apply IH; [|exact T]. intros m x. destruct (has_value p); [apply A|]. cbn [lookup]. destruct (String.eqb m (type_key p)); [intros E; injection E as <-; exact Tp|apply A].
Qed.

Lemma emit_shape l out : distinct_names l -> forallb tidy l = true -> emit l = Ok out -> forallb sh_stmt out = true.
Proof.
  intros D0 T E. unfold emit, emit_after in E. cbv zeta in E. destruct (sort_assignments l) as [sorted|] eqn:SA; [|discriminate]. cbn [bind] in E.
  pose proof (C37_permutation l sorted D0 SA) as P0.
  destruct (fill_all _ _ sorted) as [[s2 b]|] eqn:F; [|discriminate]. cbn [bind] in E. injection E as <-.
  eapply fill_all_shape; [| |exact F].
  - unfold tidy_state. cbn [types]. apply registered_tidy; [intros n d X; discriminate|exact T].
  - rewrite forallb_forall in *. intros p X. apply T. eapply Permutation_in; [apply Permutation_sym; exact P0|exact X].
Qed.

(** * What running adds *)

Definition keyed (sp : space) : Prop := forall n o, lookup n sp = Some o -> py_name n = true.

Lemma py_word n : py_name n = true -> wordb n = true /\ n <> "" /\ mem n keywords = false.
Proof.
  destruct n as [|c n]; [discriminate|]. cbn [py_name]. rewrite !andb_true_iff. intros ((A & C) & K0). apply negb_true_iff in K0. split; [|now split].
  unfold wordb. cbn [all_chars]. apply andb_true_intro. split; [unfold start_char, word_char in *; rewrite !orb_true_iff in *; tauto|].
  eapply all_chars_impl; [|exact C]. intros x. unfold start_char, word_char. rewrite !orb_true_iff. tauto.
Qed.

Lemma word_raw s : wordb s = true -> s <> "" -> s <> "True" -> s <> "False" -> s <> "None" -> wf_arg (ARaw s) = true.
Proof.
  intros W N1 N2 N3 N4. cbn [wf_arg]. rewrite (word_solid s W). unfold is. apply String.eqb_neq in N1, N2, N3, N4. rewrite N1, N2, N3, N4. cbn [orb andb].
  assert (X : forall p, wordb p = false -> begins p s = false).
  { intros p Np. unfold begins. destruct (prefixed p s) as [r|] eqn:E; [|reflexivity]. apply prefixed_inv in E. subst s. unfold wordb in *. rewrite Printing.all_app in W. now rewrite Np in W. }
  now rewrite !X.
Qed.
Lemma name_raw s : py_name s = true -> wf_arg (ARaw s) = true.
Proof.
  intros P0. destruct (py_word s P0) as (W & N & K0). apply word_raw; [exact W|exact N| | |]; intros ->; discriminate K0.
Qed.

Definition int_char (c : ascii) : bool := is_digit c || Ascii.eqb c "-".
Lemma uint_char c o d : uint_of_char c o = Some d -> is_digit c = true.
Proof. destruct o as [o|]; [|discriminate]. destruct c as [[|] [|] [|] [|] [|] [|] [|] [|]]; try discriminate; reflexivity. Qed.
Lemma uint_digits s d : NilEmpty.uint_of_string s = Some d -> all_chars int_char s = true.
Proof.
  revert d. induction s as [|c s IH]; intros d E; [reflexivity|]. cbn [NilEmpty.uint_of_string all_chars] in *. unfold int_char at 1. rewrite (uint_char _ _ _ E).
  destruct (NilEmpty.uint_of_string s) as [u|]; [|discriminate]. now rewrite (IH u eq_refl).
Qed.
Lemma int_raw s z : int_literal s = Some z -> s <> "" /\ all_chars int_char s = true.
Proof.
  unfold int_literal, NilZero.int_of_string. destruct s as [|c s]; [discriminate|]. intros E. split; [discriminate|].
  destruct (Ascii.eqb_spec c "-") as [->|N].
  - cbn [all_chars]. unfold int_char at 1. cbn [orb andb]. destruct (NilZero.uint_of_string s) as [u|] eqn:U; [|discriminate].
    destruct s as [|d s]; [reflexivity|]. exact (uint_digits _ _ U).
  - destruct (NilZero.uint_of_string (String c s)) as [u|] eqn:U; [exact (uint_digits _ _ U)|discriminate].
Qed.
Lemma int_word s z : int_literal s = Some z -> wordb s = true /\ wf_arg (ARaw s) = true.
Proof.
  intros E. destruct (int_raw s z E) as (N & C).
  assert (W : wordb s = true). { eapply all_chars_impl; [|exact C]. intros c. unfold int_char, word_char. rewrite !orb_true_iff. tauto. }
  split; [exact W|]. apply word_raw; [exact W|exact N| | |]; intros ->; discriminate C.
Qed.

Section Run.
Context (globals : space) (GK : keyed globals).

Lemma resolve_key locals n o : keyed locals -> resolve locals globals n = Ok o -> py_name n = true.
Proof.
  intros L E. unfold resolve in E. destruct (lookup n locals) as [x|] eqn:A; [now apply (L n x)|]. destruct (lookup n globals) as [x|] eqn:C; [now apply (GK n x)|discriminate].
Qed.
Lemma nil_key : keyed [].
Proof. intros n o E. discriminate. Qed.
Lemma cons_key n o sp : py_name n = true -> keyed sp -> keyed ((n, o) :: sp).
Proof. intros P0 A m x. cbn [lookup]. destruct (String.eqb_spec m n) as [->|]; [intros _; exact P0|apply A]. Qed.

Lemma arg_run locals a v : keyed locals -> sh_arg a = true -> eval_arg locals globals a = Ok v -> wf_arg a = true.
Proof.
  intros L S0 E. destruct a as [s|b|s|s|s|]; try reflexivity; cbn [eval_arg] in E.
  - destruct (int_literal s) as [z|] eqn:I0; [now apply int_word in I0|].
    destruct (resolve locals globals (to_hyphen s)) as [o|] eqn:R0; [|discriminate]. cbn [bind] in E. apply resolve_key in R0; [|exact L].
    destruct (String.eqb_spec (to_hyphen s) s) as [Q|]; [|discriminate]. rewrite Q in R0. now apply name_raw.
  - unfold sh_arg, solid in S0. cbn [arg_text cat] in S0. rewrite Printing.app_nil_s, Printing.all_app in S0. apply andb_prop in S0. apply S0.
  - unfold sh_arg, solid in S0. cbn [arg_text cat] in S0. rewrite Printing.app_nil_s, Printing.all_app in S0. apply andb_prop in S0. apply S0.
  - unfold sh_arg, solid in S0. cbn [arg_text cat] in S0. rewrite !Printing.all_app in S0. rewrite !andb_true_iff in S0. apply S0.
Qed.
Lemma new_run locals c a r : keyed locals -> sh_expr (New c a) = true -> new locals globals c a = Ok r -> wf_expr (New c a) = true.
Proof.
  intros L S0 E. unfold new in E. destruct (resolve locals globals c) as [o|] eqn:R0; [|discriminate]. cbn [bind] in E. apply resolve_key in R0; [|exact L]. apply py_word in R0 as (W & _).
  destruct o; try discriminate. destruct (class_ty _ _) as [t|]; [|discriminate]. cbn [bind] in E. destruct a as [a|]; [|exact W].
  destruct (eval_arg locals globals a) as [v|] eqn:V; [|discriminate]. cbn [wf_expr]. rewrite W. exact (arg_run locals a v L S0 V).
Qed.
Lemma entry_run locals e r : keyed locals -> sh_entry e = true -> comp_of locals globals e = Ok r -> wf_entry e = true.
Proof.
  intros L S0 E. unfold comp_of in E. destruct (call _ _ _) as [tt0|]; [|discriminate]. cbn [bind] in E. unfold sh_entry in S0. apply andb_prop in S0 as [N X]. unfold wf_entry. rewrite N. cbn [andb].
  destruct (e_expr e) as [c a|n].
  - destruct (new locals globals c a) as [r0|] eqn:Q; [|discriminate]. exact (new_run locals c a r0 L X Q).
  - destruct (resolve locals globals n) as [o|] eqn:R0; [|discriminate]. apply resolve_key in R0; [|exact L]. now apply py_word in R0.
Qed.
Lemma entries_run locals l : forall r, keyed locals -> forallb sh_entry l = true -> comps_of_entries locals globals l = Ok r -> forallb wf_entry l = true.
Proof.
  induction l as [|e l IH]; intros r L S0 E; [reflexivity|]. cbn [forallb comps_of_entries] in *. apply andb_prop in S0 as [A C].
  destruct (comp_of locals globals e) as [x|] eqn:Q; [|discriminate]. cbn [bind] in E. destruct (comps_of_entries locals globals l) as [y|]; [|discriminate].
  rewrite (entry_run locals e x L A Q). exact (IH y L C eq_refl).
Qed.
Lemma types_run locals l r : keyed locals -> forallb sh_entry l = true -> named_types locals globals l = Ok r -> forallb wf_entry l = true.
Proof. intros L S0 E. unfold named_types in E. destruct (call _ _ _); [|discriminate]. cbn [bind] in E. eapply entries_run; eauto. Qed.
Lemma groups_run locals l : forall r, keyed locals -> forallb (forallb sh_entry) l = true -> named_groups locals globals l = Ok r -> forallb (forallb wf_entry) l = true.
Proof.
  induction l as [|g l IH]; intros r L S0 E; [reflexivity|]. cbn [forallb named_groups] in *. apply andb_prop in S0 as [A C].
  destruct (named_types locals globals g) as [x|] eqn:Q; [|discriminate]. cbn [bind] in E. destruct (named_groups locals globals l) as [y|]; [|discriminate].
  rewrite (types_run locals g x L A Q). exact (IH y L C eq_refl).
Qed.
Lemma point_run inf s r : endpoint globals inf s = Ok r -> wordb s = true.
Proof.
  unfold endpoint. destruct (int_literal s) as [z|] eqn:I0; [intros _; now apply int_word in I0|].
  destruct (resolve [] globals (to_hyphen s)) as [o|] eqn:R0; [|discriminate]. cbn [bind]. apply resolve_key in R0; [|apply nil_key].
  destruct (String.eqb_spec (to_hyphen s) s) as [Q|]; [|discriminate]. rewrite Q in R0. intros _. now apply py_word in R0.
Qed.
Lemma spec_run s r : spec_own globals s = Ok r -> wf_opt s = true.
Proof.
  destruct s as [s|]; [|reflexivity]. cbn [spec_own wf_opt]. unfold spec_obj, wf_spec. destruct (call [] globals (s_fn s)) eqn:Ca; [|discriminate]. cbn [bind].
  unfold call in Ca. destruct (resolve [] globals (s_fn s)) as [o|] eqn:R0; [|discriminate]. apply resolve_key in R0; [|apply nil_key]. apply py_word in R0 as (W & _).
  destruct (endpoint globals "MIN" (s_lo s)) as [lo|] eqn:Lo; [|discriminate]. cbn [bind]. destruct (endpoint globals "MAX" (s_hi s)) as [hi|] eqn:Hi; [|discriminate]. intros _.
  now rewrite W, (point_run _ _ _ Lo), (point_run _ _ _ Hi).
Qed.
Lemma bound_run n o sp sp' : bound_to n o sp = Ok sp' -> py_name n = true /\ sp' = (n, o) :: sp.
Proof. unfold bound_to. destruct (py_name n); [|discriminate]. intros E. injection E as <-. now split. Qed.

Lemma own_key s r : spec_own globals s = Ok r -> keyed r.
Proof.
  destruct s as [s|]; cbn [spec_own]; [|intros E; injection E as <-; apply nil_key].
  destruct (spec_obj globals s); [|discriminate]. cbn [bind]. intros E. injection E as <-. now apply cons_key, nil_key.
Qed.
Lemma marker_key locals x r : keyed locals -> marker_own locals globals x = Ok r -> keyed (r ++ locals).
Proof.
  intros L E. unfold marker_own in E. destruct x; [|injection E as <-; exact L]. destruct (call _ _ _); [|discriminate]. cbn [bind] in E. injection E as <-.
  cbn [app]. now apply cons_key.
Qed.

Lemma class_run c : forall locals o, keyed locals -> sh_class c = true -> wordb (class_id c) = true -> exec_class locals globals c = Ok o -> wf_class c = true.
Proof.
  induction c as [n b s|n b x r a|n b s e|n b subs x r a g IH] using pclass_nested; intros locals o L S0 W E; cbn [class_id] in W; cbn [sh_class] in S0.
  - cbn [exec_class] in E. destruct (base_class locals globals b) as [[k attrs]|]; [|discriminate]. cbn [bind] in E. destruct (spec_own globals s) as [ow|] eqn:So; [|discriminate].
    cbn [wf_class]. rewrite W, (spec_run s ow So). unfold mem in S0. apply existsb_exists in S0 as (y & I0 & Q). apply String.eqb_eq in Q as ->.
    repeat (destruct I0 as [<-|I0]; [reflexivity|]). destruct I0.
  - cbn [wf_class]. rewrite W. rewrite !andb_true_iff in S0. destruct S0 as ((-> & ->) & ->). reflexivity.
  - cbn [exec_class] in E. destruct (base_class locals globals b) as [[k attrs]|]; [|discriminate]. cbn [bind] in E. destruct (spec_own globals s) as [ow|] eqn:So; [|discriminate]. cbn [bind] in E.
    destruct (new ow globals e None) as [t|] eqn:Ne; [|discriminate]. cbn [wf_class]. rewrite W, S0, (spec_run s ow So). apply new_run in Ne; [|exact (own_key s ow So)|reflexivity]. exact Ne.
  - rewrite exec_comps in E. destruct (base_class locals globals b) as [[k attrs]|]; [|discriminate]. cbn [bind] in E.
    rewrite !andb_true_iff in S0. destruct S0 as ((((C & SS) & R0) & A0) & G0).
    assert (SL : forall mine nested, keyed mine -> subs_loop globals subs mine = Ok nested -> keyed nested /\ forallb wf_class subs = true).
    { clear - IH SS GK. induction IH as [|d l P0 _ IH1]; intros mine nested M E; [rewrite subs_nil in E; injection E as <-; now split|].
      cbn [forallb] in SS. apply andb_prop in SS as [SD SL]. rewrite subs_cons in E. destruct (exec_class mine globals d) as [od|] eqn:Ed; [|discriminate]. cbn [bind] in E.
      destruct (mem (class_id d) attributes); [discriminate|]. destruct (bound_to (class_id d) od mine) as [m'|] eqn:Bd; [|discriminate]. cbn [bind] in E.
      apply bound_run in Bd as (Pd & ->). destruct (IH1 SL _ _ (cons_key _ _ _ Pd M) E) as (Kn & Wl). split; [exact Kn|]. cbn [forallb]. rewrite Wl, andb_true_r.
      apply (P0 mine od M SD); [now apply py_word|exact Ed]. }
    destruct (subs_loop globals subs []) as [nested|] eqn:Sl; [|discriminate]. cbn [bind] in E. destruct (SL [] nested nil_key Sl) as (Kn & Wl).
    unfold exec_body in E. destruct (marker_own nested globals x) as [m|] eqn:Mo; [|discriminate]. cbn [bind] in E. apply marker_key in Mo; [|exact Kn]. cbv zeta in E.
    destruct (named_types (m ++ nested) globals r) as [ro|] eqn:Ro; [|discriminate]. cbn [bind] in E.
    assert (K1 : keyed (("rootComponent", OTypes ro) :: m ++ nested)) by now apply cons_key.
    set (own1 := ("rootComponent", OTypes ro) :: m ++ nested) in *.
    assert (AA : exists own2, keyed own2 /\ forallb wf_entry a = true /\ exists gr, (match g with [] => Ok ([], own2) | _ => let* gr := named_groups own2 globals g in Ok (gr, ("extensionAdditionGroups", OGroups gr) :: own2) end) = Ok gr).
    { destruct a as [|e a'].
      - cbn [bind] in E. exists own1. split; [exact K1|]. split; [reflexivity|]. 
        destruct (match g with [] => Ok ([], own1) | _ => let* gr := named_groups own1 globals g in Ok (gr, ("extensionAdditionGroups", OGroups gr) :: own1) end) as [gr|] eqn:Q; [now exists gr|discriminate].
      - destruct (named_types own1 globals (e :: a')) as [ad|] eqn:Ad; [|discriminate]. cbn [bind] in E.
        exists (("extensionAddition", OTypes ad) :: own1). split; [now apply cons_key|]. split; [exact (types_run own1 (e :: a') ad K1 A0 Ad)|].
        destruct (match g with [] => Ok ([], ("extensionAddition", OTypes ad) :: own1) | _ => let* gr := named_groups (("extensionAddition", OTypes ad) :: own1) globals g in Ok (gr, ("extensionAdditionGroups", OGroups gr) :: ("extensionAddition", OTypes ad) :: own1) end) as [gr|] eqn:Q; [now exists gr|discriminate]. }
    destruct AA as (own2 & K2 & Wa & gr & Gr).
    cbn [wf_class]. rewrite W, C, Wl, (types_run _ r ro Mo R0 Ro), Wa. cbn [andb].
    destruct g as [|g0 g']; [reflexivity|]. destruct (named_groups own2 globals (g0 :: g')) as [gg|] eqn:Gg; [|discriminate]. exact (groups_run own2 (g0 :: g') gg K2 G0 Gg).
Qed.

Lemma stmt_run s g' : sh_stmt s = true -> exec_stmt globals s = Ok g' -> wf_stmt s = true /\ keyed g'.
Proof.
  intros S0 E. destruct s as [c|n t|n c a]; cbn [exec_stmt sh_stmt wf_stmt] in *.
  - destruct (exec_class [] globals c) as [o|] eqn:X; [|discriminate]. cbn [bind] in E. apply bound_run in E as (P0 & ->). split; [|now apply cons_key].
    apply (class_run c [] o nil_key S0); [now apply py_word|exact X].
  - destruct (resolve [] globals t) as [o|] eqn:X; [|discriminate]. cbn [bind] in E. apply bound_run in E as (P0 & ->). split; [|now apply cons_key].
    apply resolve_key in X; [|apply nil_key]. destruct (py_word _ P0) as (W & N & _). destruct (py_word _ X) as (Wt & _). unfold is. apply String.eqb_neq in N. now rewrite N, W, Wt.
  - destruct (new [] globals c (Some a)) as [[t v]|] eqn:X; [|discriminate]. cbn [bind] in E. apply bound_run in E as (P0 & ->). split; [|now apply cons_key].
    apply new_run in X; [|apply nil_key|exact S0]. cbn [wf_expr] in X. apply andb_prop in X as [Wc Wa]. destruct (py_word _ P0) as (W & N & _). unfold is. apply String.eqb_neq in N. now rewrite N, W, Wc, Wa.
Qed.
End Run.

Lemma exec_run l : forall globals g', keyed globals -> forallb sh_stmt l = true -> exec globals l = Ok g' -> forallb wf_stmt l = true.
Proof.
  induction l as [|s l IH]; intros globals g' GK S0 E; [reflexivity|]. cbn [forallb exec] in *. apply andb_prop in S0 as [A C].
  destruct (exec_stmt globals s) as [g1|] eqn:X; [|discriminate]. cbn [bind] in E. destruct (stmt_run globals GK s g1 A X) as (W & K1). rewrite W. exact (IH g1 g' K1 C E).
Qed.
Lemma library_key : keyed library.
Proof.
  intros n o E. apply Modules.lookup_in in E.
  assert (F : forallb (fun p => py_name (fst p)) library = true) by (vm_compute; reflexivity). rewrite forallb_forall in F. exact (F _ E).
Qed.

(** * The text of a generated module *)

Theorem C74_generated l out g : distinct_names l -> forallb tidy l = true -> emit l = Ok out -> Exec.run out = Ok g ->
  read_module (module_text out) = Some out /\ import (module_text out) = Ok g.
Proof.
  intros D0 T E R0. assert (W : forallb wf_stmt out = true) by (eapply exec_run; [exact library_key|exact (emit_shape l out D0 T E)|exact R0]).
  split; [now apply C74_read|]. now rewrite C74_import.
Qed.
