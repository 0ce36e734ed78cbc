(** What a call of parse_asn1_schema leaves behind for the next one (property
    C57): module.py keeps typereference_to_type and constants in variables of the
    module, which are never emptied. *)
From Coq Require Import ZArith List String Ascii Bool Arith Lia Permutation.
Import ListNotations.
From Verif Require Import PyBase Generator Ordering Emit Exec Meaning Modules Generated.
Open Scope string_scope.
Open Scope list_scope.
Open Scope nat_scope.

(** * The names a schema uses *)

(** The typereferences in an object. *)
Fixpoint uses (p : ptype) : list string :=
  match p with
  | PT _ tr _ _ _ _ _ _ ms => tr :: flat_map (fun m => match m with inl _ => [] | inr q => uses q end) ms
  end.

(** The texts of the DEFAULTs in an object. *)
Fixpoint fallbacks (p : ptype) : list string :=
  match p with
  | PT _ _ _ _ _ _ _ _ ms =>
    match default_of p with Some a => [arg_text a] | None => [] end ++
    flat_map (fun m => match m with inl _ => [] | inr q => fallbacks q end) ms
  end.

(** The types and constants a schema defines. *)
Definition defines_type (l : list ptype) (n : string) : Prop :=
  exists p, In p l /\ has_value p = false /\ type_key p = n.
Definition defines_constant (l : list ptype) (n : string) : Prop :=
  exists p, In p l /\ is_defined p = true /\ has_value p = true /\ valref p = n.

(** Whatever the schema names is its own, or unknown to the earlier calls. *)
Definition own_types (old : gstate) (l : list ptype) : Prop :=
  forall p n, In p l -> In n (uses p) -> In n (map fst (types old)) -> defines_type l n.
Definition own_constants (old : gstate) (l : list ptype) : Prop :=
  forall p n, In p l -> In n (fallbacks p) -> In n (consts old) -> defines_constant l n.

Lemma ptype_ind2 (P : ptype -> Prop) :
  (forall k tr id vr o d v c ms, (forall q, In (inr q) ms -> P q) -> P (PT k tr id vr o d v c ms)) ->
  forall p, P p.
Proof.
  intros F. fix IH 1. intros [k tr id vr o d v c ms]. apply F. induction ms as [|m ms IHms]; [intros q []|].
  intros q [E|E]; [|now apply IHms]. destruct m as [s|q']; [discriminate|]. injection E as <-. apply IH.
Qed.

Lemma uses_self p : In (typeref p) (uses p).
Proof. destruct p. now left. Qed.

Lemma uses_member p q : In (inr q) (members p) -> incl (uses q) (uses p).
Proof.
  destruct p as [k tr id vr o d v c ms]. intros I n U. right. apply in_flat_map. exists (inr q). auto.
Qed.

Lemma falls_self p a : default_of p = Some a -> In (arg_text a) (fallbacks p).
Proof. destruct p as [k tr id vr o d v c ms]. cbn [fallbacks]. intros ->. now left. Qed.

Lemma falls_member p q : In (inr q) (members p) -> incl (fallbacks q) (fallbacks p).
Proof.
  destruct p as [k tr id vr o d v c ms]. intros I n U. cbn [fallbacks]. apply in_or_app. right.
  apply in_flat_map. exists (inr q). auto.
Qed.

(** * States that look alike to a schema *)

Section Sim.
Variables N Ds : list string.

Definition within (p : ptype) : Prop := incl (uses p) N /\ incl (fallbacks p) Ds.

Lemma within_member p q : within p -> In (inr q) (members p) -> within q.
Proof.
  intros (U & F) I. split; [eapply incl_tran; [eapply uses_member|]|eapply incl_tran; [eapply falls_member|]]; eauto.
Qed.

Lemma within_ref p : within p -> In (typeref p) N.
Proof. intros (U & _). apply U, uses_self. Qed.

Definition agree (ts ts' : list (string * ptype)) : Prop :=
  (forall n, In n N -> lookup n ts = lookup n ts') /\
  (forall n d, In n N -> lookup n ts = Some d -> within d) /\
  List.length ts <= List.length ts'.

Definition agree_consts (cs cs' : list string) : Prop := forall d, In d Ds -> mem d cs = mem d cs'.

Definition alike (st st' : gstate) : Prop :=
  filled st = filled st' /\ agree (types st) (types st') /\ agree_consts (consts st) (consts st').

Lemma entry_alike ts ts' cs cs' k p : agree ts ts' -> agree_consts cs cs' -> within p ->
  entry_of ts cs k p = entry_of ts' cs' k p.
Proof.
  intros (A & _) C W. unfold entry_of. destruct k; auto; destruct (optional p); auto;
    destruct (default_of p) as [a|] eqn:E; auto;
    rewrite (C (arg_text a)) by (apply W, falls_self, E); rewrite (A (typeref p)) by (now apply within_ref); auto.
Qed.

Lemma loop_alike ts ts' cs cs' k : agree ts ts' -> agree_consts cs cs' -> forall ms w,
  (forall q, In (inr q) ms -> within q /\ inline ts cs q = inline ts' cs' q) ->
  comps_loop ts cs k ms w = comps_loop ts' cs' k ms w.
Proof.
  intros A C ms. induction ms as [|[s|q] ms IH]; intros w M; auto.
  - rewrite !comps_mark. destruct (mark w s); auto. cbn [bind]. apply IH. intros q I. apply M. now right.
  - destruct (M q (or_introl eq_refl)) as (W & E). rewrite !comps_part. cbv zeta.
    rewrite (entry_alike ts ts' cs cs') by auto. rewrite E.
    assert (R : forall w, comps_loop ts cs k ms w = comps_loop ts' cs' k ms w).
    { intros w'. apply IH. intros x I. apply M. now right. }
    destruct (mem (typeref q) leaf_refs); [destruct (constraint q)|destruct (mem (typeref q) nested_refs)]; auto;
      destruct (inline ts' cs' q) as [[x y]|]; auto; apply R.
Qed.

Lemma inline_alike ts ts' cs cs' : agree ts ts' -> agree_consts cs cs' -> forall p, within p ->
  inline ts cs p = inline ts' cs' p.
Proof.
  intros A C p. induction p as [k tr id vr o d v c ms IH] using ptype_ind2. intros W.
  assert (M : forall q, In (inr q) ms -> within q /\ inline ts cs q = inline ts' cs' q).
  { intros q I. assert (within q) by (eapply within_member; eauto). split; auto. }
  destruct k; try reflexivity; rewrite !inline_comps by auto; now rewrite (loop_alike ts ts' cs cs').
Qed.

(** The types handed back are parts of the object. *)
Lemma mark_comps w s w' : mark w s = Ok w' -> w_comps w' = w_comps w.
Proof.
  destruct w as [ro ad gr op i x su co]. cbn [mark].
  destruct (String.eqb s "[["); [now intros [= <-]|]. destruct (String.eqb s "]]"); [now intros [= <-]|].
  destruct i; [discriminate|]. destruct (String.eqb s "..."); [now intros [= <-]|discriminate].
Qed.

Lemma put_comps w e : w_comps (put w e) = w_comps w.
Proof. destruct w as [ro ad gr op i x su co]. cbn [put]. destruct i; auto. now destruct x. Qed.

Lemma sub_comps w c l : w_comps (add_sub w c l) = (w_comps w ++ l)%list.
Proof. now destruct w. Qed.
Lemma comp_comps w p : w_comps (add_comp w p) = (w_comps w ++ [p])%list.
Proof. now destruct w. Qed.

Lemma comps_within ts cs k ms : (forall q, In (inr q) ms ->
    within q /\ forall l c, inline ts cs q = Ok (l, c) -> Forall within l) ->
  forall w w', Forall within (w_comps w) -> comps_loop ts cs k ms w = Ok w' -> Forall within (w_comps w').
Proof.
  induction ms as [|[s|q] ms IH]; intros M w w' F E.
  - rewrite comps_nil in E. now injection E as <-.
  - rewrite comps_mark in E. destruct (mark w s) as [w1|] eqn:K; [|discriminate]. cbn [bind] in E.
    eapply IH; [| |exact E]; [intros q I; apply M; now right|]. now rewrite (mark_comps _ _ _ K).
  - destruct (M q (or_introl eq_refl)) as (W & L). rewrite comps_part in E. cbv zeta in E.
    set (w1 := put w (entry_of ts cs k q)) in *. assert (F1 : Forall within (w_comps w1)) by (unfold w1; now rewrite put_comps).
    assert (M' : forall q, In (inr q) ms -> within q /\ forall l c, inline ts cs q = Ok (l, c) -> Forall within l)
      by (intros x I; apply M; now right).
    destruct (mem (typeref q) leaf_refs); [destruct (constraint q)|destruct (mem (typeref q) nested_refs)].
    + destruct (inline ts cs q) as [[x y]|]; [|discriminate]. cbn [bind] in E. eapply IH; [exact M'| |exact E].
      rewrite sub_comps. now rewrite app_nil_r.
    + eapply IH; eauto.
    + destruct (inline ts cs q) as [[x y]|]; [|discriminate]. cbn [bind] in E. eapply IH; [exact M'| |exact E].
      rewrite sub_comps. apply Forall_app. split; auto. eapply L. reflexivity.
    + eapply IH; [exact M'| |exact E]. rewrite comp_comps. apply Forall_app. auto.
Qed.

Lemma inline_within ts cs p l c : within p -> inline ts cs p = Ok (l, c) -> Forall within l.
Proof.
  revert l c. induction p as [k tr id vr o d v cn ms IH] using ptype_ind2. intros l c W E.
  assert (M : forall q, In (inr q) ms -> within q) by (intros q I; eapply within_member; eauto).
  destruct k; try (now inversion E; constructor).
  - rewrite inline_comps in E by auto. destruct (comps_loop ts cs KSeq ms _) as [w|] eqn:L; [|discriminate].
    cbn [bind] in E. injection E as <- _. eapply comps_within; [| |exact L]; [|constructor]. 
    intros q I. split; eauto.
  - rewrite inline_comps in E by auto. destruct (comps_loop ts cs KChoice ms _) as [w|] eqn:L; [|discriminate].
    cbn [bind] in E. injection E as <- _. eapply comps_within; [| |exact L]; [|constructor]. 
    intros q I. split; eauto.
  - cbn [inline] in E. unfold seqof_class in E. cbn [members] in E. destruct ms as [|[s|e] [|? ?]]; try discriminate.
    injection E as <- _. constructor; auto. apply M. now left.
Qed.

Lemma chase_alike ts ts' n n' key r : agree ts ts' -> n <= n' -> In key N ->
  chase n ts key = Ok r -> chase n' ts' key = Ok r /\ In (fst r) N /\ within (snd r).
Proof.
  intros (A & C & _). revert n' key. induction n as [|n IH]; intros n' key L I E; [discriminate|].
  destruct n' as [|n']; [lia|]. cbn [chase] in *. rewrite <- (A key I). destruct (lookup key ts) as [d|] eqn:Lk; [|discriminate].
  pose proof (C key d I Lk) as W.
  assert (R : chase n ts (typeref d) = Ok r -> chase n' ts' (typeref d) = Ok r /\ In (fst r) N /\ within (snd r)).
  { intros X. apply IH; auto; [lia|]. now apply within_ref. }
  destruct (pkind d); auto; injection E as <-; auto.
Qed.

Lemma lookup_known n ts : Emit.known n ts = match lookup n ts with Some _ => true | None => false end.
Proof.
  unfold Emit.known. induction ts as [|[m x] ts IH]; [reflexivity|]. cbn [map fst mem existsb lookup].
  destruct (String.eqb n m); auto.
Qed.

Lemma agree_set ts ts' key d : agree ts ts' -> within d -> agree (set_entry key d ts) (set_entry key d ts').
Proof.
  intros (A & C & L) W. split; [|split].
  - intros n I. cbn [set_entry lookup]. destruct (String.eqb n key); auto.
  - intros n x I. cbn [set_entry lookup]. destruct (String.eqb n key); [now intros [= <-]|eauto].
  - cbn [set_entry List.length]. lia.
Qed.

Lemma within_value vr tr v p : within p -> In tr N -> within (with_value vr tr v p).
Proof.
  destruct p as [k tr0 id vr0 o d v0 c ms]. intros (U & F) I. split; [|exact F].
  intros n [<-|X]; auto. apply U. now right.
Qed.

Lemma once_alike st st' c : alike st st' ->
  snd (once st c) = snd (once st' c) /\ alike (fst (once st c)) (fst (once st' c)).
Proof.
  intros (F & A & C). unfold once. rewrite <- F. destruct (mem (class_text c) (filled st)); cbn [fst snd].
  - split; auto. split; auto.
  - split; auto. split; [|split]; auto. cbn [put_text filled]. now rewrite F.
Qed.

Lemma put_alike st st' c : alike st st' -> alike (put_text st c) (put_text st' c).
Proof. intros (F & A & C). split; [|split]; auto. cbn [put_text filled]. now rewrite F. Qed.

Definition sim (r r' : res (gstate * list stmt)) : Prop :=
  forall st l, r = Ok (st, l) -> exists st', r' = Ok (st', l) /\ alike st st'.

Definition step (n : nat) (acc : res (gstate * list stmt)) (q : ptype) : res (gstate * list stmt) :=
  let* (st', l) := acc in
  if match default_of q with Some _ => true | None => false end
     || Emit.known (typeref q) (types st') then Ok (st', l)
  else let* (st'', l') := fill n st' q in Ok (st'', l ++ l').

Lemma fold_alike n n' comps :
  (forall st st' p, alike st st' -> within p -> sim (fill n st p) (fill n' st' p)) -> Forall within comps ->
  forall acc acc', sim acc acc' -> sim (fold_left (step n) comps acc) (fold_left (step n') comps acc').
Proof.
  intros F W. induction W as [|q comps Wq W IH]; intros acc acc' S0; [exact S0|]. cbn [fold_left]. apply IH.
  intros st l E. unfold step in *. destruct acc as [[s0 l0]|]; [|discriminate]. cbn [bind] in E.
  destruct (S0 s0 l0 eq_refl) as (s0' & -> & A). cbn [bind].
  pose proof A as (_ & (AT & _) & _). rewrite lookup_known in *. rewrite <- (AT (typeref q)) by (now apply within_ref).
  destruct (_ || _); [injection E as <- <-; eauto|].
  destruct (fill n s0 q) as [[s1 l1]|] eqn:Ef; [|discriminate]. cbn [bind] in E. injection E as <- <-.
  destruct (F s0 s0' q A Wq s1 l1 Ef) as (s1' & -> & A1). cbn [bind]. eauto.
Qed.

Lemma fill_alike n : forall n' st st' p, n <= n' -> alike st st' -> within p -> sim (fill n st p) (fill n' st' p).
Proof.
  induction n as [|n IH]; intros n' st st' p L A W st1 l E; [discriminate|].
  destruct n' as [|n']; [lia|]. assert (L' : n <= n') by lia. cbn [fill] in *. pose proof A as (AF & AT & AC).
  destruct (pkind p) eqn:K.
  1-4: destruct (value_of p); [injection E as <- <-; eauto|];
    destruct (once_alike _ _ (leaf_class p) A) as (O1 & O2); destruct (once st (leaf_class p)) as [s1 x];
    injection E as <- <-; destruct (once st' (leaf_class p)) as [s2 y]; cbn [fst snd] in *; subst; eauto.
  - destruct (once_alike _ _ (enum_class p) A) as (O1 & O2). destruct (once st (enum_class p)) as [s1 x].
    injection E as <- <-. destruct (once st' (enum_class p)) as [s2 y]. cbn [fst snd] in *. subst. eauto.
  - discriminate.
  - discriminate.
  - destruct AT as (AT1 & AT2 & AT3). rewrite <- (AT1 (typeref p)) by (now apply within_ref).
    destruct (lookup (typeref p) (types st)) as [d|] eqn:Lk; [|discriminate].
    assert (WD : within d) by (eapply AT2; eauto; now apply within_ref).
    destruct (value_of p) as [a|].
    + destruct (negb (String.eqb (valref p) "") && negb (String.eqb (typeref p) "")).
      * destruct (chase (S (List.length (types st))) (types st) (typeref p)) as [[key d']|] eqn:Ch; [|discriminate].
        cbn [bind] in E. injection E as <- <-.
        destruct (chase_alike (types st) (types st') (S (List.length (types st))) (S (List.length (types st')))
                    (typeref p) (key, d')) as (Ch' & I & WD'); auto.
        { now split. } { lia. } { now apply within_ref. }
        rewrite Ch'. cbn [bind]. eexists. split; [reflexivity|]. split; [exact AF|]. split; [|exact AC].
        cbn [types]. apply agree_set; [now split|]. apply within_value; [exact WD'|now apply within_ref].
      * eapply IH in E; [exact E|exact L'| |].
        -- split; [exact AF|]. split; [|exact AC]. cbn [types]. apply agree_set; [now split|].
           apply within_value; auto. now apply within_ref.
        -- apply within_value; auto. now apply within_ref.
    + destruct (negb (String.eqb (ident p) "") && negb (String.eqb (typeref p) "")); [injection E as <- <-; eauto|].
      destruct (pkind d); try (injection E as <- <-; now eauto); eapply IH in E; eauto.
  - rewrite <- (inline_alike _ _ _ _ AT AC p W). destruct (inline (types st) (consts st) p) as [[comps c]|] eqn:In0; [|discriminate].
    cbn [bind] in *. rewrite <- AF. destruct (mem (class_text c) (filled st)); [injection E as <- <-; eauto|].
    pose proof (inline_within _ _ _ _ _ W In0) as FW.
    assert (B : sim (fold_left (step n) comps (Ok (put_text st c, []))) (fold_left (step n') comps (Ok (put_text st' c, [])))).
    { apply fold_alike; [intros; apply IH; auto|exact FW|]. intros x y [= <- <-]. eexists. split; [reflexivity|now apply put_alike]. }
    change (bind (fold_left (step n) comps (Ok (put_text st c, []))) (fun '(st2, l) => Ok (st2, l ++ [SClass c])) = Ok (st1, l)) in E.
    change (exists st'0, bind (fold_left (step n') comps (Ok (put_text st' c, []))) (fun '(st2, l) => Ok (st2, l ++ [SClass c])) = Ok (st'0, l) /\ alike st1 st'0).
    destruct (fold_left (step n) comps _) as [[s2 x]|]; [|discriminate]. cbn [bind] in E. injection E as <- <-.
    destruct (B s2 x eq_refl) as (s2' & -> & A2). cbn [bind]. eauto.
  - rewrite <- (inline_alike _ _ _ _ AT AC p W). destruct (inline (types st) (consts st) p) as [[comps c]|] eqn:In0; [|discriminate].
    cbn [bind] in *. rewrite <- AF. destruct (mem (class_text c) (filled st)); [injection E as <- <-; eauto|].
    pose proof (inline_within _ _ _ _ _ W In0) as FW.
    assert (B : sim (fold_left (step n) comps (Ok (put_text st c, []))) (fold_left (step n') comps (Ok (put_text st' c, [])))).
    { apply fold_alike; [intros; apply IH; auto|exact FW|]. intros x y [= <- <-]. eexists. split; [reflexivity|now apply put_alike]. }
    change (bind (fold_left (step n) comps (Ok (put_text st c, []))) (fun '(st2, l) => Ok (st2, l ++ [SClass c])) = Ok (st1, l)) in E.
    change (exists st'0, bind (fold_left (step n') comps (Ok (put_text st' c, []))) (fun '(st2, l) => Ok (st2, l ++ [SClass c])) = Ok (st'0, l) /\ alike st1 st'0).
    destruct (fold_left (step n) comps _) as [[s2 x]|]; [|discriminate]. cbn [bind] in E. injection E as <- <-.
    destruct (B s2 x eq_refl) as (s2' & -> & A2). cbn [bind]. eauto.
  - destruct (seqof_class p) as [[e c]|] eqn:Q; [|discriminate]. cbn [bind] in *. rewrite <- AF.
    destruct (mem (class_text c) (filled st)); [injection E as <- <-; eauto|].
    destruct (mem (typeref e) leaf_refs); [injection E as <- <-; eexists; split; [reflexivity|now apply put_alike]|].
    destruct (fill n (put_text st c) e) as [[s2 x]|] eqn:Fe; [|discriminate]. cbn [bind] in E. injection E as <- <-.
    assert (WE : within e).
    { unfold seqof_class in Q. destruct (members p) as [|[s|e'] [|? ?]] eqn:Mm; try discriminate. injection Q as <- _.
      eapply within_member; eauto. rewrite Mm. now left. }
    destruct (IH n' (put_text st c) (put_text st' c) e L' (put_alike _ _ c A) WE _ _ Fe) as (s2' & -> & A2).
    cbn [bind]. eauto.
Qed.

End Sim.

(** * The state before a schema *)

Lemma registered_app old l : registered old l = registered [] l ++ old.
Proof.
  unfold registered. change old with (@nil (string * ptype) ++ old) at 1. generalize (@nil (string * ptype)).
  induction l as [|p l IH]; intros acc; [reflexivity|]. cbn [fold_left]. destruct (has_value p); apply IH || apply (IH (_ :: acc)).
Qed.

Lemma registered_keys l n : In n (map fst (registered [] l)) <-> defines_type l n.
Proof.
  unfold registered, defines_type.
  assert (G : forall acc, In n (map fst (fold_left (fun acc p => if has_value p then acc else (type_key p, p) :: acc) l acc)) <->
     In n (map fst acc) \/ exists p, In p l /\ has_value p = false /\ type_key p = n).
  { induction l as [|p l IH]; intros acc; cbn [fold_left].
    - split; [auto|]. now intros [X|(p & [] & _)].
    - rewrite IH. destruct (has_value p) eqn:V; cbn [map fst In].
      + split; intros [X|(q & I & Q)]; auto.
        * right. exists q. auto.
        * destruct I as [<-|I]; [destruct Q; congruence|]. right. exists q. auto.
      + split; [intros [[X|X]|(q & I & Q)]|intros [X|(q & [<-|I] & Q1 & Q2)]]; auto.
        * right. exists p. auto.
        * right. exists q. auto.
        * right. exists q. auto. }
  rewrite G. cbn. tauto.
Qed.

Lemma registered_entry l n d : lookup n (registered [] l) = Some d -> In d l.
Proof.
  unfold registered.
  assert (G : forall acc, lookup n (fold_left (fun acc p => if has_value p then acc else (type_key p, p) :: acc) l acc) = Some d ->
     In d l \/ lookup n acc = Some d).
  { induction l as [|p l IH]; intros acc E; cbn [fold_left] in E; auto.
    destruct (IH _ E) as [X|X]; [left; now right|]. destruct (has_value p); auto.
    cbn [lookup] in X. destruct (String.eqb n (type_key p)); auto. injection X as <-. left. now left. }
  intros E. destruct (G [] E) as [X|X]; [exact X|discriminate].
Qed.

Lemma lookup_in n (ts : list (string * ptype)) : lookup n ts = None <-> ~ In n (map fst ts).
Proof.
  induction ts as [|[m x] ts IH]; cbn [lookup map fst In]; [tauto|].
  destruct (String.eqb_spec n m) as [->|Ne]; [split; [discriminate|tauto]|]. rewrite IH. intuition congruence.
Qed.

Lemma lookup_app n (a b : list (string * ptype)) :
  lookup n (a ++ b) = match lookup n a with Some d => Some d | None => lookup n b end.
Proof. induction a as [|[m x] a IH]; [reflexivity|]. cbn [app lookup]. destruct (String.eqb n m); auto. Qed.

Lemma mem_in s l : mem s l = true <-> In s l.
Proof.
  unfold mem. rewrite existsb_exists. split.
  - intros (x & I & E). apply String.eqb_eq in E. now subst.
  - intros I. exists s. split; auto. apply String.eqb_refl.
Qed.

Lemma mem_app s l m : mem s (l ++ m) = mem s l || mem s m.
Proof. apply existsb_app. Qed.

Lemma visit_sub_in comps ci st r p : In p (outs (visit_sub comps ci st r)) -> In p (outs st) \/ In p comps.
Proof.
  unfold visit_sub. destruct (mem r (refs st)); auto. destruct (position _ _) as [j|]; auto.
  destruct (_ && _); auto. destruct (nth_error comps j) as [c|] eqn:E; auto. cbn [outs]. intros X.
  apply in_app_or in X as [X|[<-|[]]]; auto. right. eapply nth_error_In; eauto.
Qed.

Lemma visit_in comps st ic p : In (snd ic) comps -> In p (outs (visit comps st ic)) -> In p (outs st) \/ In p comps.
Proof.
  destruct ic as [ci c]. cbn [snd visit]. intros C.
  assert (G : forall rs st, In p (outs (fold_left (visit_sub comps ci) rs st)) -> In p (outs st) \/ In p comps).
  { induction rs as [|r rs IH]; intros s0 X; cbn [fold_left] in X; auto. destruct (IH _ X) as [Y|Y]; auto.
    now apply visit_sub_in in Y. }
  destruct (mem _ _); [apply G|]. cbn [outs]. intros X. apply in_app_or in X as [X|[<-|[]]]; auto. eapply G; eauto.
Qed.

Lemma pass_in comps p : In p (outs (sort_pass comps)) -> In p comps.
Proof.
  unfold sort_pass.
  assert (G : forall ics st, (forall ic, In ic ics -> In (snd ic) comps) ->
            In p (outs (fold_left (visit comps) ics st)) -> In p (outs st) \/ In p comps).
  { induction ics as [|ic ics IH]; intros st F X; cbn [fold_left] in X; auto.
    destruct (IH (visit comps st ic)) as [Y|Y]; auto. { intros y Y. apply F. now right. }
    apply visit_in in Y; auto. apply F. now left. }
  assert (C : forall ic, In ic (combine (seq 0 (List.length comps)) comps) -> In (snd ic) comps).
  { intros [i c] Y. apply in_combine_r in Y. exact Y. }
  intros X. destruct (G _ _ C X) as [[]|Y]. exact Y.
Qed.

Lemma loop_in n : forall comps p, In p (sort_loop n comps) -> In p comps.
Proof.
  induction n as [|n IH]; intros comps p X; cbn [sort_loop] in X; auto.
  destruct (quiet (sort_pass comps)); [now apply pass_in|]. apply pass_in. now apply IH.
Qed.

(** The order of module.py 39-61 writes nothing that was not there. *)
Lemma sort_in l out p : sort_assignments l = Ok out -> In p out -> In p l.
Proof.
  intros E X. apply sort_ok in E as (_ & types & comps & A & ->).
  pose proof (additional_permutation (aliases_of l) [] (sort_components (structs_of l))) as Q.
  unfold additional_sort in A. rewrite A in Q. cbn [fst snd app] in Q.
  assert (F : forall f, In p (filter f l) -> In p l) by (intros f Y; now apply filter_In in Y).
  assert (T : In p (types ++ comps) -> In p l).
  { intros Y. apply (Permutation_in _ (Permutation_sym Q)) in Y. apply in_app_or in Y as [Y|Y]; [eapply F; exact Y|].
    apply loop_in in Y. eapply F; exact Y. }
  apply in_app_or in X as [X|X]; [eapply F; exact X|]. apply in_app_or in X as [X|X]; [eapply F; exact X|].
  apply in_app_or in X as [X|X]; [apply T, in_or_app; now left|].
  apply in_app_or in X as [X|X]; [eapply F; exact X|]. apply T, in_or_app; now right.
Qed.

Lemma all_alike N Ds n n' l : n <= n' -> Forall (within N Ds) l -> forall st st', alike N Ds st st' ->
  sim N Ds (fill_all n st l) (fill_all n' st' l).
Proof.
  intros L W. induction W as [|p l Wp W IH]; intros st st' A s1 o E; cbn [fill_all] in *.
  - injection E as <- <-. eauto.
  - destruct (fill n st p) as [[s2 a]|] eqn:Ef; [|discriminate]. cbn [bind] in E.
    destruct (fill_all n s2 l) as [[s3 b]|] eqn:Eg; [|discriminate]. cbn [bind] in E. injection E as <- <-.
    destruct (fill_alike N Ds n n' st st' p L A Wp s2 a Ef) as (s2' & -> & A2). cbn [bind].
    destruct (IH s2 s2' A2 s3 b Eg) as (s3' & -> & A3). cbn [bind]. eauto.
Qed.

(** C57, the part that holds: the statements written for a schema that names only
    its own types and constants do not depend on the schemas parsed before. *)
Theorem C57_independent_partial : forall old l out,
  own_types old l -> own_constants old l -> emit l = Ok out ->
  exists st, emit_after old l = Ok (st, out).
Proof.
  intros old l out OT OC E. unfold emit, emit_after in E. cbn [types consts app] in E.
  destruct (sort_assignments l) as [sorted|] eqn:Es; [|discriminate]. cbn [bind] in E.
  destruct (fill_all _ _ sorted) as [[st o]|] eqn:Ef; [|discriminate]. cbn [bind] in E. injection E as <-.
  unfold emit_after. rewrite Es. cbn [bind].
  set (N := flat_map uses l). set (Ds := flat_map fallbacks l).
  assert (WI : forall p, In p l -> within N Ds p).
  { intros p X. split; intros n U; apply in_flat_map; eauto. }
  enough (A : sim N Ds (fill_all (depth_bound (registered [] l) l) (G [] (registered [] l) (map valref (constants_of l))) sorted)
    (fill_all (depth_bound (registered (types old) l) l) (G [] (registered (types old) l) (consts old ++ map valref (constants_of l))) sorted)).
  { destruct (A st o Ef) as (st' & F & _). eauto. }
  apply all_alike.
  - unfold depth_bound. rewrite (registered_app (types old)), map_app, list_sum_app. lia.
  - apply Forall_forall. intros p X. apply WI. eapply sort_in; eauto.
  - split; [reflexivity|]. cbn [types consts]. split; [split; [|split]|].
    + intros n Hn. rewrite (registered_app (types old)), lookup_app.
      destruct (lookup n (registered [] l)) eqn:L; auto. symmetry. apply lookup_in. intros X.
      apply in_flat_map in Hn as (p & Ip & U). apply lookup_in in L. apply L, registered_keys. eapply OT; eauto.
    + intros n d _ L. apply WI. eapply registered_entry; eauto.
    + rewrite (registered_app (types old)), app_length. lia.
    + intros d Hd. rewrite mem_app. destruct (mem d (map valref (constants_of l))) eqn:M; [now rewrite orb_true_r|].
      rewrite orb_false_r. symmetry. destruct (mem d (consts old)) eqn:M'; [|reflexivity].
      apply mem_in in M'. apply in_flat_map in Hd as (p & Ip & U). destruct (OC p d Ip U M') as (q & Iq & Q1 & Q2 & Q3).
      exfalso. assert (X : mem d (map valref (constants_of l)) = true); [|congruence].
      apply mem_in. rewrite <- Q3. apply in_map. apply filter_In. split; auto. now rewrite Q1, Q2.
Qed.

(** ** Schemas of the fragment of C49 *)

(** The names the parse actions give to types written inside other types
    (parse_actions.py; class names of the library). *)
Definition inner_names : list string :=
  ["IntegerType"; "BooleanType"; "OctetStringType"; "BitStringType"; "EnumeratedType"; "SequenceType"; "ChoiceType"; "SequenceOfType"].

Lemma own_ref_inner t : In (own_ref t) inner_names \/ refers t (own_ref t).
Proof. destruct t; try (left; vm_compute; tauto). right. constructor. Qed.

Lemma body_member comp ext root adds groups q :
  (forall p, comp p = inr (built (own_ref (p_type p)) (p_name p) (p_status p) (p_type p))) ->
  In (inr q) (map comp root ++ (if ext : bool then inl "..." :: map comp adds ++ flat_map (fun g => inl "[[" :: map comp g ++ [inl "]]"]) groups else [])) ->
  exists p, In p (all_parts root adds groups) /\ q = built (own_ref (p_type p)) (p_name p) (p_status p) (p_type p).
Proof.
  intros C X. assert (M : forall l, In (inr q) (map comp l) -> exists p, In p l /\ q = built (own_ref (p_type p)) (p_name p) (p_status p) (p_type p)).
  { intros l Y. apply in_map_iff in Y as (p & E & Ip). rewrite C in E. injection E as <-. eauto. }
  unfold all_parts. apply in_app_or in X as [X|X].
  - destruct (M _ X) as (p & Ip & E). exists p. split; auto. apply in_or_app. auto.
  - destruct ext; [|destruct X]. destruct X as [X|X]; [discriminate|]. apply in_app_or in X as [X|X].
    + destruct (M _ X) as (p & Ip & E). exists p. split; auto. apply in_or_app. right. apply in_or_app. auto.
    + apply in_flat_map in X as (g & Ig & [X|X]); [discriminate|]. apply in_app_or in X as [X|[X|[]]]; [|discriminate].
      destruct (M _ X) as (p & Ip & E). exists p. split; auto. apply in_or_app. right. apply in_or_app. right. apply in_concat. eauto.
Qed.

Lemma uses_built t : forall tr id s n, In n (uses (built tr id s t)) -> n = tr \/ In n inner_names \/ refers t n.
Proof.
  induction t as [r| |r|r|root adds|ext root adds groups IH|ext root adds groups IH|r e IH|m r] using asn_rect'; intros tr id s n U.
  1-4: destruct U as [<-|[]]; auto.
  - destruct U as [<-|U]; auto. apply in_flat_map in U as ([x|q] & X & U); [destruct U|].
    apply in_app_or in X as [X|X]; [apply in_map_iff in X as (? & ? & _); discriminate|].
    destruct adds; [|destruct X]. destruct X as [X|X]; [discriminate|]. apply in_map_iff in X as (? & ? & _); discriminate.
  - destruct U as [<-|U]; auto. apply in_flat_map in U as ([x|q] & X & U); [destruct U|].
    apply body_member in X as (p & Ip & ->); [|now intros []].
    specialize (IH p Ip). destruct p as [pn ps pt]. cbn [p_type p_name p_status] in *.
    apply IH in U as [->|[U|U]]; auto.
    + destruct (own_ref_inner pt) as [U|U]; auto. right. right. eapply refers_sequence; eauto.
    + right. right. eapply refers_sequence; eauto.
  - destruct U as [<-|U]; auto. apply in_flat_map in U as ([x|q] & X & U); [destruct U|].
    apply body_member in X as (p & Ip & ->); [|now intros []].
    specialize (IH p Ip). destruct p as [pn ps pt]. cbn [p_type p_name p_status] in *.
    apply IH in U as [->|[U|U]]; auto.
    + destruct (own_ref_inner pt) as [U|U]; auto. right. right. eapply refers_choice; eauto.
    + right. right. eapply refers_choice; eauto.
  - destruct U as [<-|U]; auto. cbn [flat_map app] in U. rewrite app_nil_r in U. apply IH in U as [->|[U|U]]; auto.
    + destruct (own_ref_inner e) as [U|U]; auto. right. right. now constructor.
    + right. right. now constructor.
  - destruct U as [<-|[]]; auto.
Qed.

(** A schema of the fragment after any others: the statements are those it has
    alone, so the module runs and its names mean what they should -- unless an
    earlier schema defined a type with one of the inner names, or a constant whose
    name is the text of a DEFAULT of this one. *)
Theorem C57_second_schema_partial : forall old S,
  fine_schema S -> sortable S ->
  (forall n, In n (map fst (types old)) -> ~ In n inner_names) ->
  (forall a d, In a S -> In d (fallbacks (parsed_as a)) -> ~ In d (consts old)) ->
  exists st out g, emit (map parsed_as S) = Ok out /\ emit_after old (map parsed_as S) = Ok (st, out) /\ Exec.run out = Ok g /\
    (forall n t, In (TypeA n t) S -> exists T, means S t T /\ binds g (underscore n) T).
Proof.
  intros old S FS SS T C. destruct (C49_modules_partial S FS SS) as (out & g & E & X & B & _).
  destruct (C57_independent_partial old (map parsed_as S) out) as (st & E'); eauto 10.
  - intros p n Ip U O. apply in_map_iff in Ip as (a & <- & Ia).
    assert (K : forall m tm, In (TypeA m tm) S -> defines_type (map parsed_as S) m).
    { intros m tm Im. exists (parsed_as (TypeA m tm)). destruct (parsed_key S FS m tm Im) as (? & ?).
      split; auto. now apply in_map. }
    assert (R : forall m t r, In (TypeA m t) S -> refers t r -> defines_type (map parsed_as S) r).
    { intros m t r Im Rf. destruct (fine_means S FS m t Im) as (Tm & M). destruct (means_known S t Tm M r Rf) as (tm & It). eauto. }
    destruct a as [m t|m t l].
    + assert (N : n = m \/ In n inner_names \/ refers t n).
      { destruct t; cbn [parsed_as] in U; apply uses_built in U as [->|[U|U]]; auto. right. right. constructor. }
      destruct N as [->|[N|N]]; eauto. now apply T in O.
    + destruct (fine_values S FS m t l Ia) as (_ & _ & BV & _).
      assert (N : In n inner_names); [|now apply T in O].
      destruct t; try destruct BV; cbn [parsed_as built] in U; destruct U as [<-|[]]; vm_compute; tauto.
  - intros p n Ip F O. apply in_map_iff in Ip as (a & <- & Ia). now apply (C a n Ia F) in O.
Qed.

(** * Texts *)

From Verif Require Import FineCheck Grammar Settled Fast GrammarFaults.

(** [parsed old s st out]: parse_asn1_schema on the text [s], in a process that
    earlier calls left in the state [old], writes the statements [out] and leaves
    the state [st]. *)
Definition parsed (old : gstate) (s : string) (st : gstate) (out : list stmt) : Prop :=
  exists r ps, reads_as s (Match r ps) /\ emit_after old ps = Ok (st, out).
Definition fresh : gstate := G [] [] [].

Ltac read_text := eexists _, _; split;
  [exists 300; intros n Hn; rewrite (schema_settled 300 n) by (auto; rewrite read_fast; vm_compute; discriminate);
   rewrite read_fast; vm_compute; reflexivity | vm_compute; reflexivity].

Definition ten_constant : string := module "Count ::= INTEGER (0..99) ten Count ::= 10".
Definition ten_item : string := module "Mode ::= ENUMERATED {one, ten} Msg ::= SEQUENCE { mode Mode DEFAULT ten }".

(** Two complete schemas with no type in common.  The second alone gives a module
    that runs; in a process that has parsed the first one, the module names the
    constant of the first and cannot be imported. *)
Theorem C57_constants_refuted : exists first second st1 o1 st o g st2 o2,
  parsed fresh first st1 o1 /\ parsed fresh second st o /\ Exec.run o = Ok g /\
  parsed st1 second st2 o2 /\ Exec.run o2 = Err PyNameError.
Proof.
  exists ten_constant, ten_item. eexists _, _, _, _, _, _, _. split; [read_text|]. split; [read_text|].
  split; [vm_compute; reflexivity|]. split; [read_text|]. vm_compute. reflexivity.
Qed.

Definition inner_defined : string := module "EnumeratedType ::= BOOLEAN".
Definition inner_used : string := module "Msg ::= SEQUENCE { a ENUMERATED {x, y} DEFAULT x }".

(** The same with a type named like a class of the library. *)
Theorem C57_inner_names_refuted : exists first second st1 o1 st o g st2 o2 e,
  parsed fresh first st1 o1 /\ parsed fresh second st o /\ Exec.run o = Ok g /\
  parsed st1 second st2 o2 /\ Exec.run o2 = Err e.
Proof.
  exists inner_defined, inner_used. eexists _, _, _, _, _, _, _, _. split; [read_text|]. split; [read_text|].
  split; [vm_compute; reflexivity|]. split; [read_text|]. vm_compute. reflexivity.
Qed.

Definition point_defined : string := module "Point ::= SEQUENCE { x INTEGER }".
Definition point_missing : string := module "Path ::= SEQUENCE OF Point".

(** A schema that lacks a type is refused alone (module.py raises KeyError), and is
    accepted, with the type of another schema, after that one. *)
Theorem C57_missing_types_refuted : exists first second r ps st1 o1 st2 o2 g,
  parsed fresh first st1 o1 /\ reads_as second (Match r ps) /\ emit_after fresh ps = Err PyKeyError /\
  parsed st1 second st2 o2 /\ Exec.run o2 = Ok g /\ lookup "Point" g <> None.
Proof.
  exists point_defined, point_missing. eexists _, _, _, _, _, _, _. split; [read_text|].
  split; [exists 300; intros n Hn; rewrite (schema_settled 300 n) by (auto; rewrite read_fast; vm_compute; discriminate);
   rewrite read_fast; vm_compute; reflexivity|]. split; [vm_compute; reflexivity|].
  split; [read_text|]. split; [vm_compute; reflexivity|]. vm_compute. discriminate.
Qed.

(** ** A case of the positive theorems: an earlier schema with other types of the
    same names and a constant. *)
Definition shape : schema :=
  [TypeA "Point" (ASequence false [Part "x" Mandatory (AInteger None); Part "mode" (Default (LItem "big")) (AEnumer ["small"; "big"] None)] [] []);
   TypeA "Path" (ASeqOf None (ARef "Point" None))].
Definition before : string := module "Point ::= INTEGER ten Point ::= 10 Path ::= BOOLEAN".
Definition before_left : gstate * list stmt := Eval vm_compute in
  match fast_schema 300 before with
  | Match _ ps => match emit_after fresh ps with Ok x => x | Err _ => (fresh, []) end
  | _ => (fresh, [])
  end.
Example C57_case : exists st out g T,
  parsed fresh before (fst before_left) (snd before_left) /\
  consts (fst before_left) = ["ten"] /\ map fst (types (fst before_left)) = ["Point"; "Path"; "Point"] /\
  emit (map parsed_as shape) = Ok out /\ emit_after (fst before_left) (map parsed_as shape) = Ok (st, out) /\
  Exec.run out = Ok g /\ binds g "Path" T.
Proof.
  destruct (checked_fine 20 shape) as (F & O); [vm_compute; reflexivity|].
  destruct (C57_second_schema_partial (fst before_left) shape F O) as (st & out & g & E & E' & X & B).
  - intros n N. change (map fst (types (fst before_left))) with ["Point"; "Path"; "Point"] in N. intros M. vm_compute in M.
    destruct N as [<-|[<-|[<-|[]]]]; repeat (destruct M as [M|M]; [discriminate|]); destruct M.
  - intros a d A. destruct A as [<-|[<-|[]]]; vm_compute; intros [<-|[]] || intros []; intros [M|[]]; discriminate.
  - destruct (B "Path" _ (or_intror (or_introl eq_refl))) as (T & _ & BT). exists st, out, g, T.
    split; [read_text|]. split; [reflexivity|]. split; [reflexivity|]. auto.
Qed.
