(** Dictionaries: agreement across the wire (C30) and faithfulness (C31). *)
From Coq Require Import ZArith List String Ascii Bool Lia Arith Relations.
From Coq Require Import ZifyBool ZifyNat ZifyN.
Import ListNotations.
From Verif Require Import PyBase Schema Encoder Decoder BitFacts Stream Prims Spec SimpleTypes
  RoundTrip Reading Sequences Robust PropsRoundTrip Dict Objects.
Open Scope string_scope. Open Scope list_scope. Open Scope Z_scope.

(** What a component contributes: noValue when it is not asked. *)
Definition shown (c : comp ty) (v : val) : res dict :=
  if is_value (cty c) v || negb (is_simple (cty c)) then to_dict (cty c) false v else Ok DNoValue.

Lemma seq_items_cons c cs s ss : seq_items (att to_dict (c :: cs)) (s :: ss) =
  let* d := shown c (slot_get c s) in
  let* l := seq_items (att to_dict cs) ss in Ok (put (cname c) d l).
Proof.
  cbn [att map seq_items]. unfold shown. fold (att to_dict cs).
  destruct (is_value (cty c) (slot_get c s) || negb (is_simple (cty c))); auto.
  cbn [bind put]. now destruct (seq_items (att to_dict cs) ss).
Qed.

Lemma seq_items_same cs ss ss' :
  slots3 (fun c s s' => shown c (slot_get c s') = shown c (slot_get c s)) cs ss ss' ->
  seq_items (att to_dict cs) ss' = seq_items (att to_dict cs) ss.
Proof. induction 1 as [|c s s' cs ss ss' H _ IH]; auto. now rewrite !seq_items_cons, H, IH. Qed.

Lemma slots3_of_nth (R : comp ty -> option val -> option val -> Prop) cs : forall ss ss',
  len ss = len cs -> len ss' = len cs ->
  (forall i c s s', nth_error cs i = Some c -> nth_error ss i = Some s -> nth_error ss' i = Some s' -> R c s s') ->
  slots3 R cs ss ss'.
Proof.
  induction cs as [|c cs IH]; intros [|s ss] [|s' ss'] L L' H; try discriminate; constructor.
  - now apply (H 0%nat).
  - apply IH; try (cbn [List.length] in *; lia). intros i. apply (H (S i)).
Qed.

Lemma group_valued_cons c g s ss :
  group_valued (c :: g) (s :: ss) = present (cty c) (slot_get c s) || group_valued g ss.
Proof. reflexivity. Qed.

(** * Printing an object that has been read *)

(** Every selected component of a CHOICE has a value. *)
Definition chosen_slot (ca : comp ty * (val -> Prop)) (s : option val) : Prop :=
  snd ca (slot_get (fst ca) s).

Fixpoint chosen_ok (t : ty) (v : val) {struct t} : Prop :=
  match t, v with
  | TSeq _ root adds groups, VSeq slots =>
      all_of (zipw chosen_slot (att chosen_ok root ++ att chosen_ok adds
                                ++ List.concat (map (att chosen_ok) groups))
                   (slots_list (ncomps root adds groups) slots))
  | TSeqOf _ t', VSeqOf vs => all_of (map (chosen_ok t') vs)
  | TChoice _ root adds groups, VChoice (Some (i, v')) =>
      match nth_error (att chosen_ok root ++ att chosen_ok adds
                       ++ List.concat (map (att chosen_ok) groups)) i with
      | Some ca => is_value (cty (fst ca)) v' = true /\ snd ca v'
      | None => True
      end
  | _, _ => True
  end.

Lemma simple_shown c v v' : is_simple (cty c) = true -> v' = v -> shown c v' = shown c v.
Proof. now intros _ ->. Qed.

Lemma shown_constructed c v : is_simple (cty c) = false -> shown c v = to_dict (cty c) false v.
Proof. intros H. unfold shown. rewrite H. cbn [negb]. now rewrite orb_true_r. Qed.

Lemma to_dict_same t : forall b v v', formed t -> shaped t v -> chosen_ok t v -> woken t v v' ->
  to_dict t b v' = to_dict t b v.
Proof.
  induction t as [t S0|e r a g IH|c t IH|e r a g IH] using ty_ind2; intros b v v' F Sh C W.
  - apply woken_simple in W; auto. now subst.
  - destruct (woken_kind _ _ _ W) as [->|[(e' & r' & a' & g' & s & s' & E & -> & ->)|[(?&?&?&?&E&_)|(?&?&?&?&?&?&?&E&_)]]];
      auto; try discriminate. clear E e' r' a' g'. rewrite Forall_forall in IH.
    cbn [to_dict chosen_ok] in *. rewrite !all_att. rewrite all_att, zipw_all in C.
    pose proof Sh as Sh0. apply shaped_seq in Sh0 as (L & _ & _).
    apply woken_seq in W as (_ & _ & W3 & W). set (n := ncomps r a g) in *.
    rewrite (seq_items_same _ (slots_list n s) (slots_list n s')); auto.
    apply slots3_of_nth; [exact L|rewrite W3; exact L|]. intros i c x y Hc Hx Hy.
    destruct (comp_found _ _ _ _ _ _ _ _ F Sh Hc Hx) as (Fc & Sc).
    specialize (W i c x y Hc Hx Hy). destruct y as [w|]; [|now subst x]. cbn [slot_get] in W |- *.
    specialize (C i c x Hc Hx). unfold chosen_slot in C. cbn [fst snd] in C.
    destruct (is_simple (cty c)) eqn:Si.
    + apply simple_shown; auto. eapply woken_simple; eauto.
    + rewrite !shown_constructed by auto. apply IH; auto. eapply nth_error_In; eauto.
  - destruct (woken_kind _ _ _ W) as [->|[(?&?&?&?&?&?&E&_)|[(c'&t''&l&l'&E&->&->)|(?&?&?&?&?&?&?&E&_)]]];
      auto; try discriminate. clear E c' t''. cbn [shaped woken formed chosen_ok to_dict] in *.
    apply all_of_map in Sh, C. f_equal.
    induction W as [|x y l l' H _ IHl]; auto. apply Forall_cons_iff in Sh as (Sx & Sl).
    apply Forall_cons_iff in C as (Cx & Cl). cbn [list_items]. rewrite IHl by auto.
    destruct (is_simple t) eqn:Si.
    + apply woken_simple in H; auto. now subst.
    + cbn [negb]. rewrite !orb_true_r. now rewrite (IH false x y).
  - destruct (woken_kind _ _ _ W) as [->|[(?&?&?&?&?&?&E&_)|[(?&?&?&?&E&_)|(e'&r'&a'&g'&i&x&y&E&->&->)]]];
      auto; try discriminate. clear E e' r' a' g'. apply woken_choice in W as (_ & W).
    apply (fun H => formed_comps e r a g (or_intror H)) in F as (N & F). rewrite Forall_forall in F.
    apply shaped_choice in Sh. rewrite Forall_forall in IH. cbn [to_dict chosen_ok] in *.
    rewrite !all_att, !nth_error_att. rewrite all_att, nth_error_att in C. destruct (nth_error (all_comps r a g) i) as [c|] eqn:Ec; auto.
    cbn [option_map fst snd] in *. apply nth_error_In in Ec. destruct (F c Ec), C as (V & C).
    rewrite V, (woken_value (cty c) x y) by auto. rewrite (IH c Ec false x y); auto.
Qed.

(** DEFAULT is used on simple types only (the encoder raises otherwise). *)
Fixpoint plain (t : ty) : bool :=
  match t with
  | TSeq _ root adds groups | TChoice _ root adds groups =>
      forallb (fun c => (negb (is_defaulted c) || is_simple (cty c)) && plain (cty c)) root &&
      forallb (fun c => (negb (is_defaulted c) || is_simple (cty c)) && plain (cty c)) adds &&
      forallb (forallb (fun c => (negb (is_defaulted c) || is_simple (cty c)) && plain (cty c))) groups
  | TSeqOf _ t' => plain t'
  | _ => true
  end.

Lemma plain_comps e r a g : plain (TSeq e r a g) = true \/ plain (TChoice e r a g) = true ->
  Forall (fun c => (is_defaulted c = true -> is_simple (cty c) = true) /\ plain (cty c) = true) (all_comps r a g).
Proof.
  intros H. assert (K : plain (TSeq e r a g) = true) by (destruct H; auto). clear H. cbn [plain] in K.
  apply forallb_all in K. eapply Forall_impl; [|exact K]. cbn beta. intros c H.
  apply andb_true_iff in H as (H & ->). split; auto. intros D. now rewrite D in H.
Qed.

Lemma chosen_simple t v : is_simple t = true -> chosen_ok t v.
Proof. destruct t; try discriminate; destruct v; intros _; exact I. Qed.

Lemma chosen_fresh t : plain t = true -> chosen_ok t (fresh t).
Proof.
  induction t as [t S0|e r a g IH|c t IH|e r a g IH] using ty_ind2; intros P.
  - now apply chosen_simple.
  - cbn [fresh chosen_ok]. rewrite all_att, zipw_all. intros i c s Hc Hs. unfold chosen_slot. cbn [fst snd].
    cbn [slots_list] in Hs. apply nth_error_In, repeat_spec in Hs. subst s. apply nth_error_In in Hc.
    pose proof (plain_comps e r a g (or_introl P)) as Pc. rewrite Forall_forall in Pc, IH.
    destruct (Pc c Hc) as (D & Pt). cbn [slot_get]. unfold is_defaulted in D. destruct (cpres c); auto.
    apply chosen_simple. auto.
  - cbn [fresh chosen_ok map]. apply all_of_nil.
  - exact I.
Qed.

Lemma fresh_same t b v : formed t -> plain t = true -> woken t (fresh t) v ->
  to_dict t b v = to_dict t b (fresh t).
Proof. intros F P W. apply to_dict_same; auto using shaped_fresh, chosen_fresh. Qed.

(** * C30 *)

(** Components that are not sent hold nothing: they are as the declaration made
    them, possibly instantiated.  The selected component of a CHOICE has a value
    and content. *)
Definition idle_root (ca : comp ty * (val -> Prop)) (s : option val) : Prop :=
  let c := fst ca in
  let v := slot_get c s in
  match cpres c with
  | Mand => snd ca v
  | Opt => if present (cty c) v then snd ca v else woken (cty c) (fresh (cty c)) v
  | Dflt _ => True
  end.

Definition idle_add (ca : comp ty * (val -> Prop)) (s : option val) : Prop :=
  let c := fst ca in
  let v := slot_get c s in
  if present (cty c) v then snd ca v else woken (cty c) (fresh (cty c)) v.

Definition idle_group (g : list (comp ty * (val -> Prop))) (ss : list (option val)) : Prop :=
  if group_valued (map fst g) ss then all_of (zipw idle_root g ss)
  else all_of (zipw (fun ca s => woken (cty (fst ca)) (fresh (cty (fst ca))) (slot_get (fst ca) s)) g ss).

Fixpoint idle_groups (gs : list (list (comp ty * (val -> Prop)))) (ss : list (option val)) : Prop :=
  match gs with
  | [] => True
  | g :: gs' => idle_group g ss /\ idle_groups gs' (skipn (List.length g) ss)
  end.

Fixpoint idle (t : ty) (v : val) {struct t} : Prop :=
  match t, v with
  | TSeq ext root adds groups, VSeq slots =>
      let ss := slots_list (ncomps root adds groups) slots in
      all_of (zipw idle_root (att idle root) ss) /\
      all_of (zipw idle_add (att idle adds) (skipn (List.length root) ss)) /\
      idle_groups (map (att idle) groups) (skipn (List.length root + List.length adds) ss)
  | TSeqOf _ t', VSeqOf vs => all_of (map (idle t') vs)
  | TChoice _ root adds groups, VChoice (Some (i, v')) =>
      match nth_error (att idle root ++ att idle adds
                       ++ List.concat (map (att idle) groups)) i with
      | Some ca => is_value (cty (fst ca)) v' = true /\ contentful (cty (fst ca)) v' /\ snd ca v'
      | None => True
      end
  | _, _ => True
  end.

Definition same_dict (t : ty) : Prop := forall b v fs, supported t v -> enc t v = Ok fs ->
  formed t -> plain t = true -> idle t v -> to_dict t b (canon t v) = to_dict t b v.

Definition agrees (c : comp ty) (s s' : option val) : Prop :=
  shown c (slot_get c s') = shown c (slot_get c s).

Definition comp_plain (c : comp ty) : Prop :=
  same_dict (cty c) /\ formed (cty c) /\
  (is_defaulted c = true -> is_simple (cty c) = true) /\ plain (cty c) = true.

Lemma canon_simple t v : is_simple t = true -> canon t v = v.
Proof. destruct t; try discriminate; destruct v; reflexivity. Qed.

Lemma canon_shown c v fs : comp_plain c -> supported (cty c) v -> enc (cty c) v = Ok fs ->
  idle (cty c) v -> shown c (canon (cty c) v) = shown c v.
Proof.
  intros (H & F & _ & P) S E I. destruct (is_simple (cty c)) eqn:Si.
  - now rewrite canon_simple.
  - rewrite !shown_constructed by auto. eapply H; eauto.
Qed.

Lemma fresh_shown c v : comp_plain c -> woken (cty c) (fresh (cty c)) v ->
  shown c (fresh (cty c)) = shown c v.
Proof.
  intros (_ & F & _ & P) W. destruct (is_simple (cty c)) eqn:Si.
  - apply woken_simple in W; auto. now subst.
  - rewrite !shown_constructed by auto. symmetry. now apply fresh_same.
Qed.

Lemma root_agrees cs ss : Forall comp_plain cs -> Forall2 comp_inv cs ss ->
  Forall2 (fun c s => idle_root (c, idle (cty c)) s) cs ss ->
  slots3 agrees cs ss (zipw canon_root (att canon cs) ss).
Proof.
  intros P H. revert P. induction H as [|c s cs ss Hc H IH]; intros P I; [constructor|].
  apply Forall_cons_iff in P as (Pc & P). apply Forall2_cons_iff in I as (Ic & I).
  cbn [att map zipw]. constructor; [|now apply IH]. clear IH H I P.
  destruct Hc as (S & D & E). unfold supp_root, idle_root, canon_root, agrees in *. cbn [fst snd] in *.
  unfold sent_root in *. destruct (cpres c) as [| |d] eqn:Pr.
  - destruct (E eq_refl) as (f & Ef). cbn [slot_get]. eapply canon_shown; eauto.
  - destruct (present (cty c) (slot_get c s)) eqn:V.
    + destruct (E eq_refl) as (f & Ef). destruct (S eq_refl) as (_ & Sv). cbn [slot_get]. eapply canon_shown; eauto.
    + cbn [slot_get]. rewrite Pr. now apply fresh_shown.
  - destruct S as (SD & Sv). destruct (D d eq_refl) as (b & B). rewrite B in *.
    pose proof (default_decided _ _ _ SD B) as DD. destruct b.
    + cbn [slot_get]. rewrite canon_simple; auto. apply Pc. unfold is_defaulted. now rewrite Pr.
    + cbn [slot_get]. rewrite Pr. f_equal. symmetry. tauto.
Qed.

Lemma add_agrees cs ss : Forall comp_plain cs -> Forall2 add_inv cs ss ->
  Forall2 (fun c s => idle_add (c, idle (cty c)) s) cs ss ->
  slots3 agrees cs ss (zipw canon_add (att canon cs) ss).
Proof.
  intros P H. revert P. induction H as [|c s cs ss Hc H IH]; intros P I; [constructor|].
  apply Forall_cons_iff in P as (Pc & P). apply Forall2_cons_iff in I as (Ic & I).
  cbn [att map zipw]. constructor; [|now apply IH]. clear IH H I P.
  destruct Hc as ((D & S) & E). unfold idle_add, canon_add, agrees in *. cbn [fst snd] in *.
  unfold sent_add in *. destruct (present (cty c) (slot_get c s)) eqn:V.
  - destruct (E eq_refl) as (f & Ef). destruct (S eq_refl) as (_ & Sv & _). cbn [slot_get]. eapply canon_shown; eauto.
  - cbn [slot_get]. unfold is_defaulted in D. destruct (cpres c); try (now apply fresh_shown).
    specialize (D eq_refl). discriminate.
Qed.

Lemma groups_agree gs sgs : Forall comp_plain (List.concat gs) -> Forall2 group_inv gs sgs ->
  idle_groups (map (att idle) gs) (List.concat sgs) ->
  slots3 agrees (List.concat gs) (List.concat sgs)
         (List.concat (zipw (fun g sg => canon_group (att canon g) sg) gs sgs)).
Proof.
  intros P H. revert P. induction H as [|g sg gs sgs (L & D & Hg) H IH]; intros P I; [constructor|].
  cbn [List.concat zipw map idle_groups] in *. apply Forall_app in P as (P1 & P2). destruct I as (I1 & I2).
  rewrite att_length, skipn_len_app in I2 by auto. apply slots3_app; auto. clear IH I2 P2 H.
  unfold idle_group in I1. rewrite att_fst, group_valued_app in I1 by lia.
  unfold canon_group. rewrite att_fst. destruct (group_valued g sg) eqn:V.
  - specialize (Hg eq_refl). rewrite zipw_app_r in I1 by (rewrite att_length; lia).
    rewrite zipw_att in I1. apply Forall2_all_of in I1; auto.
    assert (SC : Forall2 (fun c s => present (cty c) (slot_get c s) = true -> contentful (cty c) (slot_get c s)) g sg).
    { eapply Forall2_impl'; [|exact Hg]. cbn beta. tauto. }
    rewrite (group_valued_sent g sg L SC V). apply root_agrees; auto.
    eapply Forall2_impl'; [|exact Hg]. cbn beta. tauto.
  - destruct (group_sent g sg) eqn:GS; [apply group_sent_some in GS; congruence|].
    rewrite zipw_app_r in I1 by (rewrite att_length; lia).
    rewrite zipw_att in I1. apply Forall2_all_of in I1; auto. clear GS L Hg. revert P1 I1 V.
    induction D as [|c s g sg Dc D IH]; intros P I V; [constructor|].
    apply Forall_cons_iff in P as (Pc & P). apply Forall2_cons_iff in I as (Ic & I).
    rewrite group_valued_cons in V. apply orb_false_iff in V as (Vc & V).
    cbn [att map]. constructor; [|apply IH; auto]. unfold agrees. cbn [slot_get fst] in *.
    unfold is_defaulted in Dc. destruct (cpres c); try (now apply fresh_shown).
    rewrite Dc in Vc by auto. discriminate.
Qed.

Lemma dict_same t : same_dict t.
Proof.
  induction t as [t S0|e r a g IH|c t IH|e r a g IH] using ty_ind2; intros b v fs S E F P I.
  - now rewrite canon_simple.
  - destruct v as [| | | | | |slots| |]; try contradiction.
    destruct (seq_inv _ _ _ _ _ _ S E) as (s1 & s2 & sgs & Es & I1 & I2 & I3).
    pose proof (Forall2_length _ _ _ I1) as L1. pose proof (Forall2_length _ _ _ I2) as L2.
    pose proof (groups_len _ _ I3) as L3.
    rewrite (canon_seq e r a g slots s1 s2 sgs) by auto.
    assert (CP : Forall comp_plain (all_comps r a g)).
    { apply (fun H => formed_comps e r a g (or_introl H)) in F as (_ & F).
      pose proof (plain_comps e r a g (or_introl P)) as Q. rewrite Forall_forall in *.
      intros c Hc. destruct (F c Hc), (Q c Hc). repeat split; auto. }
    unfold all_comps in CP. rewrite !Forall_app in CP. destruct CP as (P1 & P2 & P3).
    cbn [idle] in I. cbv zeta in I. rewrite Es, skipn_len_app in I by auto.
    replace (skipn (len r + len a) (s1 ++ s2 ++ List.concat sgs)) with (List.concat sgs) in I
      by (rewrite app_assoc; symmetry; apply skipn_len_app; rewrite app_length; lia).
    rewrite !zipw_app_r in I by (rewrite att_length; lia). rewrite !zipw_att in I.
    destruct I as (J1 & J2 & J3). apply Forall2_all_of in J1; auto. apply Forall2_all_of in J2; auto.
    pose proof (root_agrees _ _ P1 I1 J1) as A1. pose proof (add_agrees _ _ P2 I2 J2) as A2.
    pose proof (groups_agree _ _ P3 I3 J3) as A3.
    pose proof (slots3_app _ _ _ _ _ _ _ A1 (slots3_app _ _ _ _ _ _ _ A2 A3)) as A. clear A1 A2 A3.
    cbn [to_dict]. rewrite all_att. rewrite slots_list_of, Es.
    + fold (all_comps r a g) in A. now rewrite (seq_items_same _ _ _ A).
    + apply slots3_len in A as (A & _). exact A.
  - destruct v as [| | | | | | |vs|]; try contradiction. cbn [supported_by] in S. destruct S as (_ & S).
    cbn [enc] in E. destruct (enc_list (enc t) vs) as [body|] eqn:EL; [|discriminate]. clear E.
    cbn [canon_by to_dict idle formed plain] in *. f_equal. revert body EL.
    induction vs as [|v vs IHv]; intros body EL; [reflexivity|].
    cbn [map] in S, I. apply all_of_cons in S as (S1 & S). apply all_of_cons in I as (J1 & I).
    cbn [enc_list] in EL. destruct (enc t v) as [f1|] eqn:E1; [|discriminate]. cbn [bind] in EL.
    destruct (enc_list (enc t) vs) as [f2|] eqn:E2; [|discriminate].
    cbn [map list_items]. rewrite (IHv S I _ eq_refl), (IH false v f1) by auto.
    destruct (is_simple t) eqn:Si; [now rewrite canon_simple|]. cbn [negb]. now rewrite !orb_true_r.
  - destruct v as [| | | | | | | |[[i v']|]]; try contradiction.
    cbn [supported_by] in S. destruct S as (ND & Hext & Hn & S). rewrite all_att, nth_error_att in S.
    cbn [enc] in E.
    assert (EM : map (fun c0 : comp ty => (cname c0, enc (cty c0))) r ++
               map (fun c0 => (cname c0, enc (cty c0))) a ++
               List.concat (map (map (fun c0 => (cname c0, enc (cty c0)))) g) =
               map (fun c0 => (cname c0, enc (cty c0))) (all_comps r a g)).
    { unfold all_comps. rewrite !map_app, concat_map. reflexivity. }
    rewrite EM, nth_error_map in E. clear EM.
    cbn [idle] in I. rewrite all_att, nth_error_att in I.
    destruct (nth_error (all_comps r a g) i) as [c|] eqn:EC; [|contradiction].
    cbn [fst snd option_map] in *. destruct S as (Sv & _).
    destruct (enc (cty c) v') as [body|] eqn:EB; [|discriminate].
    cbn [canon_by]. rewrite all_att, nth_error_att, EC. cbn [option_map snd].
    cbn [to_dict]. rewrite all_att, nth_error_att, EC. cbn [option_map].
    apply nth_error_In in EC. destruct I as (V & C & I).
    apply (fun H => formed_comps e r a g (or_intror H)) in F as (_ & F).
    pose proof (plain_comps e r a g (or_intror P)) as Q. rewrite Forall_forall in *.
    destruct (F c EC), (Q c EC).
    rewrite (present_value _ _ (keeps_all (cty c) v' body Sv EB C)).
    rewrite (IH c EC false v' body) by auto. now rewrite V.
Qed.

(** C30, for supported messages of types with DEFAULT on simple components
    only, whose unsent components hold nothing. *)
Theorem C30_same_dict_partial t v bs : supported t v -> top_ok t v -> formed t -> plain t = true ->
  idle t v -> encode t v = Ok bs ->
  exists m, decode bs t = Ok m /\ to_dict t true m = to_dict t true v.
Proof.
  intros S T F P I E. exists (canon t v). split.
  - rewrite <- (app_nil_r bs). apply decode_encode_canon; auto.
  - apply encode_inv in E as (fs & E & _). eapply dict_same; eauto.
Qed.

Example C30_case :
  supported C08_ty C08_val /\ top_ok C08_ty C08_val /\ formed C08_ty /\ plain C08_ty = true /\
  idle C08_ty C08_val /\ encode C08_ty C08_val = Ok [2; 214; 112; 40; 1; 192] /\
  to_dict C08_ty true C08_val =
    Ok (DList [DDict [("y", DInt 5)];
               DDict [("x", DDict [("a", DInt 3); ("b", DBool true); ("c", DInt 5);
                                  ("e", DBool true); ("f", DBool false)])]]).
Proof.
  split; [exact (proj1 C08_case)|]. split; [exact I|]. split; [cbv -[all_of]; concrete|].
  split; [reflexivity|]. split; [|split; vm_compute; reflexivity].
  cbv -[all_of]. concrete.
  exists ((true = true /\ True) /\ True). split; [left; reflexivity|auto].
Qed.

(** INTEGER (5..5, ...) with the value 5 is delivered as 0. *)
Theorem C30_single_value_refuted : exists t v bs m,
  encode t v = Ok bs /\ decode bs t = Ok m /\
  to_dict t true v = Ok (DInt 5) /\ to_dict t true m = Ok (DInt 0).
Proof.
  exists (TInt (CRange true (Some 5) (Some 5))), (VInt 5), [0], (VInt 0).
  vm_compute. auto.
Qed.

(** CHOICE { a SEQUENCE { m SEQUENCE OF BOOLEAN, d INTEGER DEFAULT 5 } } with an
    empty m and d set to 5: the decoded object prints as None, since the SEQUENCE
    that comes back has no value. *)
Theorem C30_choice_refuted : exists t v bs m,
  supported t v /\ formed t /\ plain t = true /\ encode t v = Ok bs /\ decode bs t = Ok m /\
  to_dict t true v = Ok (DDict [("a", DDict [("d", DInt 5)])]) /\ to_dict t true m = Ok DNone.
Proof.
  exists (TChoice false [Comp "a" Mand (TSeq false [Comp "m" Mand (TSeqOf (CSeqSize false (Some 0) None) TBool);
            Comp "d" (Dflt (VInt 5)) (TInt CNone)] [] [])] [] []),
         (VChoice (Some (0%nat, VSeq (Some [Some (VSeqOf []); Some (VInt 5)])))), [0; 0].
  eexists. split; [|split; [cbv -[all_of]; concrete|split; [reflexivity|]]].
  - split; [repeat constructor; cbn; intuition discriminate|]. split; [auto|].
    split; [apply small_ufits; [lia|vm_compute; split; congruence]|].
    split; [|intros H; exfalso; cbn in H; lia].
    cbn [snd supported_by]. cbv zeta. cbn [slots_list att map zipw skipn List.length].
    split; [repeat constructor; cbn; intuition discriminate|].
    split; [reflexivity|]. split; [auto|]. split; [|split; [apply all_of_nil|exact I]].
    intros p [<-|[<-|[]]]; cbn.
    + split; [lia|apply all_of_nil].
    + split; [left; reflexivity|]. intros X. now elim X.
  - vm_compute. auto.
Qed.

(** * C31 *)

(** Messages whose dictionaries show everything: values of their types, BIT
    STRINGs of a fixed size, and components that are left out are untouched while
    those that count as present, the elements of lists and the selected
    components of CHOICEs have content.  Extension additions have no DEFAULT. *)
Definition neat_ext (ca : comp ty * (val -> Prop)) (s : option val) : Prop :=
  let c := fst ca in
  let v := slot_get c s in
  if present (cty c) v then contentful (cty c) v /\ snd ca v else woken (cty c) (fresh (cty c)) v.

Definition neat_root (ca : comp ty * (val -> Prop)) (s : option val) : Prop :=
  let c := fst ca in
  match cpres c with
  | Mand => snd ca (slot_get c s)
  | Opt => neat_ext ca s
  | Dflt d => snd ca d /\ snd ca (slot_get c s)
  end.

Definition neat_add (ca : comp ty * (val -> Prop)) (s : option val) : Prop :=
  is_defaulted (fst ca) = false /\ neat_ext ca s.

Definition neat_member (ca : comp ty * (val -> Prop)) (s : option val) : Prop :=
  neat_add ca s /\ (is_mandatory (fst ca) = true -> snd ca (slot_get (fst ca) s)).

Fixpoint neat (t : ty) (v : val) {struct t} : Prop :=
  match t, v with
  | TSeq _ root adds groups, VSeq slots =>
      let ss := slots_list (ncomps root adds groups) slots in
      List.length ss = ncomps root adds groups /\
      all_of (zipw neat_root (att neat root) ss) /\
      all_of (zipw neat_add (att neat adds) (skipn (List.length root) ss)) /\
      all_of (zipw neat_member (List.concat (map (att neat) groups))
                   (skipn (List.length root + List.length adds) ss))
  | TSeqOf _ t', VSeqOf vs => all_of (map (fun v => contentful t' v /\ neat t' v) vs)
  | TChoice _ _ _ _, VChoice None => True
  | TChoice _ root adds groups, VChoice (Some (i, v')) =>
      match nth_error (att neat root ++ att neat adds
                       ++ List.concat (map (att neat) groups)) i with
      | Some ca => is_value (cty (fst ca)) v' = true /\ contentful (cty (fst ca)) v' /\ snd ca v'
      | None => False
      end
  | TSeq _ _ _ _, _ | TSeqOf _ _, _ | TChoice _ _ _ _, _ => False
  | _, VUnset => True
  | TBool, VBool _ => True
  | TInt _, VInt _ => True
  | TEnum _ _ _, VEnum _ => True
  | TBits c, VBits s => clo c = Some (zlen s) /\ chi c = Some (zlen s)
  | TOcts _, VOcts bs => Forall (fun b => 0 <= b < 256) bs
  | _, _ => False
  end.

Lemma hex_digit_inj a b : 0 <= a < 16 -> 0 <= b < 16 -> hex_digit a = hex_digit b -> a = b.
Proof.
  intros Ha Hb E.
  assert (K : forallb (fun a => forallb (fun b => (a =? b) || negb (Ascii.eqb (hex_digit a) (hex_digit b)))
     (map Z.of_nat (seq 0 16))) (map Z.of_nat (seq 0 16)) = true) by reflexivity.
  assert (In16 : forall z, 0 <= z < 16 -> In z (map Z.of_nat (seq 0 16))).
  { intros z Hz. apply in_map_iff. exists (Z.to_nat z). split; [lia|]. apply in_seq. lia. }
  rewrite forallb_forall in K. specialize (K a (In16 a Ha)). rewrite forallb_forall in K.
  specialize (K b (In16 b Hb)). rewrite E, Ascii.eqb_refl in K. cbn [negb] in K.
  rewrite orb_false_r in K. now apply Z.eqb_eq in K.
Qed.

Lemma hexlify_inj a : forall b, Forall (fun b => 0 <= b < 256) a -> Forall (fun b => 0 <= b < 256) b ->
  hexlify a = hexlify b -> a = b.
Proof.
  induction a as [|x a IH]; intros [|y b] Ha Hb E; try discriminate; auto.
  apply Forall_cons_iff in Ha as (Hx & Ha). apply Forall_cons_iff in Hb as (Hy & Hb).
  cbn [hexlify] in E. injection E as E1 E2 E3.
  apply hex_digit_inj in E1; [|lia|lia]. apply hex_digit_inj in E2; [|lia|lia].
  f_equal; [lia|auto].
Qed.

Lemma simple_dict t b v : is_simple t = true -> to_dict t b v <> Ok DNoValue.
Proof.
  destruct t as [ |c|e r a|c|c| | | ]; try discriminate; intros _; destruct v; try discriminate.
  cbn [to_dict]. destruct (existsb _ _); discriminate.
Qed.

Lemma simple_unset t v : is_simple t = true -> neat t v -> is_value t v = false -> v = VUnset.
Proof. destruct t; try discriminate; intros _; destruct v; try contradiction; auto; discriminate. Qed.

Lemma simple_distinct t b v w d : is_simple t = true -> neat t v -> neat t w ->
  to_dict t b v = Ok d -> to_dict t b w = Ok d -> v = w.
Proof.
  destruct t as [ |c|e r a|c|c| | | ]; try discriminate; intros _; destruct v; try contradiction;
    destruct w; try contradiction; cbn [to_dict neat]; try discriminate; try congruence.
  - destruct (existsb _ _); [|discriminate]. destruct (existsb _ _); [|discriminate]. congruence.
  - intros (A & _) (B & _) [= <-] [= E]. f_equal. apply bval_inj; auto.
    unfold zlen in *. rewrite A in B. injection B as B. lia.
  - intros A B [= <-] [= E]. f_equal. symmetry. now apply hexlify_inj.
Qed.

(** ** The items of a dictionary *)

Lemma seq_items_names cs : forall ss l, seq_items (att to_dict cs) ss = Ok l ->
  forall n, In n (map fst l) -> In n (map (@cname ty) cs).
Proof.
  induction cs as [|c cs IH]; intros [|s ss] l E n Hn; try (injection E as <-; contradiction).
  rewrite seq_items_cons in E. destruct (shown c (slot_get c s)) as [d|] eqn:Ed; [|discriminate].
  cbn [bind] in E. destruct (seq_items (att to_dict cs) ss) as [l0|] eqn:El; [|discriminate].
  cbn [bind] in E. injection E as <-. cbn [map]. specialize (IH _ _ El n).
  unfold put in Hn. destruct d; cbn [map fst In] in *; intuition.
Qed.

Definition shows (c : comp ty) (s s' : option val) : Prop :=
  exists d, shown c (slot_get c s) = Ok d /\ shown c (slot_get c s') = Ok d.

Lemma seq_items_shows cs : NoDup (map (@cname ty) cs) -> forall ss ss' l,
  len ss = len cs -> len ss' = len cs ->
  seq_items (att to_dict cs) ss = Ok l -> seq_items (att to_dict cs) ss' = Ok l -> slots3 shows cs ss ss'.
Proof.
  induction cs as [|c cs IH]; intros N [|s ss] [|s' ss'] l L L' E E'; try discriminate; [constructor|].
  rewrite seq_items_cons in E, E'. cbn [map] in N. apply NoDup_cons_iff in N as (Nc & N).
  destruct (shown c (slot_get c s)) as [d|] eqn:Ed; [|discriminate]. cbn [bind] in E.
  destruct (seq_items (att to_dict cs) ss) as [l0|] eqn:El; [|discriminate]. cbn [bind] in E.
  destruct (shown c (slot_get c s')) as [d'|] eqn:Ed'; [|discriminate]. cbn [bind] in E'.
  destruct (seq_items (att to_dict cs) ss') as [l0'|] eqn:El'; [|discriminate]. cbn [bind] in E'.
  pose proof (seq_items_names _ _ _ El (cname c)) as M. pose proof (seq_items_names _ _ _ El' (cname c)) as M'.
  assert (K : d = d' /\ l0 = l0').
  { rewrite <- E' in E. injection E as E. unfold put in E.
    destruct d, d'; try discriminate; try (injection E; intros; subst; auto; fail); auto;
      exfalso; apply Nc; first [apply M; rewrite E; left; reflexivity
                               |apply M'; rewrite <- E; left; reflexivity]. }
  destruct K as (<- & <-). constructor; [exists d; auto|].
  cbn [List.length] in L, L'. eapply IH; eauto; lia.
Qed.

(** ** Content shows *)

Lemma contentful_shown c v : contentful (cty c) v -> shown c v = to_dict (cty c) false v.
Proof.
  intros C. unfold shown. destruct (is_simple (cty c)) eqn:Si; [|cbn [negb]; now rewrite orb_true_r].
  replace (is_value (cty c) v) with true; auto.
  destruct (cty c); try discriminate; destruct v; try contradiction; reflexivity.
Qed.

(** Pointwise form of the content of a SEQUENCE. *)
Lemma contentful_comp e r a g slots : let n := ncomps r a g in
  contentful (TSeq e r a g) (VSeq slots) ->
  exists i c s, nth_error (all_comps r a g) i = Some c /\ nth_error (slots_list n slots) i = Some s /\
    present (cty c) (slot_get c s) = true /\ contentful (cty c) (slot_get c s) /\
    ((i < len r)%nat \/ (len r + len a <= i)%nat ->
       match cpres c with Dflt d => slot_get c s <> d | _ => True end).
Proof.
  intros n C. cbn [contentful] in C. cbv zeta in C. fold n in C. set (ss := slots_list n slots) in *.
  assert (W : forall (f : comp ty * (val -> Prop) -> option val -> Prop) cs k,
     some_of (zipw f (att contentful cs) (skipn k ss)) ->
     exists i c s, nth_error cs i = Some c /\ nth_error ss (k + i) = Some s /\ f (c, contentful (cty c)) s).
  { intros f cs k H. rewrite zipw_att in H. destruct H as (p & Hp & H).
    apply In_nth_error in Hp as (i & Hp). rewrite nth_error_zipw in Hp.
    destruct (nth_error cs i) as [c|] eqn:Ec; [|discriminate].
    rewrite nth_error_skipn in Hp. destruct (nth_error ss (k + i)) as [s|] eqn:Es; [|discriminate].
    injection Hp as <-. eauto 6. }
  unfold all_comps. rewrite concat_att in C. rewrite !some_of_app in C. destruct C as [C|[C|C]].
  - apply (W cont_root r 0%nat) in C as (i & c & s & Hc & Hs & (V & K) & D). cbn [fst snd] in *.
    exists i, c, s. repeat split; auto. rewrite nth_error_app1; auto. apply nth_error_Some. congruence.
  - apply W in C as (i & c & s & Hc & Hs & V & K). cbn [fst snd] in *.
    assert (i < len a)%nat by (apply nth_error_Some; congruence).
    exists (len r + i)%nat, c, s. repeat split; auto.
    + rewrite nth_error_app2 by lia. replace (len r + i - len r)%nat with i by lia. now rewrite nth_error_app1.
    + intros X. lia.
  - apply W in C as (i & c & s & Hc & Hs & (V & K) & D). cbn [fst snd] in *.
    exists (len r + len a + i)%nat, c, s. repeat split; auto.
    rewrite nth_error_app2 by lia. rewrite nth_error_app2 by lia.
    replace (len r + len a + i - len r - len a)%nat with i by lia. exact Hc.
Qed.

Lemma seq_items_none cs : forall ss i c s, seq_items (att to_dict cs) ss = Ok [] ->
  nth_error cs i = Some c -> nth_error ss i = Some s -> shown c (slot_get c s) = Ok DNoValue.
Proof.
  induction cs as [|c0 cs IH]; intros [|s0 ss] [|i] c s E Hc Hs; try discriminate;
    rewrite seq_items_cons in E; destruct (shown c0 (slot_get c0 s0)) as [d|] eqn:Ed; try discriminate;
    cbn [bind] in E; destruct (seq_items (att to_dict cs) ss) as [l0|] eqn:El; try discriminate;
    cbn [bind] in E; injection E as E; unfold put in E; destruct d; try discriminate; subst.
  - injection Hc as <-. injection Hs as <-. exact Ed.
  - eapply IH; eauto.
Qed.

(** An object with content does not print as noValue. *)
Lemma contentful_prints t : forall v, contentful t v -> to_dict t false v <> Ok DNoValue.
Proof.
  induction t as [t S0|e r a g IH|c t IH|e r a g IH] using ty_ind2; intros v C E.
  - eapply simple_dict; eauto.
  - destruct v as [ | | | | | |s| |]; try discriminate.
    destruct (contentful_comp e r a g s C) as (i & c & x & Hc & Hx & V & K & _).
    cbn [to_dict] in E. rewrite all_att in E.
    destruct (seq_items _ _) as [[|]|] eqn:Ei; try discriminate.
    pose proof (seq_items_none _ _ _ _ _ Ei Hc Hx) as N. rewrite contentful_shown in N by auto.
    rewrite Forall_forall in IH. eapply IH; eauto. eapply nth_error_In; eauto.
  - destruct v as [ | | | | | | |[|x l]|]; try discriminate; try contradiction.
    + destruct C as (C & _). now elim C.
    + destruct C as (_ & C). cbn [map] in C. apply all_of_cons in C as (C & _).
      cbn [to_dict list_items] in E. destruct (is_value t x || negb (is_simple t)) eqn:A.
      * destruct (to_dict t false x) as [d|] eqn:Ed; [|discriminate]. cbn [bind] in E.
        destruct (list_items _ _ l) as [l0|]; [|discriminate]. cbn [bind] in E.
        apply (IH x); auto. rewrite Ed. destruct d; auto; discriminate.
      * apply orb_false_iff in A as (A & B). apply negb_false_iff in B.
        destruct t; try discriminate; destruct x; try contradiction; discriminate.
  - destruct v as [ | | | | | | | |[(i, x)|]]; try discriminate; try contradiction.
    cbn [to_dict] in E. rewrite all_att, nth_error_att in E.
    destruct (nth_error (all_comps r a g) i); [|discriminate]. cbn [option_map] in E.
    destruct (is_value _ x); [|discriminate]. destruct (to_dict _ false x); discriminate.
Qed.

(** ** Pointwise neatness *)

Definition neat_at (r a : list (comp ty)) (i : nat) (c : comp ty) (s : option val) : Prop :=
  ((i < len r)%nat -> neat_root (c, neat (cty c)) s) /\
  ((len r <= i < len r + len a)%nat -> neat_add (c, neat (cty c)) s) /\
  ((len r + len a <= i)%nat -> neat_member (c, neat (cty c)) s).

Lemma zipw_all_skip (f : comp ty * (val -> Prop) -> option val -> Prop) cs ss k :
  all_of (zipw f (att neat cs) (skipn k ss)) ->
  forall i c s, nth_error cs i = Some c -> nth_error ss (k + i) = Some s -> f (c, neat (cty c)) s.
Proof.
  intros H i c s Hc Hs. rewrite zipw_all in H. apply (H i c s Hc). now rewrite nth_error_skipn.
Qed.

Lemma neat_seq e r a g slots : let n := ncomps r a g in
  neat (TSeq e r a g) (VSeq slots) ->
  len (slots_list n slots) = n /\
  forall i c s, nth_error (all_comps r a g) i = Some c -> nth_error (slots_list n slots) i = Some s ->
    neat_at r a i c s.
Proof.
  intros n H. cbn [neat] in H. cbv zeta in H. fold n in H. destruct H as (L & H1 & H2 & H3).
  split; auto. intros i c s Hc Hs. rewrite concat_att in H3. set (ss := slots_list n slots) in *.
  unfold all_comps in Hc. split; [|split]; intros Hi.
  - rewrite nth_error_app1 in Hc by lia. eapply (zipw_all_skip neat_root r ss 0); eauto.
  - rewrite nth_error_app2, nth_error_app1 in Hc by lia.
    eapply (zipw_all_skip neat_add a ss (len r)); eauto. now replace (len r + (i - len r))%nat with i by lia.
  - rewrite nth_error_app2, nth_error_app2 in Hc by lia.
    eapply (zipw_all_skip neat_member (List.concat g) ss (len r + len a)); eauto.
    now replace (len r + len a + (i - len r - len a))%nat with i by lia.
Qed.

Lemma neat_at_cases r a i c s : neat_at r a i c s ->
  match cpres c with
  | Mand => neat (cty c) (slot_get c s) \/ neat_ext (c, neat (cty c)) s
  | Opt => neat_ext (c, neat (cty c)) s
  | Dflt d => neat (cty c) d /\ neat (cty c) (slot_get c s) /\ (i < len r)%nat
  end.
Proof.
  intros (H1 & H2 & H3). unfold neat_root, neat_member, neat_add, is_defaulted in *. cbn [fst snd] in *.
  destruct (Nat.lt_ge_cases i (len r)) as [Hi|Hi].
  - specialize (H1 Hi). destruct (cpres c); auto. destruct H1; auto.
  - destruct (Nat.lt_ge_cases i (len r + len a)) as [Hj|Hj].
    + destruct (H2 (conj Hi Hj)) as (D & N). destruct (cpres c); auto. discriminate.
    + destruct (H3 Hj) as ((D & N) & _). destruct (cpres c); auto. discriminate.
Qed.

Lemma neat_at_present r a i c s : neat_at r a i c s -> present (cty c) (slot_get c s) = true ->
  neat (cty c) (slot_get c s).
Proof.
  intros H V. apply neat_at_cases in H. unfold neat_ext in H. cbn [fst snd] in H. rewrite V in H.
  destruct (cpres c); tauto.
Qed.

Definition differs (t : ty) : Prop := forall v d, formed t -> plain t = true -> neat t v ->
  contentful t v -> to_dict t false v = Ok d -> to_dict t false (fresh t) = Ok d -> False.

Lemma differs_shown c v d : differs (cty c) -> formed (cty c) -> plain (cty c) = true ->
  neat (cty c) v -> contentful (cty c) v -> shown c v = Ok d -> shown c (fresh (cty c)) = Ok d -> False.
Proof.
  intros D F P N C E E'. rewrite contentful_shown in E by auto.
  destruct (is_simple (cty c)) eqn:Si.
  - unfold shown in E'. replace (is_value (cty c) (fresh (cty c))) with false in E'
      by (destruct (cty c); try discriminate; reflexivity).
    rewrite Si in E'. cbn [negb orb] in E'. injection E' as <-. eapply simple_dict; eauto.
  - rewrite shown_constructed in E' by auto. eapply D; eauto.
Qed.

Lemma content_differs t : differs t.
Proof.
  induction t as [t S0|e r a g IH|c t IH|e r a g IH] using ty_ind2; intros v d F P N C E E'.
  - destruct t; discriminate.
  - destruct v as [ | | | | | |s| |]; try contradiction.
    apply neat_seq in N as (L & N).
    destruct (contentful_comp e r a g s C) as (i & c & x & Hc & Hx & V & K & D).
    pose proof (contentful_prints _ _ C) as NV.
    apply (fun H => formed_comps e r a g (or_introl H)) in F as (ND & F).
    pose proof (plain_comps e r a g (or_introl P)) as Q.
    cbn [to_dict fresh] in E, E', NV. rewrite all_att in E, E', NV.
    destruct (seq_items (att to_dict (all_comps r a g)) (slots_list (ncomps r a g) s)) as [l|] eqn:El; [|discriminate].
    destruct (seq_items (att to_dict (all_comps r a g)) (slots_list (ncomps r a g) None)) as [l'|] eqn:El'; [|discriminate].
    cbn [bind] in E, E', NV. assert (l' = l).
    { destruct l; [congruence|]. destruct l'; congruence. }
    subst l'. pose proof (seq_items_shows _ ND _ _ _ L ltac:(cbn [slots_list]; apply repeat_length) El El') as S3.
    destruct (slots3_nth _ _ _ _ _ _ _ S3 Hc Hx) as (y & Hy & dd & Ed & Ed').
    cbn [slots_list] in Hy. apply nth_error_In, repeat_spec in Hy. subst y.
    pose proof (nth_error_In _ _ Hc) as Ic. rewrite Forall_forall in F, Q, IH.
    destruct (F c Ic) as (Fc & _), (Q c Ic) as (Qs & Pc). pose proof (N i c x Hc Hx) as Na.
    pose proof (neat_at_present _ _ _ _ _ Na V) as Nv. apply neat_at_cases in Na.
    unfold is_defaulted in Qs. cbn [slot_get] in Ed'. destruct (cpres c) as [| |dv] eqn:Pr.
    + eapply differs_shown; eauto.
    + eapply differs_shown; eauto.
    + destruct Na as (Nd & _ & Hi). apply (D (or_introl Hi)). rewrite contentful_shown in Ed by auto.
      unfold shown in Ed'. rewrite (Qs eq_refl) in Ed'. cbn [negb] in Ed'. rewrite orb_false_r in Ed'.
      destruct (is_value (cty c) dv) eqn:Vd.
      * eapply simple_distinct; eauto.
      * exfalso. injection Ed' as <-. eapply simple_dict; eauto.
  - destruct v as [ | | | | | | |l|]; try contradiction.
    pose proof (contentful_prints _ _ C) as NV. cbn [to_dict fresh list_items bind] in E'. congruence.
  - destruct v as [ | | | | | | | |[(i, x)|]]; try contradiction.
    cbn [to_dict fresh] in E'. injection E' as <-. cbn [neat to_dict] in N, E.
    rewrite all_att, nth_error_att in E. rewrite all_att, nth_error_att in N.
    destruct (nth_error (all_comps r a g) i) as [c|]; [|contradiction]. cbn [option_map fst snd] in *.
    destruct N as (V & _). rewrite V in E. destruct (to_dict _ false x); discriminate.
Qed.

(** ** Equal dictionaries, equal readings *)

Definition distinct (t : ty) : Prop := forall b v w d, formed t -> plain t = true ->
  neat t v -> neat t w -> to_dict t b v = Ok d -> to_dict t b w = Ok d -> reading t v = reading t w.

Lemma shown_distinct c v w d : distinct (cty c) -> formed (cty c) -> plain (cty c) = true ->
  neat (cty c) v -> neat (cty c) w -> shown c v = Ok d -> shown c w = Ok d ->
  reading (cty c) v = reading (cty c) w.
Proof.
  intros D F P Nv Nw E E'. unfold shown in E, E'. destruct (is_simple (cty c)) eqn:Si.
  - cbn [negb] in E, E'. rewrite orb_false_r in E, E'.
    destruct (is_value (cty c) v) eqn:V, (is_value (cty c) w) eqn:W.
    + eapply D; eauto.
    + injection E' as <-. exfalso. eapply simple_dict; eauto.
    + injection E as <-. exfalso. eapply simple_dict; eauto.
    + apply simple_unset in V, W; auto. now subst.
  - cbn [negb] in E, E'. rewrite orb_true_r in E, E'. eapply D; eauto.
Qed.

Definition comp_told (c : comp ty) : Prop :=
  distinct (cty c) /\ formed (cty c) /\ plain (cty c) = true.

Lemma ext_distinct c s s' : comp_told c -> shows c s s' ->
  neat_ext (c, neat (cty c)) s -> neat_ext (c, neat (cty c)) s' ->
  present (cty c) (slot_get c s) = present (cty c) (slot_get c s') /\
  read_ext (c, reading (cty c)) s = read_ext (c, reading (cty c)) s'.
Proof.
  intros (D & F & P) (d & E & E'). unfold neat_ext, read_ext. cbn [fst snd].
  assert (FS : forall v, woken (cty c) (fresh (cty c)) v -> shown c v = shown c (fresh (cty c))).
  { intros v W. destruct (is_simple (cty c)) eqn:Si.
    - apply woken_simple in W; auto. now subst.
    - rewrite !shown_constructed by auto. now apply fresh_same. }
  destruct (present (cty c) (slot_get c s)) eqn:V, (present (cty c) (slot_get c s')) eqn:V'.
  - intros (C & N) (C' & N'). split; auto. f_equal. eapply shown_distinct; eauto.
  - intros (C & N) W. exfalso. rewrite FS in E' by auto. eapply differs_shown; eauto using content_differs.
  - intros W (C & N). exfalso. rewrite FS in E by auto. eapply differs_shown; eauto using content_differs.
  - auto.
Qed.

Lemma root_distinct c s s' : comp_told c -> shows c s s' ->
  neat_root (c, neat (cty c)) s -> neat_root (c, neat (cty c)) s' ->
  read_root (c, reading (cty c)) s = read_root (c, reading (cty c)) s'.
Proof.
  intros T W. pose proof (ext_distinct _ _ _ T W) as X. destruct T as (D & F & P), W as (d & E & E').
  unfold neat_root, read_root, read_ext in *. cbn [fst snd] in *. destruct (cpres c).
  - intros N N'. f_equal. eapply shown_distinct; eauto.
  - intros N N'. now apply X.
  - intros (_ & N) (_ & N'). f_equal. eapply shown_distinct; eauto.
Qed.

Lemma read_roots cs ss ss' : Forall comp_told cs -> slots3 shows cs ss ss' ->
  Forall2 (fun c s => neat_root (c, neat (cty c)) s) cs ss ->
  Forall2 (fun c s => neat_root (c, neat (cty c)) s) cs ss' ->
  zipw read_root (att reading cs) ss = zipw read_root (att reading cs) ss'.
Proof.
  intros T W. revert T. induction W as [|c s s' cs ss ss' H _ IH]; intros T N N'; auto.
  apply Forall_cons_iff in T as (Tc & T). apply Forall2_cons_iff in N as (Nc & N).
  apply Forall2_cons_iff in N' as (Nc' & N'). cbn [att map zipw]. f_equal.
  - now apply root_distinct.
  - now apply IH.
Qed.

Lemma read_exts cs ss ss' : Forall comp_told cs -> slots3 shows cs ss ss' ->
  Forall2 (fun c s => neat_add (c, neat (cty c)) s) cs ss ->
  Forall2 (fun c s => neat_add (c, neat (cty c)) s) cs ss' ->
  zipw read_ext (att reading cs) ss = zipw read_ext (att reading cs) ss'.
Proof.
  intros T W. revert T. induction W as [|c s s' cs ss ss' H _ IH]; intros T N N'; auto.
  apply Forall_cons_iff in T as (Tc & T). apply Forall2_cons_iff in N as ((_ & Nc) & N).
  apply Forall2_cons_iff in N' as ((_ & Nc') & N'). cbn [att map zipw]. f_equal.
  - now apply ext_distinct.
  - now apply IH.
Qed.

Lemma members_distinct cs ss ss' : Forall comp_told cs -> slots3 shows cs ss ss' ->
  Forall2 (fun c s => neat_member (c, neat (cty c)) s) cs ss ->
  Forall2 (fun c s => neat_member (c, neat (cty c)) s) cs ss' ->
  group_valued cs ss = group_valued cs ss' /\
  zipw read_root (att reading cs) ss = zipw read_root (att reading cs) ss'.
Proof.
  intros T W. revert T. induction W as [|c s s' cs ss ss' H _ IH]; intros T N N'; auto.
  apply Forall_cons_iff in T as (Tc & T). apply Forall2_cons_iff in N as (((D & Nc) & M) & N).
  apply Forall2_cons_iff in N' as (((_ & Nc') & M') & N'). destruct (IH T N N') as (G & R).
  destruct (ext_distinct _ _ _ Tc H Nc Nc') as (V & X). cbn [fst snd] in *. split.
  - rewrite !group_valued_cons. now rewrite V, G.
  - cbn [att map zipw]. f_equal; auto. apply root_distinct; auto; unfold neat_root; cbn [fst snd];
      unfold is_defaulted, is_mandatory in *; destruct (cpres c); auto; discriminate.
Qed.

Lemma slots3_app_inv (R : comp ty -> option val -> option val -> Prop) c1 : forall c2 ss ss',
  slots3 R (c1 ++ c2) ss ss' ->
  exists s1 s2 s1' s2', ss = s1 ++ s2 /\ ss' = s1' ++ s2' /\ slots3 R c1 s1 s1' /\ slots3 R c2 s2 s2'.
Proof.
  induction c1 as [|c c1 IH]; intros c2 ss ss' H.
  - exists [], ss, [], ss'. repeat split; auto. constructor.
  - cbn [app] in H. inversion H as [|? s s' ? t t' Hc H']; subst.
    destruct (IH _ _ _ H') as (s1 & s2 & s1' & s2' & -> & -> & A & B).
    exists (s :: s1), s2, (s' :: s1'), s2'. repeat split; auto. constructor; auto.
Qed.

Lemma groups_distinct gs : forall ss ss', Forall comp_told (List.concat gs) ->
  slots3 shows (List.concat gs) ss ss' ->
  Forall2 (fun c s => neat_member (c, neat (cty c)) s) (List.concat gs) ss ->
  Forall2 (fun c s => neat_member (c, neat (cty c)) s) (List.concat gs) ss' ->
  read_groups (map (att reading) gs) ss = read_groups (map (att reading) gs) ss'.
Proof.
  induction gs as [|g gs IH]; intros ss ss' T W N N'; auto.
  cbn [List.concat map read_groups] in *. apply Forall_app in T as (T1 & T2).
  apply slots3_app_inv in W as (s1 & s2 & s1' & s2' & -> & -> & W1 & W2).
  pose proof (slots3_len _ _ _ _ W1) as (L' & L).
  apply Forall2_app_inv_l in N as (x1 & x2 & N1 & N2 & X). pose proof (Forall2_length _ _ _ N1) as Lx.
  assert (x1 = s1) as ->. { apply (f_equal (firstn (len g))) in X. rewrite !firstn_len_app in X by auto. auto. }
  apply app_inv_head in X as ->.
  apply Forall2_app_inv_l in N' as (x1' & x2' & N1' & N2' & X). pose proof (Forall2_length _ _ _ N1') as Lx'.
  assert (x1' = s1') as ->. { apply (f_equal (firstn (len g))) in X. rewrite !firstn_len_app in X by auto. auto. }
  apply app_inv_head in X as ->.
  rewrite att_length, !skipn_len_app by auto. f_equal; [|apply IH; auto].
  unfold read_group. rewrite att_fst, !group_valued_app, !zipw_app_r by (rewrite ?att_length; lia).
  destruct (members_distinct _ _ _ T1 W1 N1 N1') as (-> & ->). reflexivity.
Qed.

Lemma neat_split e r a g slots s1 s2 s3 :
  slots_list (ncomps r a g) slots = s1 ++ s2 ++ s3 -> len r = len s1 -> len a = len s2 ->
  neat (TSeq e r a g) (VSeq slots) ->
  Forall2 (fun c s => neat_root (c, neat (cty c)) s) r s1 /\
  Forall2 (fun c s => neat_add (c, neat (cty c)) s) a s2 /\
  Forall2 (fun c s => neat_member (c, neat (cty c)) s) (List.concat g) s3.
Proof.
  intros Es L1 L2 N. cbn [neat] in N. cbv zeta in N. rewrite Es, skipn_len_app in N by auto.
  replace (skipn (len r + len a) (s1 ++ s2 ++ s3)) with s3 in N
    by (rewrite app_assoc; symmetry; apply skipn_len_app; rewrite app_length; lia).
  rewrite concat_att in N. rewrite !(zipw_app_r neat_root), !(zipw_app_r neat_add) in N by (rewrite att_length; lia).
  rewrite !zipw_att in N. destruct N as (L & N1 & N2 & N3). unfold ncomps, all_comps in L.
  rewrite !app_length in L. repeat split; apply Forall2_all_of; auto. lia.
Qed.

Lemma told t : distinct t.
Proof.
  induction t as [t S0|e r a g IH|c t IH|e r a g IH] using ty_ind2; intros b v w d F P Nv Nw E E'.
  - now rewrite (simple_distinct t b v w d).
  - destruct v as [ | | | | | |s| |]; try contradiction. destruct w as [ | | | | | |s'| |]; try contradiction.
    pose proof (neat_seq _ _ _ _ _ Nv) as (L & _). pose proof (neat_seq _ _ _ _ _ Nw) as (L' & _).
    apply (fun H => formed_comps e r a g (or_introl H)) in F as (ND & F).
    pose proof (plain_comps e r a g (or_introl P)) as Q.
    cbn [to_dict] in E, E'. rewrite all_att in E, E'.
    destruct (seq_items (att to_dict (all_comps r a g)) (slots_list (ncomps r a g) s)) as [l|] eqn:El; [|discriminate].
    destruct (seq_items (att to_dict (all_comps r a g)) (slots_list (ncomps r a g) s')) as [l'|] eqn:El'; [|discriminate].
    cbn [bind] in E, E'. assert (l' = l).
    { rewrite <- E' in E. destruct b; [congruence|]. destruct l, l'; congruence. }
    subst l'. pose proof (seq_items_shows _ ND _ _ _ L L' El El') as W.
    assert (T : Forall comp_told (all_comps r a g)).
    { rewrite Forall_forall in *. intros c Hc. destruct (F c Hc), (Q c Hc). repeat split; auto. }
    unfold all_comps in T, W. rewrite !Forall_app in T. destruct T as (T1 & T2 & T3).
    apply slots3_app_inv in W as (s1 & s23 & s1' & s23' & Es & Es' & W1 & W).
    apply slots3_app_inv in W as (s2 & s3 & s2' & s3' & -> & -> & W2 & W3).
    pose proof (slots3_len _ _ _ _ W1) as (L1' & L1). pose proof (slots3_len _ _ _ _ W2) as (L2' & L2).
    destruct (neat_split _ _ _ _ _ _ _ _ Es (eq_sym L1) (eq_sym L2) Nv) as (N1 & N2 & N3).
    destruct (neat_split _ _ _ _ _ _ _ _ Es' (eq_sym L1') (eq_sym L2') Nw) as (N1' & N2' & N3').
    cbn [reading]. cbv zeta. rewrite Es, Es'.
    rewrite (skipn_len_app s1 (s2 ++ s3)), (skipn_len_app s1' (s2' ++ s3')) by auto.
    replace (skipn (len r + len a) (s1 ++ s2 ++ s3)) with s3
      by (rewrite app_assoc; symmetry; apply skipn_len_app; rewrite app_length; lia).
    replace (skipn (len r + len a) (s1' ++ s2' ++ s3')) with s3'
      by (rewrite app_assoc; symmetry; apply skipn_len_app; rewrite app_length; lia).
    rewrite !zipw_app_r by (rewrite att_length; lia).
    rewrite (read_roots r s1 s1'), (read_exts a s2 s2'), (groups_distinct g s3 s3') by auto. reflexivity.
  - destruct v as [ | | | | | | |l|]; try contradiction. destruct w as [ | | | | | | |l'|]; try contradiction.
    cbn [to_dict neat formed plain reading] in *. apply all_of_map in Nv, Nw.
    assert (LI : forall l, Forall (fun v => contentful t v /\ neat t v) l -> forall m,
       list_items t (to_dict t false) l = Ok m -> Forall2 (fun x d => to_dict t false x = Ok d) l m).
    { clear -IH. induction 1 as [|x l (C & N) _ IHl]; intros m E; [injection E as <-; constructor|].
      cbn [list_items] in E. destruct (is_value t x || negb (is_simple t)) eqn:A.
      - destruct (to_dict t false x) as [d|] eqn:Ed; [|discriminate]. cbn [bind] in E.
        destruct (list_items _ _ l) as [l0|]; [|discriminate]. cbn [bind] in E.
        pose proof (contentful_prints _ _ C) as NV. rewrite Ed in NV. injection E as <-.
        destruct d; try congruence; constructor; auto.
      - apply orb_false_iff in A as (A & B). apply negb_false_iff in B.
        destruct t; try discriminate; destruct x; try contradiction; discriminate. }
    destruct (list_items _ _ l) as [m|] eqn:Em; [|discriminate]. cbn [bind] in E.
    destruct (list_items _ _ l') as [m'|] eqn:Em'; [|discriminate]. cbn [bind] in E'.
    assert (m' = m) as ->.
    { rewrite <- E' in E. destruct b; [congruence|]. destruct m, m'; congruence. }
    apply LI in Em, Em'; auto. f_equal. clear E E' LI. revert l' Nw Em'.
    induction Em as [|x dx l m Hx _ IHl]; intros l' Nw Em'; inversion Em' as [|y ? l2 ? Hy Em2]; subst; auto.
    apply Forall_cons_iff in Nv as ((_ & Nx) & Nv). apply Forall_cons_iff in Nw as ((_ & Ny) & Nw).
    cbn [map]. f_equal; [eapply IH; eauto|auto].
  - assert (NN : forall x i, neat (TChoice e r a g) (VChoice (Some (i, x))) -> exists c,
       nth_error (all_comps r a g) i = Some c /\ is_value (cty c) x = true /\ contentful (cty c) x /\ neat (cty c) x).
    { intros x i N. cbn [neat] in N. rewrite all_att, nth_error_att in N.
      destruct (nth_error (all_comps r a g) i) as [c|]; [|contradiction]. cbn [option_map fst snd] in N. eauto. }
    assert (DD : forall x i dd, neat (TChoice e r a g) (VChoice (Some (i, x))) ->
       to_dict (TChoice e r a g) b (VChoice (Some (i, x))) = Ok dd -> exists c d0,
       nth_error (all_comps r a g) i = Some c /\ to_dict (cty c) false x = Ok d0 /\ dd = DDict [(cname c, d0)]).
    { intros x i dd N E0. destruct (NN _ _ N) as (c & Hc & V & C & _). cbn [to_dict] in E0.
      rewrite all_att, nth_error_att, Hc in E0. cbn [option_map] in E0. rewrite V in E0.
      destruct (to_dict (cty c) false x) as [d0|] eqn:Ed; [|discriminate]. cbn [bind] in E0. injection E0 as <-.
      exists c, d0. repeat split; auto. pose proof (contentful_prints _ _ C) as NV.
      destruct d0; try reflexivity. congruence. }
    destruct v as [ | | | | | | | |[(i, x)|]]; try contradiction;
      destruct w as [ | | | | | | | |[(j, y)|]]; try contradiction; auto.
    + apply (DD _ _ _ Nv) in E as (c & d0 & Hc & Ed & E). apply (DD _ _ _ Nw) in E' as (c' & d0' & Hc' & Ed' & E').
      rewrite E in E'. injection E' as EN E'. subst d0'.
      apply (fun H => formed_comps e r a g (or_intror H)) in F as (ND & F).
      pose proof (plain_comps e r a g (or_intror P)) as Q.
      assert (j = i) as ->.
      { pose proof (index_of_nth _ _ _ ND Hc) as I1. pose proof (index_of_nth _ _ _ ND Hc') as I2.
        rewrite EN in I1. congruence. }
      rewrite Hc in Hc'. injection Hc' as <-.
      destruct (NN _ _ Nv) as (c1 & H1 & _ & _ & Nx). rewrite Hc in H1. injection H1 as <-.
      destruct (NN _ _ Nw) as (c1 & H1 & _ & _ & Ny). rewrite Hc in H1. injection H1 as <-.
      cbn [reading]. rewrite all_att, nth_error_att, Hc. cbn [option_map snd]. do 3 f_equal.
      apply nth_error_In in Hc. rewrite Forall_forall in *. destruct (F c Hc), (Q c Hc). eapply IH; eauto.
    + cbn [to_dict] in E'. injection E' as <-. apply (DD _ _ _ Nv) in E as (c & d0 & _ & _ & E). discriminate.
    + cbn [to_dict] in E. injection E as <-. apply (DD _ _ _ Nw) in E' as (c & d0 & _ & _ & E'). discriminate.
Qed.

(** C31, for neat messages. *)
Theorem C31_distinct_partial t v w d : formed t -> plain t = true -> neat t v -> neat t w ->
  to_dict t true v = Ok d -> to_dict t true w = Ok d -> reading t v = reading t w.
Proof. apply told. Qed.

(** Two neat messages of a type with every construct. *)
Definition C31_ty : ty :=
  TSeq true
    [Comp "id" Mand (TInt CNone); Comp "d" (Dflt (VInt 5)) (TInt CNone);
     Comp "s" Opt (TSeq false [Comp "m" Opt (TBits (CRange false (Some 2) (Some 2))); Comp "e" (Dflt (VInt 1)) (TInt CNone)] [] []);
     Comp "l" Mand (TSeqOf (CSeqSize false (Some 0) None)
                      (TChoice false [Comp "a" Mand TBool; Comp "b" Mand (TOcts CNone)] [] []))]
    [Comp "x" Mand TBool]
    [[Comp "y" Mand (TEnum false [0; 1] []); Comp "z" Opt TBool]].

Definition C31_val (o : option val) (x : bool) : val :=
  VSeq (Some [Some (VInt 7); None; o;
              Some (VSeqOf [VChoice (Some (0%nat, VBool true)); VChoice (Some (1%nat, VOcts [0; 171]))]);
              Some (VBool x); Some (VEnum 1); None]).

Example C31_case :
  formed C31_ty /\ plain C31_ty = true /\ neat C31_ty (C31_val None true) /\
  neat C31_ty (C31_val (Some (VSeq (Some [Some (VBits [false; true]); None]))) true) /\
  to_dict C31_ty true (C31_val None true) =
    Ok (DDict [("id", DInt 7); ("d", DInt 5); ("s", DDict [("e", DInt 1)]);
               ("l", DList [DDict [("a", DBool true)]; DDict [("b", DHex "00ab")]]);
               ("x", DBool true); ("y", DName 1)]) /\
  to_dict C31_ty true (C31_val (Some (VSeq (Some [Some (VBits [false; true]); None]))) true) =
    Ok (DDict [("id", DInt 7); ("d", DInt 5); ("s", DDict [("m", DInt 1); ("e", DInt 1)]);
               ("l", DList [DDict [("a", DBool true)]; DDict [("b", DHex "00ab")]]);
               ("x", DBool true); ("y", DName 1)]).
Proof.
  split; [cbv -[all_of]; concrete|]. split; [reflexivity|].
  split; [|split; [|split; vm_compute; reflexivity]].
  - cbv -[all_of Z.lt Z.le]. concrete. repeat constructor; lia.
  - cbv -[all_of Z.lt Z.le]. concrete; [|repeat constructor; lia].
    exists ((true = true /\ True) /\ True). split; [left; reflexivity|auto].
Qed.

(** BIT STRINGs '0'B and '00'B both print as 0. *)
Theorem C31_bit_string_refuted : exists t v w d,
  to_dict t true v = Ok d /\ to_dict t true w = Ok d /\ reading t v <> reading t w.
Proof.
  exists (TBits CNone), (VBits [false]), (VBits [false; false]), (DInt 0).
  vm_compute. repeat split; discriminate.
Qed.

(** SEQUENCE { s SEQUENCE { d INTEGER DEFAULT 5 } OPTIONAL }: s absent, and s
    present with d = 5, print alike. *)
Theorem C31_absent_refuted : exists t v w d,
  formed t /\ plain t = true /\
  to_dict t true v = Ok d /\ to_dict t true w = Ok d /\ reading t v <> reading t w.
Proof.
  exists (TSeq false [Comp "s" Opt (TSeq false [Comp "d" (Dflt (VInt 5)) (TInt CNone)] [] [])] [] []),
         (VSeq None), (VSeq (Some [Some (VSeq (Some [Some (VInt 5)]))])),
         (DDict [("s", DDict [("d", DInt 5)])]).
  split; [cbv -[all_of]; concrete|]. vm_compute. repeat split; discriminate.
Qed.

(** SEQUENCE OF SEQUENCE OF BOOLEAN: empty inner lists are not printed. *)
Theorem C31_empty_lists_refuted : exists t v w d,
  to_dict t true v = Ok d /\ to_dict t true w = Ok d /\ reading t v <> reading t w.
Proof.
  exists (TSeqOf (CSeqSize false (Some 0) None) (TSeqOf (CSeqSize false (Some 0) None) TBool)),
         (VSeqOf []), (VSeqOf [VSeqOf []]), (DList []).
  vm_compute. repeat split; discriminate.
Qed.
