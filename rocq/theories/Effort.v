(** How much work a call to encode is: how often the encoders of the parts of a
    message are called, and how often objects are asked whether they have a value
    (property C60).  The encoder of this file follows encoder.py in encoding a
    selected extension alternative twice. *)
From Coq Require Import ZArith List String Bool Lia Arith.
From Coq Require Import ZifyBool ZifyNat ZifyN.
Import ListNotations.
From Verif Require Import PyBase Schema Encoder Decoder BitFacts Stream Prims Spec SimpleTypes
  RoundTrip Reading Sequences Robust Dict Objects Counted.
Open Scope Z_scope.

(** * The object after a second call *)

Definition calm_slot (c : comp ty) (s : option val) : Prop :=
  formed (cty c) /\ shaped (cty c) (slot_get c s) /\
  after_encode (cty c) (after_encode (cty c) (slot_get c s)) = after_encode (cty c) (slot_get c s).

Lemma calm_wakes c s : calm_slot c s -> woken (cty c) (slot_get c s) (after_encode (cty c) (slot_get c s)).
Proof. intros (F & Sh & _). now apply enc_wakes_all. Qed.

Lemma root_slot_twice c s : calm_slot c s ->
  enc_root_slot (c, after_encode (cty c)) (enc_root_slot (c, after_encode (cty c)) s) =
  enc_root_slot (c, after_encode (cty c)) s.
Proof.
  intros Cs. pose proof (calm_wakes _ _ Cs) as W. destruct Cs as (F & Sh & E).
  unfold enc_root_slot. cbn [fst snd slot_get]. f_equal.
  destruct (cpres c) as [| |d]; auto.
  - destruct (present (cty c) (slot_get c s)) eqn:P; [|now rewrite P].
    now rewrite (present_woken _ _ _ Sh W P).
  - destruct (raw_ne d (slot_get c s)) as [[|]|] eqn:N.
    + destruct (raw_ne d (after_encode _ _)) as [[|]|]; auto.
    + now rewrite N.
    + now rewrite N.
Qed.

Lemma add_slot_twice c s : calm_slot c s ->
  enc_add_slot (c, after_encode (cty c)) (enc_add_slot (c, after_encode (cty c)) s) =
  enc_add_slot (c, after_encode (cty c)) s.
Proof.
  intros Cs. pose proof (calm_wakes _ _ Cs) as W. destruct Cs as (F & Sh & E).
  unfold enc_add_slot. cbn [fst snd slot_get]. f_equal.
  destruct (present (cty c) (slot_get c s)) eqn:P; [|now rewrite P].
  now rewrite (present_woken _ _ _ Sh W P).
Qed.

Lemma zipw_twice (f : comp ty * (val -> val) -> option val -> option val) cs : forall ss,
  (forall c s, calm_slot c s -> f (c, after_encode (cty c)) (f (c, after_encode (cty c)) s) = f (c, after_encode (cty c)) s) ->
  Forall2 calm_slot cs ss ->
  zipw f (att after_encode cs) (zipw f (att after_encode cs) ss) = zipw f (att after_encode cs) ss.
Proof.
  intros ss Hf Hs. induction Hs as [|c s cs ss Hc Hs IH]; auto. cbn [att map zipw]. f_equal; auto.
Qed.

Lemma calm_fit_valued g ss : Forall2 calm_slot g ss ->
  group_valued g (zipw enc_root_slot (att after_encode g) ss) = true \/ group_valued g ss = false.
Proof.
  intros Hs. induction Hs as [|c s g ss Hc Hs IH]; [now right|].
  cbn [att map zipw]. rewrite !group_valued_cons. unfold enc_root_slot at 1. cbn [fst snd slot_get].
  pose proof (calm_wakes _ _ Hc) as W. destruct Hc as (_ & Sh & _).
  destruct (present (cty c) (slot_get c s)) eqn:P.
  - left. apply orb_true_iff. left. destruct (cpres c) as [| |d].
    + eapply present_woken; eauto.
    + eapply present_woken; eauto.
    + destruct (raw_ne d _) as [[|]|]; auto. eapply present_woken; eauto.
  - cbn [orb]. fold (att after_encode g). destruct IH as [IH|IH]; rewrite IH; [left; apply orb_true_r|now right].
Qed.

Lemma same_valued g ss : len ss = len g ->
  group_valued g (zipw (fun ca s => Some (slot_get (fst ca) s)) (att after_encode g) ss) = group_valued g ss.
Proof.
  revert ss. induction g as [|c g IH]; intros [|s ss] L; try discriminate; auto.
  cbn [att map zipw]. rewrite !group_valued_cons. fold (att after_encode g). rewrite IH by (cbn in L; lia). reflexivity.
Qed.

Lemma group_twice g ss : Forall2 calm_slot g ss ->
  enc_group_slots (att after_encode g) (enc_group_slots (att after_encode g) ss) = enc_group_slots (att after_encode g) ss.
Proof.
  intros Hs. unfold enc_group_slots. rewrite !att_fst. destruct (group_valued g ss) eqn:V.
  - destruct (calm_fit_valued g ss Hs) as [E|]; [|congruence]. rewrite E.
    apply zipw_twice; auto using root_slot_twice.
  - rewrite same_valued by (symmetry; exact (Forall2_length _ _ _ Hs)). rewrite V. apply zipw_twice; auto.
Qed.

(** The slots of a group are the first ones. *)
Lemma group_slots_firstn g ss : enc_group_slots (att after_encode g) ss = enc_group_slots (att after_encode g) (firstn (len g) ss).
Proof.
  unfold enc_group_slots. rewrite att_fst.
  replace (group_valued g (firstn (len g) ss)) with (group_valued g ss)
    by (unfold group_valued; now rewrite zipw_firstn).
  rewrite <- (zipw_firstn enc_root_slot (att after_encode g) ss).
  rewrite <- (zipw_firstn (fun ca s => Some (slot_get (fst ca) s)) (att after_encode g) ss), att_length. reflexivity.
Qed.

Lemma group_slots_app g ss more : len ss = len g ->
  enc_group_slots (att after_encode g) (ss ++ more) = enc_group_slots (att after_encode g) ss.
Proof. intros L. rewrite group_slots_firstn. now rewrite (firstn_len_app ss). Qed.

Lemma groups_twice gs : forall ss, Forall2 calm_slot (List.concat gs) ss ->
  enc_groups_slots (map (att after_encode) gs) (enc_groups_slots (map (att after_encode) gs) ss) =
  enc_groups_slots (map (att after_encode) gs) ss.
Proof.
  induction gs as [|g gs IH]; intros ss Hs; auto. cbn [List.concat map enc_groups_slots] in *.
  rewrite att_length. apply Forall2_app_l in Hs as (H1 & H2). rewrite (group_slots_firstn g ss).
  set (old := firstn (len g) ss) in *.
  assert (L : len old = len g) by (symmetry; exact (Forall2_length _ _ _ H1)).
  pose proof (group_after_len g _ L) as Lg. set (new := enc_group_slots (att after_encode g) old) in *.
  rewrite group_slots_app by auto. rewrite (skipn_len_app new) by auto.
  unfold new at 1. rewrite group_twice by auto. f_equal. now apply IH.
Qed.

(** A SEQUENCE object taken apart. *)
Lemma seq_parts (P : comp ty -> option val -> Prop) r a g ss : Forall2 P (all_comps r a g) ss ->
  exists s1 s2 s3, ss = s1 ++ s2 ++ s3 /\ len s1 = len r /\ len s2 = len a /\
    Forall2 P r s1 /\ Forall2 P a s2 /\ Forall2 P (List.concat g) s3.
Proof.
  intros Hs. unfold all_comps in Hs. apply Forall2_app_inv_l in Hs as (s1 & s23 & H1 & H2 & ->).
  apply Forall2_app_inv_l in H2 as (s2 & s3 & H2 & H3 & ->). exists s1, s2, s3. repeat split; auto;
    symmetry; eapply Forall2_length; eauto.
Qed.

Lemma zipw_exact {A B C} (f : A -> B -> C) l m more : len m = len l -> zipw f l (m ++ more) = zipw f l m.
Proof.
  revert m. induction l as [|x l IH]; intros [|y m] L; try discriminate; auto.
  cbn [zipw List.app]. f_equal. apply IH. cbn in L. lia.
Qed.

Lemma seq_after_parts e r a g s s1 s2 s3 : slots_list (ncomps r a g) s = s1 ++ s2 ++ s3 ->
  len s1 = len r -> len s2 = len a ->
  seq_after e r a g s =
  zipw enc_root_slot (att after_encode r) s1 ++
  (if e then zipw enc_add_slot (att after_encode a) s2 ++ enc_groups_slots (map (att after_encode) g) s3
   else s2 ++ s3).
Proof.
  intros E L1 L2. unfold seq_after. rewrite E. rewrite !(skipn_len_app s1), !(skipn_len_app s2) by auto.
  rewrite !zipw_exact by (rewrite att_length; auto). reflexivity.
Qed.

(** What a call to encode leaves behind is not changed by a second one. *)
Theorem C60_settled : forall t v, formed t -> shaped t v ->
  after_encode t (after_encode t v) = after_encode t v.
Proof.
  induction t as [t S0|e r a g IH|c t IH|e r a g IH] using ty_ind2; intros v F Sh.
  - now rewrite !after_simple.
  - destruct v as [ | | | | | |s| |]; try reflexivity. pose proof Sh as Sh'. apply shaped_seq in Sh' as (L & _ & _).
    assert (R : Forall2 calm_slot (all_comps r a g) (slots_list (ncomps r a g) s)).
    { rewrite Forall_forall in IH. apply Forall2_of_nth; [now rewrite L|]. intros i c x Hc Hx.
      destruct (comp_found _ _ _ _ _ _ _ _ F Sh Hc Hx) as (Fc & Sc). repeat split; auto.
      apply IH; auto. eapply nth_error_In; eauto. }
    destruct (seq_parts _ _ _ _ _ R) as (s1 & s2 & s3 & E & L1 & L2 & R1 & R2 & R3).
    cbn [after_encode]. fold (seq_after e r a g s). do 2 f_equal.
    pose proof (slots3_len _ _ _ _ (seq_after_rel e r a g s ltac:(apply Forall_forall; intros; apply enc_wakes_all) F Sh)) as (L' & _).
    fold (seq_after e r a g (slots_after (seq_after e r a g s))).
    assert (E' := seq_after_parts e _ _ _ _ _ _ _ E L1 L2).
    assert (Lz : forall f : comp ty * (val -> val) -> option val -> option val, len (zipw f (att after_encode r) s1) = len r)
      by (intros f; rewrite zipw_len_le, att_length; lia).
    assert (Lz' : forall f : comp ty * (val -> val) -> option val -> option val, len (zipw f (att after_encode a) s2) = len a)
      by (intros f; rewrite zipw_len_le, att_length; lia).
    rewrite (seq_after_parts e r a g _ (zipw enc_root_slot (att after_encode r) s1)
       (if e then zipw enc_add_slot (att after_encode a) s2 else s2)
       (if e then enc_groups_slots (map (att after_encode) g) s3 else s3)); auto.
    + rewrite E', zipw_twice by auto using root_slot_twice. f_equal. destruct e; auto.
      rewrite zipw_twice by auto using add_slot_twice. f_equal. now apply groups_twice.
    + rewrite slots_after_list by exact L'. rewrite E'. now destruct e.
    + destruct e; auto.
  - destruct v as [ | | | | | | |l|]; try reflexivity. cbn [after_encode shaped formed] in *. apply all_of_map in Sh.
    f_equal. rewrite map_map. induction Sh; cbn [map]; f_equal; auto.
  - destruct v as [ | | | | | | | |[(i, x)|]]; try reflexivity. apply shaped_choice in Sh.
    apply (fun H => formed_comps e r a g (or_intror H)) in F as (N & F). rewrite Forall_forall in F, IH.
    cbn [after_encode]. rewrite all_att, nth_error_att.
    destruct (nth_error (all_comps r a g) i) as [c|] eqn:E; cbn [option_map];
      cbn [after_encode]; rewrite ?all_att, ?nth_error_att, ?E; cbn [option_map]; auto.
    apply nth_error_In in E. destruct (F c E). rewrite IH; auto.
Qed.

Definition kept_slot (c : comp ty) (s : option val) : Prop :=
  calm_slot c s /\ (filled (cty c) (slot_get c s) -> filled (cty c) (after_encode (cty c) (slot_get c s))).

Lemma root_filled c s : kept_slot c s -> filled_root (c, filled (cty c)) s ->
  filled_root (c, filled (cty c)) (enc_root_slot (c, after_encode (cty c)) s).
Proof.
  intros (_ & Fl) Fr. unfold filled_root, enc_root_slot in *. cbn [fst snd slot_get] in *.
  destruct (cpres c); auto. destruct (present (cty c) (slot_get c s)) eqn:P; auto. now rewrite P.
Qed.

Lemma add_filled c s : kept_slot c s -> filled_add (c, filled (cty c)) s ->
  filled_add (c, filled (cty c)) (enc_add_slot (c, after_encode (cty c)) s).
Proof.
  intros (_ & Fl) Fr. unfold filled_add, enc_add_slot in *. cbn [fst snd slot_get] in *.
  destruct (present (cty c) (slot_get c s)) eqn:P; auto. now rewrite P.
Qed.

Lemma root_settled c s : kept_slot c s -> settled c s ->
  settled c (enc_root_slot (c, after_encode (cty c)) s).
Proof.
  intros (Cs & Fl) Se. pose proof (calm_wakes _ _ Cs) as W. destruct Cs as (F & Sh & E).
  unfold settled, enc_root_slot in *. cbn [fst snd slot_get] in *. intros M. destruct (Se M) as [K|K]; auto.
  right. rewrite K. pose proof (present_woken _ _ _ Sh W K) as P. destruct (cpres c) as [| |d]; auto.
  destruct (raw_ne d _) as [[|]|]; auto.
Qed.

Lemma zipw_filled (p : comp ty * (val -> Prop) -> option val -> Prop)
    (f : comp ty * (val -> val) -> option val -> option val) cs : forall ss,
  (forall c s, kept_slot c s -> p (c, filled (cty c)) s -> p (c, filled (cty c)) (f (c, after_encode (cty c)) s)) ->
  Forall2 kept_slot cs ss -> all_of (zipw p (att filled cs) ss) ->
  all_of (zipw p (att filled cs) (zipw f (att after_encode cs) ss)).
Proof.
  intros ss Hf Hs. induction Hs as [|c s cs ss Hc Hs IH]; intros A; auto. cbn [att map zipw] in *.
  apply all_of_cons in A as (A1 & A2). apply all_of_cons. split; auto.
Qed.

Lemma zipw_settled cs : forall ss, Forall2 kept_slot cs ss -> all_of (zipw settled cs ss) ->
  all_of (zipw settled cs (zipw enc_root_slot (att after_encode cs) ss)).
Proof.
  intros ss Hs. induction Hs as [|c s cs ss Hc Hs IH]; intros A; auto. cbn [att map zipw] in *.
  apply all_of_cons in A as (A1 & A2). apply all_of_cons. split; auto using root_settled.
Qed.

Lemma filled_group_app g ss more : len ss = len g -> filled_group (att filled g) ss ->
  filled_group (att filled g) (ss ++ more).
Proof.
  intros L. unfold filled_group. rewrite att_fst.
  assert (E : group_valued g (ss ++ more) = group_valued g ss) by (unfold group_valued; now rewrite zipw_exact).
  rewrite E, !zipw_exact by (rewrite ?att_length; auto). auto.
Qed.

Lemma filled_groups_after gs : forall ss, Forall2 kept_slot (List.concat gs) ss ->
  filled_groups (map (att filled) gs) ss ->
  filled_groups (map (att filled) gs) (enc_groups_slots (map (att after_encode) gs) ss).
Proof.
  induction gs as [|g gs IH]; intros ss Hs Fl; auto. cbn [List.concat map enc_groups_slots filled_groups] in *.
  rewrite !att_length in *. apply Forall2_app_l in Hs as (H1 & H2). destruct Fl as (F1 & F2).
  apply filled_group_firstn in F1. rewrite (group_slots_firstn g ss).
  set (old := firstn (len g) ss) in *.
  assert (L : len old = len g) by (symmetry; exact (Forall2_length _ _ _ H1)).
  pose proof (group_after_len g _ L) as Lg. split.
  - apply filled_group_app; auto. assert (C1 : Forall2 calm_slot g old).
    { clear -H1. induction H1 as [|c s l m Hc]; constructor; auto. apply Hc. }
    unfold filled_group, enc_group_slots in *. rewrite !att_fst in *. destruct (group_valued g old) eqn:V.
    + destruct (F1 eq_refl) as (A & B). intros _. split.
      * apply zipw_filled; auto using root_filled.
      * now apply zipw_settled.
    + rewrite same_valued, V by auto. discriminate.
  - rewrite skipn_len_app by auto. now apply IH.
Qed.

Lemma filled_seq e r a g s s1 s2 s3 : slots_list (ncomps r a g) s = s1 ++ s2 ++ s3 ->
  len s1 = len r -> len s2 = len a ->
  (filled (TSeq e r a g) (VSeq s) <->
   all_of (zipw filled_root (att filled r) s1) /\ all_of (zipw filled_add (att filled a) s2) /\
   filled_groups (map (att filled) g) s3).
Proof.
  intros E L1 L2. cbn [filled]. rewrite E. rewrite (skipn_len_app s1) by auto.
  rewrite app_assoc, (skipn_len_app (s1 ++ s2)) by (rewrite app_length; lia). rewrite <- app_assoc.
  rewrite !zipw_exact by (rewrite att_length; auto). reflexivity.
Qed.

Lemma filled_after : forall t v, formed t -> shaped t v -> filled t v -> filled t (after_encode t v).
Proof.
  induction t as [t S0|e r a g IH|c t IH|e r a g IH] using ty_ind2; intros v F Sh Fl.
  - now rewrite !after_simple.
  - destruct v as [ | | | | | |s| |]; auto. pose proof Sh as Sh'. apply shaped_seq in Sh' as (L & _ & _).
    assert (R : Forall2 kept_slot (all_comps r a g) (slots_list (ncomps r a g) s)).
    { rewrite Forall_forall in IH. apply Forall2_of_nth; [now rewrite L|]. intros i c x Hc Hx.
      destruct (comp_found _ _ _ _ _ _ _ _ F Sh Hc Hx) as (Fc & Sc).
      repeat split; auto using C60_settled. apply IH; auto. eapply nth_error_In; eauto. }
    destruct (seq_parts _ _ _ _ _ R) as (s1 & s2 & s3 & E & L1 & L2 & R1 & R2 & R3).
    apply (filled_seq e r a g s s1 s2 s3 E L1 L2) in Fl as (A1 & A2 & A3).
    cbn [after_encode]. fold (seq_after e r a g s).
    pose proof (slots3_len _ _ _ _ (seq_after_rel e r a g s ltac:(apply Forall_forall; intros; apply enc_wakes_all) F Sh)) as (L' & _).
    assert (E' := seq_after_parts e _ _ _ _ _ _ _ E L1 L2).
    apply (filled_seq e r a g _ (zipw enc_root_slot (att after_encode r) s1)
       (if e then zipw enc_add_slot (att after_encode a) s2 else s2)
       (if e then enc_groups_slots (map (att after_encode) g) s3 else s3)).
    + rewrite slots_after_list by exact L'. rewrite E'. now destruct e.
    + rewrite zipw_len_le, att_length. lia.
    + destruct e; auto. rewrite zipw_len_le, att_length. lia.
    + split; [apply zipw_filled; auto using root_filled|]. destruct e; auto.
      split; [apply zipw_filled; auto using add_filled|now apply filled_groups_after].
  - destruct v as [ | | | | | | |l|]; auto. cbn [after_encode shaped formed filled] in *. apply all_of_map in Sh, Fl.
    apply all_of_map. apply Forall_map. revert Fl. induction Sh as [|x l Hx Hl IHl]; intros Fl; constructor; inversion Fl; auto.
  - destruct v as [ | | | | | | | |[(i, x)|]]; auto. apply shaped_choice in Sh.
    apply (fun H => formed_comps e r a g (or_intror H)) in F as (N & F). rewrite Forall_forall in F, IH.
    cbn [after_encode filled] in *. rewrite all_att, nth_error_att in Fl. rewrite all_att, nth_error_att.
    destruct (nth_error (all_comps r a g) i) as [c|] eqn:E; cbn [option_map] in *;
      cbn [filled]; rewrite ?all_att, ?nth_error_att, ?E; cbn [option_map]; auto.
    cbn [snd] in *. apply nth_error_In in E. destruct (F c E). apply IH; auto.
Qed.

(** * The meter does not change the result *)

Definition leaf (v : val) : bool :=
  match v with VSeq (Some _) | VSeqOf _ | VChoice (Some _) => false | _ => true end.

Lemma val_ind2 (P : val -> Prop) :
  (forall v, leaf v = true -> P v) ->
  (forall ss, Forall (fun s => match s with Some x => P x | None => True end) ss -> P (VSeq (Some ss))) ->
  (forall l, Forall P l -> P (VSeqOf l)) ->
  (forall i x, P x -> P (VChoice (Some (i, x)))) ->
  forall v, P v.
Proof.
  intros H1 H2 H3 H4. fix IH 1. intros [ | | | | | |[ss|]|l|[(i, x)|]].
  1-6, 8, 11: apply H1; reflexivity.
  - apply H2. induction ss as [|[x|] ss IHs]; constructor; auto.
  - apply H3. induction l as [|x l IHl]; constructor; auto.
  - apply H4. apply IH.
Qed.

(** The loops of [ask], by name. *)
Definition ask_mand : list (option val) -> list (comp ty) -> nat * bool :=
  fix mand (ss : list (option val)) (cs : list (comp ty)) {struct ss} : nat * bool :=
    match ss, cs with
    | s :: ss', c :: cs' =>
        if is_mandatory c then
          match s with
          | None => (0%nat, false)
          | Some v' =>
              let a := ask (cty c) v' in
              if snd a then let r := mand ss' cs' in ((fst a + fst r)%nat, snd r)
              else (fst a, false)
          end
        else mand ss' cs'
    | [], cs => (0%nat, forallb (fun c => negb (is_mandatory c)) cs)
    | _, [] => (0%nat, true)
    end.

Definition ask_any : list (option val) -> list (comp ty) -> nat * bool :=
  fix any (ss : list (option val)) (cs : list (comp ty)) {struct ss} : nat * bool :=
    match ss, cs with
    | s :: ss', c :: cs' =>
        match s with
        | None => any ss' cs'
        | Some v' =>
            let a := ask (cty c) v' in
            if snd a then (fst a, true)
            else let r := any ss' cs' in ((fst a + fst r)%nat, snd r)
        end
    | _, _ => (0%nat, false)
    end.

Definition ask_all (t : ty) : list val -> nat * bool :=
  fix all (l : list val) : nat * bool :=
    match l with
    | [] => (0%nat, true)
    | v' :: l' =>
        let a := ask t v' in
        if snd a then let r := all l' in ((fst a + fst r)%nat, snd r) else (fst a, false)
    end.

Lemma ask_seq t ss : ask t (VSeq (Some ss)) =
  if snd (ask_mand ss (comps_of t)) then (S (fst (ask_mand ss (comps_of t))), true)
  else (S (fst (ask_mand ss (comps_of t)) + fst (ask_any ss (comps_of t)))%nat, snd (ask_any ss (comps_of t))).
Proof. reflexivity. Qed.

Lemma ask_seqof t l : ask t (VSeqOf l) =
  (S (fst (ask_all (elem_of t) l)), match l with [] => false | _ => snd (ask_all (elem_of t) l) end).
Proof. reflexivity. Qed.

Lemma ask_value : forall v t, snd (ask t v) = is_value t v.
Proof.
  induction v as [v L|ss IH|l IH|i x IH] using val_ind2; intros t.
  - destruct v as [ | | | | | |[|]| |[|]]; try discriminate; reflexivity.
  - rewrite ask_seq, is_value_seq.
    assert (A : forall cs, snd (ask_mand ss cs) = seq_mand ss cs /\ snd (ask_any ss cs) = seq_any ss cs).
    { clear t. induction IH as [|s ss Hs H IHs]; intros [|c cs]; auto.
      cbn [ask_mand ask_any seq_mand seq_any]. fold ask_mand ask_any seq_mand seq_any.
      destruct (IHs cs) as (A1 & A2). destruct s as [x|]; cbn [slot_value].
      - rewrite Hs. destruct (is_mandatory c), (is_value (cty c) x); cbn [fst snd negb orb andb]; auto.
      - rewrite A2. destruct (is_mandatory c); cbn [fst snd negb orb andb]; auto. }
    destruct (A (comps_of t)) as (A1 & A2). rewrite A1. destruct (seq_mand ss (comps_of t)); auto.
  - rewrite ask_seqof. cbn [snd is_value].
    assert (A : snd (ask_all (elem_of t) l) = forallb (is_value (elem_of t)) l).
    { induction IH as [|x l Hx H IHl]; auto. cbn [ask_all forallb]. fold (ask_all (elem_of t)).
      rewrite Hx. destruct (is_value (elem_of t) x); cbn [snd andb]; auto. }
    rewrite A. now destruct l.
  - cbn [ask is_value snd]. apply IH.
Qed.

Lemma mbind_snd {A B} (m : M A) (f : A -> M B) : snd (mbind m f) = (let* a := snd m in snd (f a)).
Proof. unfold mbind. destruct (snd m); reflexivity. Qed.

Section Result.
  Context (wf wa : nat).
  Notation me := (m_enc wf wa).

  Definition agree (c : comp ty) (s : option val) : Prop :=
    snd (me (cty c) (slot_get c s)) = enc (cty c) (slot_get c s).

  Definition agree_root (c : comp ty) (s : option val) : Prop :=
    match cpres c with
    | Mand => agree c s
    | Opt => present (cty c) (slot_get c s) = true -> agree c s
    | Dflt d => forall b, raw_ne d (slot_get c s) = Ok b -> agree c s
    end.

  Definition agree_add (c : comp ty) (s : option val) : Prop :=
    present (cty c) (slot_get c s) = true -> agree c s.

  Lemma m_ask_snd t v : snd (m_ask wa t v) = Ok (is_value t v).
  Proof. unfold m_ask. cbn [snd]. now rewrite ask_value. Qed.

  Lemma m_root_snd look cs : forall ss, Forall2 (looks look) cs ss -> Forall2 agree_root cs ss ->
    snd (m_root wa me look cs) = enc_root enc look cs.
  Proof.
    induction cs as [|c cs IH]; intros ss Lk Ag; auto.
    inversion Lk as [|? s ? ss' Lc Lk']; subst. apply Forall2_cons_iff in Ag as (Ac & Ag).
    cbn [m_root enc_root]. fold (m_root wa me look). fold (enc_root enc look).
    rewrite mbind_snd. cbn [pure snd]. unfold looks in Lc. rewrite Lc. cbn [bind]. rewrite mbind_snd.
    match goal with |- bind ?x _ = bind ?y _ => assert (E : x = y) end.
    { unfold agree_root in Ac. destruct (cpres c) as [| |d].
      - rewrite mbind_snd. rewrite Ac. reflexivity.
      - rewrite mbind_snd, m_ask_snd. cbn [bind]. rewrite <- present_eq in *.
        destruct (present (cty c) (slot_get c s)); [|reflexivity].
        rewrite mbind_snd, Ac by auto. reflexivity.
      - rewrite mbind_snd. cbn [pure snd]. destruct (raw_ne d (slot_get c s)) as [b|] eqn:N; [|reflexivity].
        cbn [bind]. destruct b; [|reflexivity]. rewrite mbind_snd, (Ac _ eq_refl). reflexivity. }
    rewrite E. clear E. match goal with |- bind ?y _ = _ => destruct y; [|reflexivity] end.
    cbn [bind]. rewrite mbind_snd, (IH ss') by auto. reflexivity.
  Qed.

  Lemma m_adds_snd look cs : forall ss prev, Forall2 (looks look) cs ss -> Forall2 agree_add cs ss ->
    snd (m_adds wa me look prev cs) = enc_adds enc look prev cs.
  Proof.
    induction cs as [|c cs IH]; intros ss prev Lk Ag; auto.
    inversion Lk as [|? s ? ss' Lc Lk']; subst. apply Forall2_cons_iff in Ag as (Ac & Ag).
    cbn [m_adds enc_adds]. fold (m_adds wa me look). fold (enc_adds enc look).
    rewrite mbind_snd. cbn [pure snd]. unfold looks in Lc. rewrite Lc. cbn [bind].
    rewrite mbind_snd, m_ask_snd. cbn [bind]. rewrite mbind_snd.
    match goal with |- bind ?x _ = bind ?y _ => assert (E : x = y) end.
    { unfold agree_add in Ac. rewrite present_eq in Ac. destruct (is_value (cty c) (slot_get c s)); [|reflexivity].
      destruct (prev_missing prev); [reflexivity|]. destruct (comp_values_ok (slot_get c s)); [|reflexivity].
      rewrite mbind_snd, Ac by auto. destruct (enc (cty c) (slot_get c s)); [|reflexivity].
      cbn [bind]. rewrite mbind_snd. reflexivity. }
    rewrite E. clear E. match goal with |- bind ?y _ = _ => destruct y; [|reflexivity] end.
    cbn [bind]. rewrite mbind_snd, (IH ss') by auto. reflexivity.
  Qed.

  Lemma m_scan_snd look cs : forall prev, snd (m_scan wa look prev cs) = group_scan look prev cs.
  Proof.
    induction cs as [|c cs IH]; intros prev; auto.
    cbn [m_scan group_scan]. fold (m_scan wa look). fold (group_scan look).
    rewrite mbind_snd. cbn [pure snd]. destruct (look (cname c)) as [v|]; [|reflexivity]. cbn [bind].
    rewrite mbind_snd, m_ask_snd. cbn [bind]. rewrite mbind_snd.
    match goal with |- bind ?x _ = bind ?y _ => assert (E : x = y) end.
    { destruct (is_value (cty c) v); [|reflexivity]. destruct (prev_missing prev); reflexivity. }
    rewrite E. clear E. match goal with |- bind ?y _ = _ => destruct y; [|reflexivity] end.
    cbn [bind]. rewrite mbind_snd, IH. reflexivity.
  Qed.

  Fixpoint agree_groups (gs : list (list (comp ty))) (ss : list (option val)) : Prop :=
    match gs with
    | [] => True
    | g :: gs' => (group_valued g (firstn (len g) ss) = true -> Forall2 agree_root g (firstn (len g) ss)) /\
                  agree_groups gs' (skipn (len g) ss)
    end.

  Lemma m_groups_snd look gs : forall ss prevg, Forall2 (looks look) (List.concat gs) ss -> agree_groups gs ss ->
    snd (m_groups wf wa me look prevg gs) = enc_groups enc look prevg gs.
  Proof.
    induction gs as [|g gs IH]; intros ss prevg Lk Ag; auto.
    cbn [List.concat agree_groups] in *. apply Forall2_app_l in Lk as (L1 & L2). destruct Ag as (A1 & A2).
    cbn [m_groups enc_groups]. fold (m_groups wf wa me look). fold (enc_groups enc look).
    rewrite mbind_snd, m_scan_snd. destruct (group_scan look None g) as [ps|] eqn:Sc; [|reflexivity].
    cbn [bind]. rewrite mbind_snd.
    match goal with |- bind ?x _ = bind ?y _ => assert (E : x = y) end.
    { pose proof (group_scan_present look g _ None ps L1 Sc) as Ps.
      replace (group_sent g (firstn (len g) ss)) with (group_valued g (firstn (len g) ss)) in Ps by reflexivity.
      rewrite Ps. destruct (group_valued g (firstn (len g) ss)); [|reflexivity].
      rewrite mbind_snd. cbn [pure snd]. match goal with |- bind ?y _ = _ => destruct y; [|reflexivity] end.
      cbn [bind]. rewrite mbind_snd. cbn [m_call snd]. rewrite (m_root_snd look g _ L1 (A1 eq_refl)).
      destruct (enc_root enc look g) as [rr|]; [|reflexivity]. cbn [bind].
      rewrite mbind_snd. cbn [pure snd]. destruct (root_fields rr); [|reflexivity]. cbn [bind].
      rewrite mbind_snd. reflexivity. }
    rewrite E. clear E. match goal with |- bind ?y _ = _ => destruct y; [|reflexivity] end.
    cbn [bind]. rewrite mbind_snd, (IH (skipn (len g) ss)) by auto. reflexivity.
  Qed.

  Lemma m_list_snd t l : Forall (fun v => snd (me t v) = enc t v) l ->
    snd (m_list (me t) l) = enc_list (enc t) l.
  Proof.
    induction 1 as [|v l Hv Hl IH]; auto. cbn [m_list enc_list]. rewrite mbind_snd, Hv.
    destruct (enc t v); [|reflexivity]. cbn [bind]. rewrite mbind_snd, IH. reflexivity.
  Qed.

  Definition agreed_slot (c : comp ty) (s : option val) : Prop :=
    shaped (cty c) (slot_get c s) /\ (filled (cty c) (slot_get c s) -> agree c s).

  Lemma agree_simple c s : is_simple (cty c) = true -> shaped (cty c) (slot_get c s) -> agree c s.
  Proof.
    unfold agree. destruct (cty c); try discriminate; intros _ Sh; destruct (slot_get c s); try contradiction Sh; reflexivity.
  Qed.

  Lemma agreed_root cs : forall ss, Forall2 agreed_slot cs ss ->
    all_of (zipw filled_root (att filled cs) ss) -> Forall2 agree_root cs ss.
  Proof.
    induction 1 as [|c s cs ss Hc Hs IH]; intros A; constructor; cbn [att map zipw] in A; apply all_of_cons in A as (A1 & A2); auto.
    destruct Hc as (Sh & Ag). unfold filled_root in A1. cbn [fst snd] in A1. unfold agree_root.
    destruct (cpres c) as [| |d]; auto. intros b N. apply agree_simple; auto. eapply raw_ne_simple; eauto.
  Qed.

  Lemma agreed_add cs : forall ss, Forall2 agreed_slot cs ss ->
    all_of (zipw filled_add (att filled cs) ss) -> Forall2 agree_add cs ss.
  Proof.
    induction 1 as [|c s cs ss Hc Hs IH]; intros A; constructor; cbn [att map zipw] in A; apply all_of_cons in A as (A1 & A2); auto.
    destruct Hc as (Sh & Ag). unfold filled_add in A1. cbn [fst snd] in A1. unfold agree_add. auto.
  Qed.

  Lemma agreed_groups gs : forall ss, Forall2 agreed_slot (List.concat gs) ss ->
    filled_groups (map (att filled) gs) ss -> agree_groups gs ss.
  Proof.
    induction gs as [|g gs IH]; intros ss Hs Fl; cbn [agree_groups]; auto.
    cbn [List.concat map filled_groups] in *. rewrite att_length in *.
    apply Forall2_app_l in Hs as (H1 & H2). destruct Fl as (F1 & F2). split; [|now apply IH].
    intros V. apply agreed_root; auto. apply filled_group_firstn in F1. unfold filled_group in F1.
    rewrite att_fst in F1. exact (proj1 (F1 V)).
  Qed.

  (** Whether the metered encoder raises and what it returns is what Encoder.v
      says, on the objects of C28. *)
  Lemma m_enc_snd t : forall v, formed t -> shaped t v -> filled t v -> snd (me t v) = enc t v.
  Proof.
    induction t as [t S0|e r a g IH|c t IH|e r a g IH] using ty_ind2; intros v F Sh Fl.
    - destruct t; try discriminate; destruct v; reflexivity.
    - destruct v as [ | | | | | |s| |]; try reflexivity. pose proof Sh as Sh'. apply shaped_seq in Sh' as (L & _ & _).
      assert (R : Forall2 agreed_slot (all_comps r a g) (slots_list (ncomps r a g) s)).
      { rewrite Forall_forall in IH. apply Forall2_of_nth; [now rewrite L|]. intros i c x Hc Hx.
        destruct (comp_found _ _ _ _ _ _ _ _ F Sh Hc Hx) as (Fc & Sc). split; auto. intros Fi.
        apply IH; auto. eapply nth_error_In; eauto. }
      destruct (seq_parts _ _ _ _ _ R) as (s1 & s2 & s3 & E & L1 & L2 & R1 & R2 & R3).
      apply (filled_seq e r a g s s1 s2 s3 E L1 L2) in Fl as (A1 & A2 & A3).
      pose proof F as F'. apply (fun H => formed_comps e r a g (or_introl H)) in F' as (N & _).
      pose proof (looks_all _ s N L) as Lk. fold (ncomps r a g) in Lk. rewrite E in Lk.
      unfold all_comps in Lk at 1. apply Forall2_app_l in Lk as (K1 & K2).
      rewrite (firstn_len_app s1) in K1 by auto. rewrite (skipn_len_app s1) in K2 by auto.
      apply Forall2_app_l in K2 as (K2 & K3).
      rewrite (firstn_len_app s2) in K2 by auto. rewrite (skipn_len_app s2) in K3 by auto.
      cbn [m_enc enc m_call snd]. unfold m_sequence, encode_sequence.
      set (look := get_by_name (all_comps r a g) s) in *. rewrite mbind_snd.
      rewrite (m_root_snd look r s1) by auto using agreed_root.
      destruct (enc_root enc look r) as [rr|]; [|reflexivity]. cbn [bind]. rewrite mbind_snd. cbn [pure snd].
      destruct (root_fields rr) as [rf|]; [|reflexivity]. cbn [bind]. destruct e; [|reflexivity].
      destruct (isnil a && isnil g); [reflexivity|]. rewrite mbind_snd.
      rewrite (m_adds_snd look a s2) by auto using agreed_add.
      destruct (enc_adds enc look None a) as [ab|]; [|reflexivity]. cbn [bind]. rewrite mbind_snd.
      rewrite (m_groups_snd look g s3) by auto using agreed_groups.
      destruct (enc_groups enc look None g) as [gb|]; [|reflexivity]. cbn [bind].
      destruct (0 <? bval (fst ab ++ fst gb)); [|reflexivity]. rewrite mbind_snd. reflexivity.
    - destruct v as [ | | | | | | |l|]; try reflexivity. cbn [m_enc enc m_call snd shaped formed filled] in *.
      apply all_of_map in Sh, Fl. rewrite mbind_snd, m_list_snd; [reflexivity|].
      rewrite Forall_forall in *. auto.
    - destruct v as [ | | | | | | | |[(i, x)|]]; try reflexivity. apply shaped_choice in Sh.
      apply (fun H => formed_comps e r a g (or_intror H)) in F as (N & F). rewrite Forall_forall in F, IH.
      cbn [m_enc enc m_call snd filled] in *. rewrite all_att, nth_error_att in Fl.
      assert (Ec : forall B (h : comp ty -> B), map h r ++ map h a ++ List.concat (map (map h) g) = map h (all_comps r a g)).
      { intros B h. unfold all_comps. now rewrite !map_app, concat_map. }
      rewrite !Ec, !nth_error_map. clear Ec. destruct (nth_error (all_comps r a g) i) as [c|] eqn:Hc; [|reflexivity].
      cbn [option_map snd] in *. pose proof (nth_error_In _ _ Hc) as Ic. destruct (F c Ic) as (Fc & _).
      rewrite mbind_snd, (IH c Ic x Fc Sh Fl). destruct (enc (cty c) x) as [body|] eqn:E; [|reflexivity]. cbn [bind].
      destruct (sent_out e r a g (cname c)); [|reflexivity]. rewrite mbind_snd.
      rewrite (IH c Ic (after_encode (cty c) x)); auto using filled_after.
      + destruct (again_all (cty c) x body Fc Sh Fl E) as (-> & _). reflexivity.
      + eapply woken_shaped; eauto. now apply enc_wakes_all.
  Qed.
End Result.

(** * How often fill_field_list is called *)

(** The parts of what a message says, absent components not counted. *)
Fixpoint parts (a : aval) : nat :=
  match a with
  | ASeq l => S (list_sum (map (fun o => match o with Some x => parts x | None => 0%nat end) l))
  | ASeqOf l => S (list_sum (map parts l))
  | AChoice (Some (_, x)) => S (parts x)
  | _ => 1%nat
  end.

(** How deep extension alternatives are nested in each other. *)
Definition outside_slot (ca : comp ty * (aval -> nat)) (o : option aval) : nat :=
  match o with Some x => snd ca x | None => 0%nat end.

Fixpoint outside (t : ty) (a : aval) {struct t} : nat :=
  match t, a with
  | TSeq _ root adds groups, ASeq l =>
      list_max (zipw outside_slot (att outside root ++ att outside adds ++ List.concat (map (att outside) groups)) l)
  | TSeqOf _ t', ASeqOf l => list_max (map (outside t') l)
  | TChoice _ root adds groups, AChoice (Some (i, x)) =>
      match nth_error (att outside root ++ att outside adds ++ List.concat (map (att outside) groups)) i with
      | Some ca => ((if (i <? List.length root)%nat then 0 else 1) + snd ca x)%nat
      | None => 0%nat
      end
  | _, _ => 0%nat
  end.

Lemma parts_pos a : (1 <= parts a)%nat.
Proof. destruct a as [ | | | | | | | |[(i, x)|]]; cbn [parts]; lia. Qed.

Lemma mbind_fst {A B} (m : M A) (f : A -> M B) n :
  (forall a, snd m = Ok a -> (fst (f a) <= n)%nat) -> (fst (mbind m f) <= fst m + n)%nat.
Proof.
  intros Hf. unfold mbind. destruct (snd m) as [a|]; cbn [fst]; [|lia]. specialize (Hf a eq_refl). lia.
Qed.

Definition psum (l : list (option aval)) : nat :=
  list_sum (map (fun o => match o with Some x => parts x | None => 0%nat end) l).
Definition nsome (l : list (option aval)) : nat :=
  list_sum (map (fun o => match o with Some x => 1%nat | None => 0%nat end) l).

Lemma list_sum_app l m : list_sum (l ++ m) = (list_sum l + list_sum m)%nat.
Proof. induction l; cbn [List.app list_sum fold_right]; [reflexivity|]. unfold list_sum in *. cbn [fold_right]. lia. Qed.

Lemma psum_app l m : psum (l ++ m) = (psum l + psum m)%nat.
Proof. unfold psum. now rewrite map_app, list_sum_app. Qed.

Lemma psum_cons o l : psum (o :: l) = (match o with Some x => parts x | None => 0 end + psum l)%nat.
Proof. reflexivity. Qed.
Lemma nsome_cons o l : nsome (o :: l) = (match o with Some x => 1 | None => 0 end + nsome l)%nat.
Proof. reflexivity. Qed.

Lemma nsome_le l : (nsome l <= psum l)%nat.
Proof.
  induction l as [|[x|] l IH]; rewrite ?psum_cons, ?nsome_cons; [cbn; lia| |lia].
  pose proof (parts_pos x). lia.
Qed.

Section Fills.
  Notation me := (m_enc 1 0).

  (** A call on an object that has [p] parts, in terms of the factor [k]. *)
  Definition cheap (k n p : nat) : Prop := (n + k <= 2 * k * p)%nat.

  Lemma cheap_mono k k' n p : (1 <= p)%nat -> (k <= k')%nat -> cheap k n p -> cheap k' n p.
  Proof. unfold cheap. intros. nia. Qed.

  Definition call_cheap (k : nat) (t : ty) (v : val) : Prop := cheap k (fst (me t v)) (parts (reading t v)).

  Definition cheap_root (k : nat) (c : comp ty) (s : option val) : Prop :=
    match cpres c with
    | Mand => call_cheap k (cty c) (slot_get c s)
    | Opt => present (cty c) (slot_get c s) = true -> call_cheap k (cty c) (slot_get c s)
    | Dflt d => forall b, raw_ne d (slot_get c s) = Ok b -> call_cheap k (cty c) (slot_get c s)
    end.

  Definition cheap_add (k : nat) (c : comp ty) (s : option val) : Prop :=
    present (cty c) (slot_get c s) = true -> call_cheap k (cty c) (slot_get c s).

  Lemma m_ask_0 t v : m_ask 0 t v = (0%nat, Ok (is_value t v)).
  Proof. unfold m_ask. now rewrite ask_value. Qed.

  Lemma root_step k N P o z : (1 <= k)%nat -> (N <= P)%nat ->
    (z <= 0 + (match o with Some x => 2 * k * parts x - k | None => 0 end + (2 * k * P - k * N)))%nat ->
    (z + k * (match o with Some _ => 1 | None => 0 end + N)
     <= 2 * k * (match o with Some x => parts x | None => 0 end + P))%nat.
  Proof.
    intros K NP E. assert (k * N <= 2 * k * P)%nat by nia. rewrite !Nat.mul_add_distr_l.
    destruct o as [x|]; cbn beta iota in *; [|lia].
    pose proof (parts_pos x). assert (k <= 2 * k * parts x)%nat by nia. lia.
  Qed.

  Lemma m_root_fst k look cs : (1 <= k)%nat -> forall ss, Forall2 (looks look) cs ss -> Forall2 (cheap_root k) cs ss ->
    (fst (m_root 0 me look cs) + k * nsome (zipw read_root (att reading cs) ss)
     <= 2 * k * psum (zipw read_root (att reading cs) ss))%nat.
  Proof.
    intros K. induction cs as [|c cs IH]; intros ss Lk Ch; [cbn; lia|].
    inversion Lk as [|? s ? ss' Lc Lk']; subst. apply Forall2_cons_iff in Ch as (Cc & Ch).
    specialize (IH ss' Lk' Ch). cbn [att map zipw]. fold (att reading cs). rewrite psum_cons, nsome_cons.
    set (P := psum (zipw read_root (att reading cs) ss')) in *. set (N := nsome (zipw read_root (att reading cs) ss')) in *.
    assert (NP : (N <= P)%nat) by apply nsome_le.
    cbn [m_root]. fold (m_root 0 me look).
    apply root_step; auto.
    apply mbind_fst. intros v Ev. cbn [pure snd] in Ev. unfold looks in Lc.
    assert (v = slot_get c s) by congruence. subst v. clear Ev.
    eapply Nat.le_trans; [apply mbind_fst with (n := (2 * k * P - k * N)%nat)|].
    - intros bf _. eapply Nat.le_trans; [apply mbind_fst with (n := 0%nat); cbn; lia|]. lia.
    - apply Nat.add_le_mono_r. unfold read_root, cheap_root, call_cheap, cheap in *. cbn [fst snd] in *.
      assert (J : forall b : bits, (fst (mbind (me (cty c) (slot_get c s)) (fun fs => pure (Ok (b, fs)))) <= fst (me (cty c) (slot_get c s)))%nat).
      { intros b. eapply Nat.le_trans; [apply mbind_fst with (n := 0%nat); cbn; lia|]. lia. }
      destruct (cpres c) as [| |d].
      + eapply Nat.le_trans; [apply J|]. cbn beta iota. lia.
      + unfold mbind at 1. rewrite m_ask_0. cbn [fst snd]. rewrite <- present_eq.
        destruct (present (cty c) (slot_get c s)); cbn [pure fst]; [|lia]. specialize (Cc eq_refl).
        eapply Nat.le_trans; [apply J|]. cbn beta iota. lia.
      + unfold mbind at 1. cbn [pure fst snd]. destruct (raw_ne d (slot_get c s)) as [b|]; cbn [fst]; [|lia].
        specialize (Cc b eq_refl). destruct b; cbn [pure fst]; [|lia].
        eapply Nat.le_trans; [apply J|]. cbn beta iota. lia.
  Qed.
  Lemma m_adds_fst k look cs : (1 <= k)%nat -> forall ss prev, Forall2 (looks look) cs ss -> Forall2 (cheap_add k) cs ss ->
    (fst (m_adds 0 me look prev cs) <= 2 * k * psum (zipw read_ext (att reading cs) ss))%nat.
  Proof.
    intros K. induction cs as [|c cs IH]; intros ss prev Lk Ch; [cbn; lia|].
    inversion Lk as [|? s ? ss' Lc Lk']; subst. apply Forall2_cons_iff in Ch as (Cc & Ch).
    cbn [att map zipw]. fold (att reading cs). rewrite psum_cons, Nat.mul_add_distr_l.
    set (P := psum (zipw read_ext (att reading cs) ss')) in *.
    cbn [m_adds]. fold (m_adds 0 me look).
    apply (Nat.le_trans _ (0 + (0 + (2 * k * match read_ext (c, reading (cty c)) s with Some x => parts x | None => 0 end + 2 * k * P)))%nat); [|lia].
    apply mbind_fst. intros v Ev. cbn [pure snd] in Ev. unfold looks in Lc.
    assert (v = slot_get c s) by congruence. subst v. clear Ev. rewrite m_ask_0. apply (mbind_fst (_, _)).
    intros b Eb. cbn [snd] in Eb. assert (b = is_value (cty c) (slot_get c s)) by congruence. subst b. clear Eb.
    eapply Nat.le_trans; [apply mbind_fst with (n := (2 * k * P)%nat)|].
    - intros bf _. eapply Nat.le_trans; [apply mbind_fst with (n := 0%nat); cbn; lia|]. rewrite Nat.add_0_r. now apply IH.
    - apply Nat.add_le_mono_r. unfold read_ext, cheap_add, call_cheap, cheap in *. cbn [fst snd] in *.
      rewrite present_eq in *. destruct (is_value (cty c) (slot_get c s)); cbn [pure fst andb] in *; [|lia].
      destruct (prev_missing prev); cbn [pure fst]; [lia|].
      destruct (comp_values_ok (slot_get c s)); cbn [pure fst] in *; [|lia]. specialize (Cc eq_refl).
      eapply Nat.le_trans; [apply mbind_fst with (n := 0%nat)|lia].
      intros fs _. eapply Nat.le_trans; [apply mbind_fst with (n := 0%nat); cbn; lia|cbn; lia].
  Qed.

  Lemma m_scan_fst look cs : forall prev, fst (m_scan 0 look prev cs) = 0%nat.
  Proof.
    induction cs as [|c cs IH]; intros prev; auto. cbn [m_scan]. fold (m_scan 0 look). apply Nat.le_0_r.
    apply (Nat.le_trans _ (0 + 0)%nat); [|lia]. apply mbind_fst. intros v _. rewrite m_ask_0.
    apply (Nat.le_trans _ (0 + 0)%nat); [|lia]. apply (mbind_fst (_, _)). intros b _.
    apply (Nat.le_trans _ (0 + 0)%nat); [|lia].
    eapply Nat.le_trans; [apply mbind_fst with (n := 0%nat)|].
    - intros h _. cbn zeta. eapply Nat.le_trans; [apply mbind_fst with (n := 0%nat); cbn; lia|]. rewrite IH. lia.
    - destruct b; [|cbn; lia]. destruct (prev_missing prev); cbn; lia.
  Qed.

  Fixpoint cheap_groups (k : nat) (gs : list (list (comp ty))) (ss : list (option val)) : Prop :=
    match gs with
    | [] => True
    | g :: gs' => (group_valued g (firstn (len g) ss) = true -> Forall2 (cheap_root k) g (firstn (len g) ss)) /\
                  cheap_groups k gs' (skipn (len g) ss)
    end.

  Lemma valued_some g : forall ss, group_valued g ss = true -> (1 <= nsome (zipw read_root (att reading g) ss))%nat.
  Proof.
    induction g as [|c g IH]; intros [|s ss] V; try discriminate. rewrite group_valued_cons in V.
    cbn [att map zipw]. rewrite nsome_cons. fold (att reading g). apply orb_true_iff in V as [V|V].
    - unfold read_root. cbn [fst snd]. rewrite V. destruct (cpres c); lia.
    - specialize (IH ss V). lia.
  Qed.

  Lemma read_group_firstn g ss : read_group (att reading g) (firstn (len g) ss) = read_group (att reading g) ss.
  Proof.
    unfold read_group. rewrite att_fst. unfold group_valued. rewrite zipw_firstn.
    now rewrite <- (zipw_firstn read_root (att reading g) ss), att_length.
  Qed.

  Lemma m_groups_fst k look gs : (1 <= k)%nat -> forall ss prevg,
    Forall2 (looks look) (List.concat gs) ss -> cheap_groups k gs ss ->
    (fst (m_groups 1 0 me look prevg gs) <= 2 * k * psum (read_groups (map (att reading) gs) ss))%nat.
  Proof.
    intros K. induction gs as [|g gs IH]; intros ss prevg Lk Ch; [cbn; lia|].
    cbn [List.concat cheap_groups map read_groups] in *. apply Forall2_app_l in Lk as (L1 & L2). destruct Ch as (A1 & A2).
    rewrite att_length, psum_app, Nat.mul_add_distr_l, <- read_group_firstn.
    set (old := firstn (len g) ss) in *. set (P := psum (read_groups (map (att reading) gs) (skipn (len g) ss))).
    cbn [m_groups]. fold (m_groups 1 0 me look).
    eapply Nat.le_trans; [apply mbind_fst with (n := (2 * k * psum (read_group (att reading g) old) + 2 * k * P)%nat)|rewrite m_scan_fst; lia].
    intros ps Eps. rewrite m_scan_snd in Eps. pose proof (group_scan_present look g _ None ps L1 Eps) as Ps.
    replace (group_sent g old) with (group_valued g old) in Ps by reflexivity.
    eapply Nat.le_trans; [apply mbind_fst with (n := (2 * k * P)%nat)|].
    - intros bf _. eapply Nat.le_trans; [apply mbind_fst with (n := 0%nat); cbn; lia|]. rewrite Nat.add_0_r. now apply IH.
    - apply Nat.add_le_mono_r. rewrite Ps. unfold read_group. rewrite att_fst.
      destruct (group_valued g old) eqn:V; [|cbn; lia].
      pose proof (m_root_fst k look g K old L1 (A1 eq_refl)) as Q. pose proof (valued_some g old V) as Q'.
      set (N := nsome (zipw read_root (att reading g) old)) in *. set (R := psum (zipw read_root (att reading g) old)) in *.
      assert (Q2 : (k <= k * N)%nat) by nia.
      eapply Nat.le_trans; [apply mbind_fst with (n := (1 + fst (m_root 0 me look g))%nat)|cbn [pure fst]; lia].
      intros _ _. eapply Nat.le_trans; [apply mbind_fst with (n := 0%nat)|unfold m_call; cbn [fst]; lia].
      intros rr _. eapply Nat.le_trans; [apply mbind_fst with (n := 0%nat)|cbn; lia].
      intros fs _. eapply Nat.le_trans; [apply mbind_fst with (n := 0%nat); cbn; lia|cbn; lia].
  Qed.

  Lemma m_list_fst k t l : (1 <= k)%nat -> Forall (call_cheap k t) l ->
    (fst (m_list (me t) l) <= 2 * k * list_sum (map parts (map (reading t) l)))%nat.
  Proof.
    intros K. induction 1 as [|v l Hv Hl IH]; [cbn; lia|]. cbn [m_list map].
    change (list_sum (parts (reading t v) :: map parts (map (reading t) l)))
      with (parts (reading t v) + list_sum (map parts (map (reading t) l)))%nat.
    rewrite Nat.mul_add_distr_l. unfold call_cheap, cheap in Hv.
    eapply Nat.le_trans; [apply mbind_fst with (n := (2 * k * list_sum (map parts (map (reading t) l)))%nat)|lia].
    intros b _. eapply Nat.le_trans; [apply mbind_fst with (n := 0%nat); cbn; lia|]. lia.
  Qed.
End Fills.

Definition within (k : nat) (c : comp ty) (o : option aval) : Prop :=
  match o with Some x => (outside (cty c) x <= k)%nat | None => True end.

Definition priced_slot (c : comp ty) (s : option val) : Prop :=
  shaped (cty c) (slot_get c s) /\
  (filled (cty c) (slot_get c s) ->
   call_cheap (2 ^ outside (cty c) (reading (cty c) (slot_get c s))) (cty c) (slot_get c s)).

Lemma pow_pos k : (1 <= 2 ^ k)%nat.
Proof. induction k; cbn [Nat.pow]; lia. Qed.

Lemma pow_mono k k' : (k <= k')%nat -> (2 ^ k <= 2 ^ k')%nat.
Proof. intros. apply Nat.pow_le_mono_r; lia. Qed.

Lemma priced_cheap k c s : priced_slot c s -> filled (cty c) (slot_get c s) ->
  (outside (cty c) (reading (cty c) (slot_get c s)) <= k)%nat -> call_cheap (2 ^ k) (cty c) (slot_get c s).
Proof.
  intros (Sh & Pr) Fl K. specialize (Pr Fl). unfold call_cheap in *.
  eapply cheap_mono; [apply parts_pos|apply pow_mono; exact K|exact Pr].
Qed.

Lemma simple_cheap k t v : is_simple t = true -> shaped t v -> call_cheap (2 ^ k) t v.
Proof.
  intros Si Sh. pose proof (pow_pos k) as K. unfold call_cheap, cheap. pose proof (parts_pos (reading t v)).
  assert (E : fst (m_enc 1 0 t v) = 1%nat).
  { destruct t; try discriminate; destruct v; try contradiction Sh; reflexivity. }
  rewrite E. nia.
Qed.

Lemma priced_root k cs : forall ss, Forall2 priced_slot cs ss ->
  all_of (zipw filled_root (att filled cs) ss) ->
  all_of (zipw (within k) cs (zipw read_root (att reading cs) ss)) -> Forall2 (cheap_root (2 ^ k)) cs ss.
Proof.
  induction 1 as [|c s cs ss Hc Hs IH]; intros A W; constructor; cbn [att map zipw] in A, W;
    apply all_of_cons in A as (A1 & A2); apply all_of_cons in W as (W1 & W2); auto.
  unfold filled_root, within, read_root in *. cbn [fst snd] in *. unfold cheap_root.
  destruct (cpres c) as [| |d].
  - now apply priced_cheap.
  - intros P. rewrite P in W1. apply priced_cheap; auto.
  - intros b N. destruct Hc as (Sh & _). apply simple_cheap; auto. eapply raw_ne_simple; eauto.
Qed.

Lemma priced_add k cs : forall ss, Forall2 priced_slot cs ss ->
  all_of (zipw filled_add (att filled cs) ss) ->
  all_of (zipw (within k) cs (zipw read_ext (att reading cs) ss)) -> Forall2 (cheap_add (2 ^ k)) cs ss.
Proof.
  induction 1 as [|c s cs ss Hc Hs IH]; intros A W; constructor; cbn [att map zipw] in A, W;
    apply all_of_cons in A as (A1 & A2); apply all_of_cons in W as (W1 & W2); auto.
  unfold filled_add, within, read_ext in *. cbn [fst snd] in *. intros P. rewrite P in W1. apply priced_cheap; auto.
Qed.

Lemma zipw_app {A B C} (f : A -> B -> C) l l' m m' : len l = len m ->
  zipw f (l ++ l') (m ++ m') = zipw f l m ++ zipw f l' m'.
Proof.
  revert m. induction l as [|x l IH]; intros [|y m] L; try discriminate; auto.
  cbn [zipw List.app]. f_equal. apply IH. cbn in L. lia.
Qed.

Lemma read_group_len g ss : len ss = len g -> len (read_group (att reading g) ss) = len g.
Proof.
  intros L. unfold read_group. destruct (group_valued _ _); [rewrite zipw_len_le, att_length; lia|].
  now rewrite map_length, att_length.
Qed.

Lemma priced_groups k gs : forall ss, Forall2 priced_slot (List.concat gs) ss ->
  filled_groups (map (att filled) gs) ss ->
  all_of (zipw (within k) (List.concat gs) (read_groups (map (att reading) gs) ss)) -> cheap_groups (2 ^ k) gs ss.
Proof.
  induction gs as [|g gs IH]; intros ss Hs Fl W; cbn [cheap_groups]; auto.
  cbn [List.concat map filled_groups read_groups] in *. rewrite !att_length in *.
  apply Forall2_app_l in Hs as (H1 & H2). destruct Fl as (F1 & F2).
  rewrite <- read_group_firstn in W. apply filled_group_firstn in F1. set (old := firstn (len g) ss) in *.
  rewrite zipw_app in W by (symmetry; apply read_group_len; symmetry; exact (Forall2_length _ _ _ H1)).
  apply all_of_app in W as (W1 & W2). split; [|now apply IH].
  intros V. unfold filled_group, read_group in *. rewrite !att_fst in *. rewrite V in W1.
  apply priced_root; auto. exact (proj1 (F1 V)).
Qed.

Lemma list_max_in l x : In x l -> (x <= list_max l)%nat.
Proof.
  intros Hx. pose proof (proj1 (list_max_le l (list_max l)) (Nat.le_refl _)) as F.
  rewrite Forall_forall in F. auto.
Qed.

Lemma outside_within cs : forall l k, (list_max (zipw outside_slot (att outside cs) l) <= k)%nat ->
  all_of (zipw (within k) cs l).
Proof.
  induction cs as [|c cs IH]; intros [|o l] k L; try exact all_of_nil.
  cbn [att map zipw] in *. apply list_max_le in L. inversion L as [|? ? L1 L2]; subst.
  apply all_of_cons. split; [|apply IH; now apply list_max_le].
  unfold within, outside_slot in *. destruct o; auto.
Qed.

Lemma m_enc_fst t : forall v, formed t -> shaped t v -> filled t v ->
  call_cheap (2 ^ outside t (reading t v)) t v.
Proof.
  induction t as [t S0|e r a g IH|c t IH|e r a g IH] using ty_ind2; intros v F Sh Fl.
  - now apply simple_cheap.
  - destruct v as [ | | | | | |s| |]; try contradiction Sh. pose proof Sh as Sh'. apply shaped_seq in Sh' as (L & _ & _).
    assert (R : Forall2 priced_slot (all_comps r a g) (slots_list (ncomps r a g) s)).
    { rewrite Forall_forall in IH. apply Forall2_of_nth; [now rewrite L|]. intros i c x Hc Hx.
      destruct (comp_found _ _ _ _ _ _ _ _ F Sh Hc Hx) as (Fc & Sc). split; auto. intros Fi.
      apply IH; auto. eapply nth_error_In; eauto. }
    destruct (seq_parts _ _ _ _ _ R) as (s1 & s2 & s3 & E & L1 & L2 & R1 & R2 & R3).
    apply (filled_seq e r a g s s1 s2 s3 E L1 L2) in Fl as (A1 & A2 & A3).
    pose proof F as F'. apply (fun H => formed_comps e r a g (or_introl H)) in F' as (N & _).
    pose proof (looks_all _ s N L) as Lk. fold (ncomps r a g) in Lk. rewrite E in Lk.
    unfold all_comps in Lk at 1. apply Forall2_app_l in Lk as (K1 & K2).
    rewrite (firstn_len_app s1) in K1 by auto. rewrite (skipn_len_app s1) in K2 by auto.
    apply Forall2_app_l in K2 as (K2 & K3).
    rewrite (firstn_len_app s2) in K2 by auto. rewrite (skipn_len_app s2) in K3 by auto.
    assert (Rd : reading (TSeq e r a g) (VSeq s) =
      ASeq (zipw read_root (att reading r) s1 ++ zipw read_ext (att reading a) s2 ++ read_groups (map (att reading) g) s3)).
    { cbn [reading]. rewrite E. rewrite (skipn_len_app s1) by auto.
      rewrite (app_assoc s1), (skipn_len_app (s1 ++ s2)) by (rewrite app_length; lia). rewrite <- app_assoc.
      rewrite !zipw_exact by (rewrite att_length; auto). reflexivity. }
    unfold call_cheap, cheap. rewrite Rd. cbn [parts outside]. rewrite all_att.
    fold (psum (zipw read_root (att reading r) s1 ++ zipw read_ext (att reading a) s2 ++ read_groups (map (att reading) g) s3)).
    rewrite !psum_app.
    match goal with |- context [list_max ?l] => set (k := list_max l) end.
    assert (W := outside_within (all_comps r a g) _ k (Nat.le_refl _)).
    unfold all_comps in W. rewrite !zipw_app in W by (rewrite zipw_len_le, att_length; lia).
    apply all_of_app in W as (W1 & W2). apply all_of_app in W2 as (W2 & W3).
    pose proof (pow_pos k) as K. set (look := get_by_name (all_comps r a g) s) in *.
    pose proof (m_root_fst _ look r K s1 K1 (priced_root k _ _ R1 A1 W1)) as Q1.
    pose proof (m_adds_fst _ look a K s2 None K2 (priced_add k _ _ R2 A2 W2)) as Q2.
    pose proof (m_groups_fst _ look g K s3 None K3 (priced_groups k _ _ R3 A3 W3)) as Q3.
    set (P1 := psum (zipw read_root (att reading r) s1)) in *. set (P2 := psum (zipw read_ext (att reading a) s2)) in *.
    set (P3 := psum (read_groups (map (att reading) g) s3)) in *.
    assert (T : (fst (m_enc 1 0 (TSeq e r a g) (VSeq s)) <= 1 + (2 * 2 ^ k * P1 + (2 * 2 ^ k * P2 + 2 * 2 ^ k * P3)))%nat).
    { cbn [m_enc m_call fst]. apply Nat.add_le_mono_l. unfold m_sequence. fold look.
      eapply Nat.le_trans; [apply mbind_fst with (n := (2 * 2 ^ k * P2 + 2 * 2 ^ k * P3)%nat)|apply Nat.add_le_mono_r; lia].
      intros rr _. eapply Nat.le_trans; [apply mbind_fst with (n := (2 * 2 ^ k * P2 + 2 * 2 ^ k * P3)%nat)|cbn [pure fst]; lia].
      intros rf _. destruct e; [|cbn [pure fst]; lia]. destruct (isnil a && isnil g); [cbn [pure fst]; lia|].
      eapply Nat.le_trans; [apply mbind_fst with (n := (2 * 2 ^ k * P3)%nat)|apply Nat.add_le_mono_r; exact Q2].
      intros ab _. eapply Nat.le_trans; [apply mbind_fst with (n := 0%nat)|rewrite Nat.add_0_r; exact Q3].
      intros gb _. cbn zeta. destruct (0 <? _); [|cbn; lia].
      eapply Nat.le_trans; [apply mbind_fst with (n := 0%nat); cbn; lia|cbn; lia]. }
    eapply Nat.le_trans; [apply Nat.add_le_mono_r; exact T|]. set (z := (2 ^ k)%nat) in *. clearbody z P1 P2 P3.
    clear - K. nia.
  - destruct v as [ | | | | | | |l|]; try contradiction Sh. cbn [shaped formed filled] in *.
    apply all_of_map in Sh, Fl. unfold call_cheap, cheap. cbn [reading parts outside].
    set (k := list_max (map (outside t) (map (reading t) l))). pose proof (pow_pos k) as K.
    assert (Ch : Forall (call_cheap (2 ^ k) t) l).
    { rewrite Forall_forall in *. intros x Hx. specialize (IH x F (Sh x Hx) (Fl x Hx)).
      unfold call_cheap in *. eapply cheap_mono; [apply parts_pos| |exact IH]. apply pow_mono.
      apply list_max_in, in_map, in_map. exact Hx. }
    pose proof (m_list_fst _ t l K Ch) as Q.
    assert (T : (fst (m_enc 1 0 (TSeqOf c t) (VSeqOf l)) <= 1 + 2 * 2 ^ k * list_sum (map parts (map (reading t) l)))%nat).
    { cbn [m_enc m_call fst]. apply Nat.add_le_mono_l.
      eapply Nat.le_trans; [apply mbind_fst with (n := 0%nat); cbn; lia|]. rewrite Nat.add_0_r. exact Q. }
    eapply Nat.le_trans; [apply Nat.add_le_mono_r; exact T|]. set (z := (2 ^ k)%nat) in *.
    set (p := list_sum (map parts (map (reading t) l))) in *. clearbody z p. clear - K. nia.
  - destruct v as [ | | | | | | | |[(i, x)|]]; try contradiction Sh.
    2: { unfold call_cheap, cheap. cbn [reading outside parts]. cbn. lia. }
    apply shaped_choice in Sh. apply (fun H => formed_comps e r a g (or_intror H)) in F as (N & F). rewrite Forall_forall in F, IH.
    cbn [filled] in Fl. rewrite all_att, nth_error_att in Fl.
    assert (Ec : forall B (h : comp ty -> B), map h r ++ map h a ++ List.concat (map (map h) g) = map h (all_comps r a g)).
    { intros B h. unfold all_comps. now rewrite !map_app, concat_map. }
    unfold call_cheap, cheap. cbn [reading m_enc m_call fst]. rewrite Ec, nth_error_map. rewrite all_att, nth_error_att.
    destruct (nth_error (all_comps r a g) i) as [c|] eqn:Hc; cbn [option_map snd outside parts] in *; [|cbn; lia].
    rewrite all_att, nth_error_att, Hc. cbn [option_map snd].
    pose proof (nth_error_In _ _ Hc) as Ic. destruct (F c Ic) as (Fc & _).
    pose proof (IH c Ic x Fc Sh Fl) as Q. unfold call_cheap, cheap in Q.
    set (k := outside (cty c) (reading (cty c) x)) in *. set (p := parts (reading (cty c) x)) in *.
    pose proof (pow_pos k) as K.
    destruct (sent_out e r a g (cname c)) eqn:So.
    + assert (Li : (i <? len r)%nat = false).
      { apply Nat.ltb_ge. destruct (Nat.le_gt_cases (len r) i) as [|Lt]; auto. exfalso.
        unfold all_comps in Hc. rewrite nth_error_app1 in Hc by auto. apply nth_error_In, (in_map cname), index_of_in in Hc as (j & Hj).
        unfold sent_out, goes_out in So. rewrite Hj, andb_false_r in So. discriminate. }
      rewrite Li. cbn [Nat.add Nat.pow].
      assert (T : (fst (m_enc 1 0 (cty c) (after_encode (cty c) x)) + 2 ^ k <= 2 * 2 ^ k * p)%nat \/
                  forall b, snd (m_enc 1 0 (cty c) x) <> Ok b).
      { rewrite (m_enc_snd 1 0 (cty c) x Fc Sh Fl). destruct (enc (cty c) x) as [b|] eqn:E; [|right; discriminate].
        left. destruct (again_all (cty c) x b Fc Sh Fl E) as (_ & Er).
        pose proof (IH c Ic (after_encode (cty c) x) Fc) as Q'. unfold call_cheap, cheap in Q'. rewrite Er in Q'. apply Q'.
        - eapply woken_shaped; eauto. now apply enc_wakes_all.
        - now apply filled_after. }
      assert (T' : (fst (let+ body := m_enc 1 0 (cty c) x in
                        let+ body' := m_enc 1 0 (cty c) (after_encode (cty c) x) in
                        pure (fill (encode_choice e r a g (cname c) body'))) <= 2 * (2 * 2 ^ k * p - 2 ^ k))%nat).
      { destruct T as [T|T].
        - eapply Nat.le_trans; [apply mbind_fst with (n := (2 * 2 ^ k * p - 2 ^ k)%nat)|lia].
          intros b _. eapply Nat.le_trans; [apply mbind_fst with (n := 0%nat); cbn; lia|lia].
        - eapply Nat.le_trans; [apply mbind_fst with (n := 0%nat)|lia]. intros b Eb. now apply T in Eb. }
      eapply Nat.le_trans; [apply le_n_S, Nat.add_le_mono_r; exact T'|].
      set (z := (2 ^ k)%nat) in *. clearbody z p. clear - K Q. nia.
    + assert (T : (fst (let+ body := m_enc 1 0 (cty c) x in
                        pure (fill (encode_choice e r a g (cname c) body))) <= fst (m_enc 1 0 (cty c) x))%nat).
      { eapply Nat.le_trans; [apply mbind_fst with (n := 0%nat); cbn; lia|lia]. }
      eapply Nat.le_trans; [apply Nat.add_le_mono_r, Nat.add_le_mono_l; exact T|].
      destruct (i <? len r)%nat; cbn [Nat.add Nat.pow]; set (z := (2 ^ k)%nat) in *; clearbody z p; clear - K Q; nia.
Qed.

(** * How many objects isValue asks *)

(** The objects of an object, itself included; and how deep its SEQUENCEs are
    nested. *)
Fixpoint nodes (v : val) : nat :=
  match v with
  | VSeq (Some ss) => S (list_sum (map (fun s => match s with Some x => nodes x | None => 0%nat end) ss))
  | VSeqOf l => S (list_sum (map nodes l))
  | VChoice (Some (_, x)) => S (nodes x)
  | _ => 1%nat
  end.

Fixpoint levels (v : val) : nat :=
  match v with
  | VSeq (Some ss) => S (list_max (map (fun s => match s with Some x => levels x | None => 0%nat end) ss))
  | VSeqOf l => list_max (map levels l)
  | VChoice (Some (_, x)) => levels x
  | _ => 0%nat
  end.

(** Every SEQUENCE in the object has its mandatory components. *)
Fixpoint whole (t : ty) (v : val) {struct v} : Prop :=
  match v with
  | VSeq (Some ss) =>
      seq_mand ss (comps_of t) = true /\
      (fix each (l : list (option val)) (cs : list (comp ty)) {struct l} : Prop :=
         match l, cs with
         | s :: l', c :: cs' => match s with Some x => whole (cty c) x | None => True end /\ each l' cs'
         | _, _ => True
         end) ss (comps_of t)
  | VSeqOf l => (fix each (m : list val) : Prop := match m with [] => True | x :: m' => whole (elem_of t) x /\ each m' end) l
  | VChoice (Some (i, x)) => whole (comp_ty (comps_of t) i) x
  | _ => True
  end.

Definition snodes (ss : list (option val)) : nat :=
  list_sum (map (fun s => match s with Some x => nodes x | None => 0%nat end) ss).

Lemma snodes_cons s ss : snodes (s :: ss) = (match s with Some x => nodes x | None => 0 end + snodes ss)%nat.
Proof. reflexivity. Qed.

Lemma lsum_cons x l : list_sum (x :: l) = (x + list_sum l)%nat.
Proof. reflexivity. Qed.

Lemma ask_mand_le k ss : Forall (fun s => match s with Some x => forall t, (fst (ask t x) <= k * nodes x)%nat | None => True end) ss ->
  forall cs, (fst (ask_mand ss cs) <= k * snodes ss)%nat /\ (fst (ask_any ss cs) <= k * snodes ss)%nat.
Proof.
  induction 1 as [|s ss Hs Hss IH]; intros [|c cs]; try (cbn; lia).
  cbn [ask_mand ask_any]. fold ask_mand ask_any. rewrite snodes_cons, Nat.mul_add_distr_l. destruct (IH cs) as (I1 & I2).
  destruct s as [x|]; cbn [fst snd].
  - specialize (Hs (cty c)). destruct (is_mandatory c), (snd (ask (cty c) x)); cbn [fst snd]; lia.
  - destruct (is_mandatory c); cbn [fst snd]; lia.
Qed.

(** One isValue asks at most this many objects. *)
Theorem C60_ask_partial : forall t v, (fst (ask t v) <= 2 ^ levels v * nodes v)%nat.
Proof.
  intros t v. revert t. induction v as [v L|ss IH|l IH|i x IH] using val_ind2; intros t.
  - destruct v as [ | | | | | |[|]| |[|]]; try discriminate; cbn; lia.
  - rewrite ask_seq. cbn [levels nodes]. fold (snodes ss).
    set (k := list_max (map (fun s => match s with Some x => levels x | None => 0%nat end) ss)).
    assert (Q : Forall (fun s => match s with Some x => forall t, (fst (ask t x) <= 2 ^ k * nodes x)%nat | None => True end) ss).
    { rewrite Forall_forall in *. intros [x|] Hx; auto. intros t'. specialize (IH _ Hx t').
      eapply Nat.le_trans; [exact IH|]. apply Nat.mul_le_mono_r, pow_mono. apply list_max_in.
      apply in_map_iff. exists (Some x). auto. }
    destruct (ask_mand_le _ ss Q (comps_of t)) as (A1 & A2). pose proof (pow_pos k) as K. cbn [Nat.pow].
    set (z := (2 ^ k)%nat) in *. destruct (snd (ask_mand ss (comps_of t))); cbn [fst]; nia.
  - rewrite ask_seqof. cbn [levels nodes fst].
    set (k := list_max (map levels l)). pose proof (pow_pos k) as K.
    assert (A : (fst (ask_all (elem_of t) l) <= 2 ^ k * list_sum (map nodes l))%nat).
    { assert (Q : Forall (fun x => (fst (ask (elem_of t) x) <= 2 ^ k * nodes x)%nat) l).
      { rewrite Forall_forall in *. intros x Hx. eapply Nat.le_trans; [apply (IH x Hx)|].
        apply Nat.mul_le_mono_r, pow_mono, list_max_in, in_map. exact Hx. }
      clear IH. clearbody k. induction Q as [|x l Hx Hl IHl]; [cbn; lia|]. cbn [ask_all map]. fold (ask_all (elem_of t)).
      rewrite lsum_cons, Nat.mul_add_distr_l. destruct (snd (ask (elem_of t) x)); cbn [fst]; lia. }
    set (z := (2 ^ k)%nat) in *. nia.
  - cbn [ask levels nodes fst]. specialize (IH (comp_ty (comps_of t) i)). pose proof (pow_pos (levels x)).
    set (z := (2 ^ levels x)%nat) in *. nia.
Qed.

(** When nothing mandatory is missing in it, every object is asked once at most. *)
Theorem C60_whole_partial : forall t v, whole t v -> (fst (ask t v) <= nodes v)%nat.
Proof.
  intros t v. revert t. induction v as [v L|ss IH|l IH|i x IH] using val_ind2; intros t.
  - destruct v as [ | | | | | |[|]| |[|]]; try discriminate; cbn; lia.
  - intros (Ma & Ea). rewrite ask_seq. cbn [nodes]. fold (snodes ss).
    assert (A : snd (ask_mand ss (comps_of t)) = seq_mand ss (comps_of t)).
    { clear. generalize (comps_of t). induction ss as [|s ss IHs]; intros [|c cs]; auto.
      cbn [ask_mand seq_mand]. fold ask_mand seq_mand. destruct s as [x|]; cbn [slot_value].
      - rewrite ask_value, <- IHs. destruct (is_mandatory c), (is_value (cty c) x); reflexivity.
      - rewrite <- IHs. destruct (is_mandatory c); reflexivity. }
    rewrite A, Ma. cbn [fst]. apply le_n_S. clear A Ma. revert Ea. generalize (comps_of t).
    induction IH as [|s ss Hs Hss IHs]; intros [|c cs] Ea; try (cbn; lia).
    cbn [ask_mand]. fold ask_mand. rewrite snodes_cons. destruct Ea as (E1 & E2). specialize (IHs cs E2).
    destruct s as [x|]; cbn [fst snd].
    + specialize (Hs (cty c) E1). destruct (is_mandatory c), (snd (ask (cty c) x)); cbn [fst snd]; lia.
    + destruct (is_mandatory c); cbn [fst snd]; lia.
  - cbn [whole]. intros Ea. rewrite ask_seqof. cbn [nodes fst]. apply le_n_S.
    induction IH as [|x l Hx Hl IHl]; [cbn; lia|]. destruct Ea as (E1 & E2). cbn [ask_all map]. fold (ask_all (elem_of t)).
    rewrite lsum_cons. specialize (Hx _ E1). specialize (IHl E2).
    destruct (snd (ask (elem_of t) x)); cbn [fst]; lia.
  - cbn [ask whole nodes fst]. intros W. specialize (IH _ W). lia.
Qed.

(** * C60 *)

(** Full claim: encode calls the encoder of every part of the message once, asks
    no object more often than there are enclosing objects, and the object is
    encoded as Encoder.v says.  The latter holds for the objects of C28; a
    selected extension alternative that is not one of them is refused although
    encode accepts it on its own, see C60_alternative_refuted. *)
Theorem C60_result_partial : forall wf wa t v, formed t -> shaped t v -> filled t v ->
  snd (m_encode wf wa t v) = encode t v.
Proof.
  intros wf wa t v F Sh Fl. unfold m_encode, encode. rewrite mbind_snd, m_enc_snd by auto.
  destruct (enc t v); [|reflexivity]. cbn [bind]. rewrite mbind_snd. cbn [pure snd].
  destruct (bin_to_hex _); reflexivity.
Qed.

(** The number of calls of fill_field_list: less than twice the number of parts
    (twice: because of the fake SEQUENCE of an addition group) for each level of
    extension alternatives in each other. *)
Theorem C60_fills_partial : forall t v, formed t -> shaped t v -> filled t v ->
  (fills t v < 2 ^ S (outside t (reading t v)) * parts (reading t v))%nat.
Proof.
  intros t v F Sh Fl. pose proof (m_enc_fst t v F Sh Fl) as Q. unfold call_cheap, cheap in Q.
  assert (T : (fills t v <= fst (m_enc 1 0 t v))%nat).
  { unfold fills, m_encode. eapply Nat.le_trans; [apply mbind_fst with (n := 0%nat)|lia].
    intros fs _. eapply Nat.le_trans; [apply mbind_fst with (n := 0%nat); cbn; lia|cbn; lia]. }
  cbn [Nat.pow]. pose proof (pow_pos (outside t (reading t v))) as K. lia.
Qed.

Open Scope string_scope.
Open Scope list_scope.
Open Scope Z_scope.

(** ** Extension alternatives in extension alternatives *)

Fixpoint nest_ty (d : nat) : ty :=
  match d with
  | O => TBool
  | S d' => TChoice true [Comp "a" Mand TBool] [Comp "b" Mand (nest_ty d')] []
  end.

Fixpoint nest_val (d : nat) : val :=
  match d with O => VBool true | S d' => VChoice (Some (1%nat, nest_val d')) end.

Lemma nest_formed d : formed (nest_ty d) /\ shaped (nest_ty d) (nest_val d) /\ filled (nest_ty d) (nest_val d).
Proof.
  induction d as [|d (I1 & I2 & I3)]; [repeat split|].
  cbn [nest_ty nest_val formed shaped filled att map List.app nth_error snd List.concat cty]. repeat split; auto.
  - cbn. repeat constructor; cbn; intuition discriminate.
  - apply all_of_cons. split; [|apply all_of_nil]. split; [exact Logic.I|exact Logic.I].
  - apply all_of_cons. split; [|apply all_of_nil]. split; auto. exact Logic.I.
  - apply all_of_nil.
Qed.

Lemma nest_after d : after_encode (nest_ty d) (nest_val d) = nest_val d.
Proof. induction d as [|d IH]; auto. cbn [nest_ty nest_val after_encode att map List.app nth_error List.concat cty]. now rewrite IH. Qed.

Lemma nest_parts d : parts (reading (nest_ty d) (nest_val d)) = S d.
Proof. induction d as [|d IH]; auto. cbn [nest_ty nest_val reading att map List.app nth_error List.concat cty snd parts]. now rewrite IH. Qed.

Lemma mbind_ok {A B} n (a : A) (f : A -> M B) : mbind (n, Ok a) f = ((n + fst (f a))%nat, snd (f a)).
Proof. reflexivity. Qed.

Lemma nest_work wf wa d : Z.of_nat d <= 5000 -> exists fs,
  m_enc wf wa (nest_ty d) (nest_val d) = ((wf * (2 ^ S d - 1))%nat, Ok fs) /\
  Z.of_nat (len (produce_complete_encoding fs)) <= 8 + 24 * Z.of_nat d.
Proof.
  induction d as [|d IH]; intros Hd.
  { exists (encode_boolean true). split; [|vm_compute; discriminate].
    cbn [nest_ty nest_val m_enc]. unfold m_call, pure. cbn [fst snd enc]. f_equal. cbn. lia. }
  destruct IH as (fs & E & L); [lia|].
  set (s := produce_complete_encoding fs) in *.
  assert (Mo : Nat.modulo (len s) 8 = 0%nat) by apply produce_mod8.
  assert (O : 0 <= octets_of s < 16384) by (unfold octets_of; lia).
  exists (F false [true] :: [F false [false]; F false (repeat false 6)] ++ [len_field (octets_of s)] ++ [F true s]). split.
  - cbn [nest_ty nest_val m_enc map List.app nth_error List.concat cty cname].
    rewrite nest_after, !E, mbind_ok.
    unfold sent_out, goes_out. cbn [index_of cname String.eqb Ascii.eqb Bool.eqb andb List.app List.concat].
    rewrite mbind_ok. unfold encode_choice. cbn [negb index_of cname String.eqb Ascii.eqb Bool.eqb isnil andb List.app List.concat].
    unfold encode_open_type_field. fold s. rewrite length_unconstrained_ok by exact O.
    cbn [bind List.app]. change (encode_normally_small (Z.of_nat 0) 0) with (Ok [F false [false]; F false (repeat false 6)]).
    unfold m_call, pure, fill. cbn [bind fst snd List.app]. apply (f_equal2 pair); [|reflexivity].
    cbn [Nat.pow]. pose proof (pow_pos d). nia.
  - destruct (produce_spec (F false [true] :: [F false [false]; F false (repeat false 6)] ++ [len_field (octets_of s)] ++ [F true s])) as (k & -> & Hk).
    assert (R : (len (render 0 (F false [true] :: [F false [false]; F false (repeat false 6)] ++ [len_field (octets_of s)] ++ [F true s])) = 16 + len s
            \/ len (render 0 (F false [true] :: [F false [false]; F false (repeat false 6)] ++ [len_field (octets_of s)] ++ [F true s])) = 24 + len s)%nat).
    { cbn [List.app render falign fbits fpad fpos List.length repeat Nat.add].
      unfold len_field. destruct (octets_of s <=? 127); cbn [falign fbits fpad fpos].
      - left. rewrite !app_length. cbn [List.length]. rewrite !padding_length, !to_bits_length.
        change (up8 8) with 8%nat. change (padn 8) with 0%nat. change (padn (8 + 8)) with 0%nat. lia.
      - right. rewrite !app_length. cbn [List.length]. rewrite !padding_length, !to_bits_length.
        change (up8 8) with 8%nat. change (padn 8) with 0%nat. change (padn (8 + 16)) with 0%nat. lia. }
    rewrite app_length, repeat_length. destruct Hk as [Hk|(Hk & _)].
    + assert (k = 0%nat) by (rewrite Hk; apply padn_0; destruct R as [R|R]; rewrite R; lia). lia.
    + exfalso. rewrite Hk in R. cbn [List.length] in R. lia.
Qed.

Lemma m_encode_ok wf wa t v n fs : m_enc wf wa t v = (n, Ok fs) -> exists bs, m_encode wf wa t v = (n, Ok bs).
Proof.
  intros E. unfold m_encode. rewrite E. unfold mbind. cbn [fst snd pure].
  rewrite bin_to_hex_ok by auto using produce_nonempty, produce_mod8. cbn [fst snd].
  rewrite unhexlify_hexlify. eexists. apply (f_equal2 pair); [lia|reflexivity].
Qed.

(** d extension alternatives in each other have d+1 parts and are encoded with
    2^(d+1)-1 calls (the limit is where the length of an open type of 16384
    octets is refused). *)
Theorem C60_fills_refuted : exists T V, forall d,
  formed (T d) /\ shaped (T d) (V d) /\ filled (T d) (V d) /\ parts (reading (T d) (V d)) = S d /\
  (Z.of_nat d <= 5000 ->
   (exists bs, encode (T d) (V d) = Ok bs) /\ fills (T d) (V d) = (2 ^ S d - 1)%nat).
Proof.
  exists nest_ty, nest_val. intros d. destruct (nest_formed d) as (F & Sh & Fl). repeat split; auto using nest_parts.
  - destruct (nest_work 1 0 d H) as (fs & E & _). apply m_encode_ok in E as (bs & E). exists bs.
    rewrite <- (C60_result_partial 1 0) by auto. now rewrite E.
  - destruct (nest_work 1 0 d H) as (fs & E & _). apply m_encode_ok in E as (bs & E). unfold fills. rewrite E.
    cbn [fst]. lia.
Qed.

(** ** Reading a component makes encode slow *)

Fixpoint tower_ty (d : nat) : ty :=
  match d with O => TBool | S d' => TSeq false [Comp "a" Mand (tower_ty d')] [] [] end.

Fixpoint tower_val (d : nat) : val :=
  match d with O => VUnset | S d' => VSeq (Some [Some (tower_val d')]) end.

Definition tower_msg (d : nat) : ty := TSeq false [Comp "m" Opt (tower_ty d); Comp "n" Mand TBool] [] [].

Lemma tower_ask d : ask (tower_ty d) (tower_val d) = ((2 ^ S d - 1)%nat, false).
Proof.
  induction d as [|d IH]; auto. cbn [tower_ty tower_val]. rewrite ask_seq.
  cbn [comps_of all_comps List.app List.concat ask_mand ask_any cty is_mandatory cpres].
  rewrite !IH. cbn [fst snd]. f_equal. cbn [Nat.pow]. pose proof (pow_pos d). nia.
Qed.

Lemma calls_component e r a g ss i c x x' : nth_error (all_comps r a g) i = Some c ->
  nth_error ss i = Some (Some x) -> calls (cty c) x x' ->
  calls (TSeq e r a g) (VSeq (Some ss)) (VSeq (Some (update i (Some x') ss))).
Proof.
  intros Hc Hx H. revert ss Hx. induction H as [x|x y z Hxy Hyz IH]; intros ss Hx.
  - replace (update i (Some x) ss) with ss; [constructor|].
    revert i Hc Hx. clear. intros i _. revert i. induction ss as [|s ss IHs]; intros [|i] H; cbn [nth_error update] in *; try discriminate.
    + now injection H as ->.
    + f_equal. auto.
  - eapply Relation_Operators.rt1n_trans; [eapply call_component; eauto|].
    replace (update i (Some z) ss) with (update i (Some z) (update i (Some y) ss)).
    + apply IH. rewrite update_nth, Nat.eqb_refl, Hx. reflexivity.
    + clear. revert i. induction ss as [|s ss IHs]; intros [|i]; cbn [update]; auto. now rewrite IHs.
Qed.

Lemma tower_read d : calls (tower_ty (S d)) (VSeq None) (tower_val (S d)).
Proof.
  induction d as [|d IH].
  - eapply Relation_Operators.rt1n_trans; [apply (call_read _ 0); reflexivity|]. cbn. constructor.
  - eapply Relation_Operators.rt1n_trans; [apply (call_read _ 0); reflexivity|].
    cbn [tower_ty after_read all_comps List.app List.concat List.length slots_list repeat nth_error update slot_get cpres fresh cty].
    exact (calls_component false [Comp "a" Mand (tower_ty (S d))] [] [] [Some (VSeq None)] 0
             (Comp "a" Mand (tower_ty (S d))) _ _ eq_refl eq_refl IH).
Qed.

Lemma tower_absent d x : is_value (tower_ty d) x = false ->
  encode (tower_msg d) (VSeq (Some [Some x; Some (VBool true)])) = Ok [64] /\
  asks (tower_msg d) (VSeq (Some [Some x; Some (VBool true)])) = fst (ask (tower_ty d) x).
Proof.
  intros V. split.
  - unfold encode, tower_msg. cbn [enc]. unfold encode_sequence, all_comps. cbn [List.app List.concat enc_root cname cty cpres].
    cbn [get_by_name index_of cname String.eqb Ascii.eqb Bool.eqb nth_error slot_at nth slot_get bind].
    rewrite V. cbn [andb bind]. vm_compute. reflexivity.
  - unfold asks, m_encode, tower_msg. cbn [m_enc]. unfold m_sequence, all_comps. cbn [List.app List.concat m_root cname cty cpres].
    cbn [get_by_name index_of cname String.eqb Ascii.eqb Bool.eqb nth_error slot_at nth slot_get].
    unfold pure at 1. rewrite mbind_ok. cbv beta. unfold m_ask.
    pose proof (ask_value x (tower_ty d)) as W. rewrite V in W. destruct (ask (tower_ty d) x) as [n b].
    cbn [fst snd] in *. subst b. lazy -[Nat.add Nat.mul]. lia.
Qed.

(** The message has an absent OPTIONAL component that is a SEQUENCE of a SEQUENCE
    of … of a BOOLEAN.  Fresh, it is encoded by asking one object.  After the
    BOOLEAN was read (it is not there) the octets are the same and every call to
    encode asks 2^(d+2)-1 times. *)
Theorem C60_ask_refuted : forall d, exists v v',
  formed (tower_msg (S d)) /\ shaped (tower_msg (S d)) v /\ calls (tower_msg (S d)) v v' /\
  nodes v' = (4 + d)%nat /\
  encode (tower_msg (S d)) v = Ok [64] /\ asks (tower_msg (S d)) v = 1%nat /\
  encode (tower_msg (S d)) v' = Ok [64] /\ asks (tower_msg (S d)) v' = (2 ^ S (S d) - 1)%nat.
Proof.
  intros d. exists (VSeq (Some [Some (VSeq None); Some (VBool true)])),
    (VSeq (Some [Some (tower_val (S d)); Some (VBool true)])).
  destruct (tower_absent (S d) (VSeq None) eq_refl) as (E & A).
  assert (V : is_value (tower_ty (S d)) (tower_val (S d)) = false) by (rewrite <- ask_value, tower_ask; reflexivity).
  destruct (tower_absent (S d) _ V) as (E' & A').
  assert (Ft : forall n, formed (tower_ty n)).
  { induction n as [|n IH]; [exact Logic.I|]. cbn [tower_ty formed map cname cty all_comps List.app List.concat].
    repeat split; try exact all_of_nil.
    - constructor; [intros []|constructor].
    - apply all_of_cons. split; [|exact all_of_nil]. unfold comp_formed. cbn [cpres]. auto. }
  assert (Fm : formed (tower_msg (S d))).
  { unfold tower_msg. cbn [formed map cname cty all_comps List.app List.concat].
    split; [|split; [|split; exact all_of_nil]].
    - constructor; [|constructor; [intros []|constructor]]. intros [X|[]]. discriminate X.
    - apply all_of_cons. split; [split; [apply Ft|exact Logic.I]|]. apply all_of_cons. split; [|exact all_of_nil].
      split; exact Logic.I. }
  assert (Sm : shaped (tower_msg (S d)) (VSeq (Some [Some (VSeq None); Some (VBool true)]))).
  { unfold tower_msg. cbn [shaped slots_list]. split; [reflexivity|split; [discriminate|]].
    cbn [att map List.app List.concat zipw cty]. apply all_of_cons. split.
    - cbn [slot_shaped snd tower_ty shaped slots_list]. split; [reflexivity|split; [reflexivity|]].
      cbn. apply all_of_cons. split; [exact Logic.I|exact all_of_nil].
    - apply all_of_cons. split; [exact Logic.I|exact all_of_nil]. }
  split; [exact Fm|]. split; [exact Sm|]. split; [|split; [|split; [exact E|split; [exact A|split; [exact E'|]]]]].
  - exact (calls_component false [Comp "m" Opt (tower_ty (S d)); Comp "n" Mand TBool] [] []
             [Some (VSeq None); Some (VBool true)] 0 (Comp "m" Opt (tower_ty (S d))) _ _ eq_refl eq_refl (tower_read d)).
  - assert (N : forall n, nodes (tower_val n) = S n) by (induction n as [|n IH]; [reflexivity|]; cbn [tower_val nodes map list_sum fold_right]; rewrite IH; lia).
    cbn [nodes map list_sum fold_right]. rewrite N. lia.
  - rewrite A', tower_ask. reflexivity.
Qed.

(** ** An alternative that can be encoded once *)

(** Without [filled] the second call made for an extension alternative can raise:
    here the alternative b is the SEQUENCE of C28_second_encode_refuted.  It can be
    encoded on its own, and as a root alternative, but not as an extension
    alternative: the caller gets MandatoryFieldNotPresentInExtensionGroup. *)
Theorem C60_alternative_refuted : exists t v bs,
  let inner := TChoice true [Comp "a" Mand TBool; Comp "b" Mand t] [] [] in
  let outer := TChoice true [Comp "a" Mand TBool] [Comp "b" Mand t] [] in
  formed t /\ shaped t v /\ formed outer /\ shaped outer (VChoice (Some (1%nat, v))) /\
  snd (m_encode 1 0 t v) = Ok bs /\
  (exists bs', snd (m_encode 1 0 inner (VChoice (Some (1%nat, v)))) = Ok bs') /\
  snd (m_encode 1 0 outer (VChoice (Some (1%nat, v)))) = Err (MandatoryFieldNotPresentInExtensionGroup "p").
Proof.
  exists (TSeq true [] []
    [[Comp "x" Mand TBool;
      Comp "p" Mand (TSeqOf (CSeqSize false (Some 0) None) TBool);
      Comp "y" Mand (TSeq false [Comp "q" Mand (TSeq false [Comp "o" Opt TBool] [] [])] [] [])]]),
    (VSeq (Some [Some (VBool true); None; None])), [128; 128; 3; 128; 0; 0].
  cbv zeta.
  split; [cbv -[all_of]; concrete|]. split; [cbv -[all_of]; concrete|].
  split; [cbv -[all_of]; concrete|]. split; [cbv -[all_of]; concrete|].
  split; [vm_compute; reflexivity|]. split; [|vm_compute; reflexivity].
  eexists. vm_compute. reflexivity.
Qed.

(** A message of C28 as an extension alternative: every part of it is encoded
    twice, the CHOICE itself once. *)
Definition C60_ty : ty := TChoice true [Comp "a" Mand TBool] [Comp "m" Mand C28_ty] [].
Definition C60_val : val := VChoice (Some (1%nat, C28_val)).

Example C60_case :
  formed C60_ty /\ shaped C60_ty C60_val /\ filled C60_ty C60_val /\
  snd (m_encode 1 0 C60_ty C60_val) = encode C60_ty C60_val /\
  (exists bs, encode C60_ty C60_val = Ok bs) /\
  fills C28_ty C28_val = 8%nat /\ fills C60_ty C60_val = 17%nat /\ asks C60_ty C60_val = 10%nat /\
  parts (reading C60_ty C60_val) = 9%nat /\ outside C60_ty (reading C60_ty C60_val) = 1%nat.
Proof.
  split; [cbv -[all_of]; concrete|]. split; [cbv -[all_of]; concrete|]. split; [cbv -[all_of]; concrete|].
  split; [vm_compute; reflexivity|]. split; [eexists; vm_compute; reflexivity|].
  repeat split; vm_compute; reflexivity.
Qed.
