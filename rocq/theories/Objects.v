(** Message objects as seen by repeated calls: encoding twice, reading before
    encoding, and dictionaries (properties C28-C31). *)
From Coq Require Import ZArith List String Bool Lia Arith Relations.
From Coq Require Import ZifyBool ZifyNat ZifyN.
Import ListNotations.
From Verif Require Import PyBase Schema Encoder Decoder BitFacts Stream Prims Spec SimpleTypes
  RoundTrip Reading Sequences Robust Dict.
Open Scope Z_scope.

Lemma ty_ind2 (P : ty -> Prop) :
  (forall t, is_simple t = true -> P t) ->
  (forall e r a g, Forall (fun c => P (cty c)) (all_comps r a g) -> P (TSeq e r a g)) ->
  (forall c t, P t -> P (TSeqOf c t)) ->
  (forall e r a g, Forall (fun c => P (cty c)) (all_comps r a g) -> P (TChoice e r a g)) ->
  forall t, P t.
Proof.
  intros H1 H2 H3 H4.
  assert (C : forall r a g, Forall (fun c => P (cty c)) r -> Forall (fun c => P (cty c)) a ->
     Forall (Forall (fun c => P (cty c))) g -> Forall (fun c => P (cty c)) (all_comps r a g)).
  { intros r a g Hr Ha Hg. apply Forall_app; split; auto. apply Forall_app; split; auto.
    induction Hg; cbn [List.concat]; auto. apply Forall_app; auto. }
  apply ty_rect'; auto.
Qed.

(** * Well-formed types and objects *)

(** Constructed objects for constructed types; the component list has the
    declared length at every level, and the object of a type without components
    has none. *)
Definition slot_shaped (ca : comp ty * (val -> Prop)) (s : option val) : Prop :=
  match s with Some x => snd ca x | None => True end.

Fixpoint shaped (t : ty) (v : val) {struct t} : Prop :=
  match t, v with
  | TSeq _ root adds groups, VSeq slots =>
      let ss := slots_list (ncomps root adds groups) slots in
      List.length ss = ncomps root adds groups /\
      (ncomps root adds groups = O -> slots = None) /\
      all_of (zipw slot_shaped (att shaped root ++ att shaped adds
                                ++ List.concat (map (att shaped) groups)) ss)
  | TSeqOf _ t', VSeqOf vs => all_of (map (shaped t') vs)
  | TChoice _ root adds groups, VChoice (Some (i, v')) =>
      match nth_error (att shaped root ++ att shaped adds
                       ++ List.concat (map (att shaped) groups)) i with
      | Some ca => snd ca v'
      | None => True
      end
  | TChoice _ _ _ _, VChoice None => True
  | TSeq _ _ _ _, _ | TSeqOf _ _, _ | TChoice _ _ _ _, _ => False
  | _, VSeq _ | _, VSeqOf _ | _, VChoice _ => False
  | _, _ => True
  end.

(** Component names are distinct and DEFAULT values are well formed, at every
    level of the type. *)
Definition comp_formed (c : comp ty) (p : Prop) : Prop :=
  p /\ match cpres c with Dflt d => shaped (cty c) d | _ => True end.

Fixpoint formed (t : ty) : Prop :=
  match t with
  | TSeq _ root adds groups | TChoice _ root adds groups =>
      NoDup (map cname (all_comps root adds groups)) /\
      all_of (map (fun c => comp_formed c (formed (cty c))) root) /\
      all_of (map (fun c => comp_formed c (formed (cty c))) adds) /\
      all_of (map (fun g => all_of (map (fun c => comp_formed c (formed (cty c))) g)) groups)
  | TSeqOf _ t' => formed t'
  | _ => True
  end.

Lemma all_of_app p q : all_of (p ++ q) <-> all_of p /\ all_of q.
Proof.
  unfold all_of. split.
  - intros H. split; intros x Hx; apply H, in_or_app; auto.
  - intros (H & K) x Hx. apply in_app_or in Hx as [Hx|Hx]; [exact (H x Hx)|exact (K x Hx)].
Qed.

Lemma all_of_map {A} (f : A -> Prop) l : all_of (map f l) <-> Forall f l.
Proof.
  induction l as [|a l IH]; cbn [map].
  - split; intros _; [constructor|apply all_of_nil].
  - rewrite all_of_cons, IH. split; [intros (H & K); now constructor|].
    intros H. inversion H; auto.
Qed.

Lemma formed_comps e r a g : formed (TSeq e r a g) \/ formed (TChoice e r a g) ->
  NoDup (map cname (all_comps r a g)) /\
  Forall (fun c => formed (cty c) /\ match cpres c with Dflt d => shaped (cty c) d | _ => True end)
         (all_comps r a g).
Proof.
  intros H. assert (K : formed (TSeq e r a g)) by (destruct H; auto). clear H.
  cbn [formed] in K. destruct K as (N & R & A & G). split; auto.
  apply all_of_map in R, A, G. apply Forall_app; split; [exact R|]. apply Forall_app; split; [exact A|].
  clear -G. induction G as [|x l H _ IH]; cbn [List.concat]; [constructor|].
  apply Forall_app; split; auto. now apply all_of_map in H.
Qed.

(** Pointwise facts about the slots. *)
Lemma zipw_all {A} (f : comp ty * A -> option val -> Prop) (h : ty -> A) cs ss :
  all_of (zipw f (att h cs) ss) <->
  (forall i c s, nth_error cs i = Some c -> nth_error ss i = Some s -> f (c, h (cty c)) s).
Proof.
  revert ss. induction cs as [|c cs IH]; intros [|s ss]; cbn [att map zipw];
    try (split; [intros _ [|i] c' s'; cbn [nth_error]; discriminate|intros _; apply all_of_nil]).
  rewrite all_of_cons. unfold att in IH. rewrite IH. split.
  - intros (H & K) [|i] c' s' Hc Hs; cbn [nth_error] in *; [|eauto].
    injection Hc as <-. injection Hs as <-. exact H.
  - intros H. split; [apply (H 0%nat); reflexivity|]. intros i c' s' Hc Hs. apply (H (S i)); auto.
Qed.

Lemma shaped_seq e r a g slots : shaped (TSeq e r a g) (VSeq slots) <->
  len (slots_list (ncomps r a g) slots) = ncomps r a g /\
  (ncomps r a g = O -> slots = None) /\
  (forall i c x, nth_error (all_comps r a g) i = Some c ->
     nth_error (slots_list (ncomps r a g) slots) i = Some (Some x) -> shaped (cty c) x).
Proof.
  cbn [shaped]. rewrite all_att, zipw_all. cbn [slot_shaped fst snd].
  assert (E : forall c (s : option val), slot_shaped (c, shaped (cty c)) s <->
     (forall x, s = Some x -> shaped (cty c) x)).
  { intros c [x|]; cbn [slot_shaped snd]; split; auto; try discriminate.
    intros H y E. now injection E as <-. }
  split; intros (L & Z & H); repeat split; auto.
  - intros i c x Hc Hs. pose proof (H i c _ Hc Hs) as K. exact K.
  - intros i c s Hc Hs. apply E. intros x ->. eauto.
Qed.

(** * Instantiating slots *)

(** [v'] is [v] with further slots instantiated from their declarations, at any
    depth: an instantiated slot is found the way the empty one was found. *)
Definition slot_woken (ca : comp ty * (val -> val -> Prop)) (p : option val * option val) : Prop :=
  match snd p with
  | None => fst p = None
  | Some y => snd ca (slot_get (fst ca) (fst p)) y
  end.

Fixpoint woken (t : ty) (v v' : val) {struct t} : Prop :=
  match t, v, v' with
  | TSeq _ root adds groups, VSeq s, VSeq s' =>
      let n := ncomps root adds groups in
      (s' = None -> s = None) /\ (n = O -> s' = s) /\
      List.length (slots_list n s') = List.length (slots_list n s) /\
      all_of (zipw slot_woken (att woken root ++ att woken adds
                               ++ List.concat (map (att woken) groups))
                   (combine (slots_list n s) (slots_list n s')))
  | TSeqOf _ t', VSeqOf l, VSeqOf l' => Forall2 (woken t') l l'
  | TChoice _ root adds groups, VChoice (Some (i, x)), VChoice (Some (j, y)) =>
      i = j /\
      match nth_error (att woken root ++ att woken adds
                       ++ List.concat (map (att woken) groups)) i with
      | Some ca => snd ca x y
      | None => y = x
      end
  | _, _, _ => v' = v
  end.

Lemma combine_nth_error {A B} (l : list A) (m : list B) i : nth_error (combine l m) i =
  match nth_error l i, nth_error m i with Some a, Some b => Some (a, b) | _, _ => None end.
Proof.
  revert m i. induction l as [|a l IH]; intros [|b m] [|i]; cbn [combine nth_error]; auto.
  now destruct (nth_error l i).
Qed.

Lemma zipw_all2 {A B} (f : comp ty * A -> B -> Prop) (h : ty -> A) cs ss :
  all_of (zipw f (att h cs) ss) <->
  (forall i c s, nth_error cs i = Some c -> nth_error ss i = Some s -> f (c, h (cty c)) s).
Proof.
  revert ss. induction cs as [|c cs IH]; intros [|s ss]; cbn [att map zipw];
    try (split; [intros _ [|i] c' s'; cbn [nth_error]; discriminate|intros _; apply all_of_nil]).
  rewrite all_of_cons. unfold att in IH. rewrite IH. split.
  - intros (H & K) [|i] c' s' Hc Hs; cbn [nth_error] in *; [|eauto].
    injection Hc as <-. injection Hs as <-. exact H.
  - intros H. split; [apply (H 0%nat); reflexivity|]. intros i c' s' Hc Hs. apply (H (S i)); auto.
Qed.

Lemma woken_seq e r a g s s' : let n := ncomps r a g in
  woken (TSeq e r a g) (VSeq s) (VSeq s') <->
  (s' = None -> s = None) /\ (n = O -> s' = s) /\
  len (slots_list n s') = len (slots_list n s) /\
  (forall i c x y, nth_error (all_comps r a g) i = Some c ->
     nth_error (slots_list n s) i = Some x -> nth_error (slots_list n s') i = Some y ->
     match y with None => x = None | Some w => woken (cty c) (slot_get c x) w end).
Proof.
  intros n. cbn [woken]. fold n. rewrite all_att, zipw_all2.
  assert (E : forall P Q R S T : Prop, (S <-> T) -> (P /\ Q /\ R /\ S <-> P /\ Q /\ R /\ T)) by tauto.
  apply E. clear E. split; intros H.
  - intros i c x y Hc Hx Hy. specialize (H i c (x, y) Hc). rewrite combine_nth_error, Hx, Hy in H.
    specialize (H eq_refl). exact H.
  - intros i c (x, y) Hc Hp. rewrite combine_nth_error in Hp.
    destruct (nth_error (slots_list n s) i) as [x'|] eqn:Hx; [|discriminate].
    destruct (nth_error (slots_list n s') i) as [y'|] eqn:Hy; [|discriminate].
    injection Hp as -> ->. exact (H i c x y Hc Hx Hy).
Qed.

Lemma woken_choice e r a g i x j y : woken (TChoice e r a g) (VChoice (Some (i, x))) (VChoice (Some (j, y))) <->
  i = j /\ match nth_error (all_comps r a g) i with Some c => woken (cty c) x y | None => y = x end.
Proof.
  cbn [woken]. rewrite all_att, nth_error_att. destruct (nth_error _ i); cbn [option_map snd]; tauto.
Qed.

Lemma shaped_choice e r a g i x : shaped (TChoice e r a g) (VChoice (Some (i, x))) <->
  match nth_error (all_comps r a g) i with Some c => shaped (cty c) x | None => True end.
Proof.
  cbn [shaped]. rewrite all_att, nth_error_att. destruct (nth_error _ i); cbn [option_map snd]; tauto.
Qed.

Lemma woken_simple t v v' : is_simple t = true -> woken t v v' -> v' = v.
Proof. destruct t; intros H; try discriminate; destruct v; auto. Qed.

(** Same kind of object on both sides. *)
Lemma woken_kind t v v' : woken t v v' ->
  v' = v \/
  (exists e r a g s s', t = TSeq e r a g /\ v = VSeq s /\ v' = VSeq s') \/
  (exists c t' l l', t = TSeqOf c t' /\ v = VSeqOf l /\ v' = VSeqOf l') \/
  (exists e r a g i x y, t = TChoice e r a g /\ v = VChoice (Some (i, x)) /\ v' = VChoice (Some (i, y))).
Proof.
  destruct t as [ | | | | |e r a g|c t'|e r a g]; try (intros H; left; exact H).
  - destruct v, v'; try (intros H; left; exact H). intros _. right; left. repeat eexists.
  - destruct v, v'; try (intros H; left; exact H). intros _. right; right; left. repeat eexists.
  - destruct v as [ | | | | | | | |[(i, x)|]], v' as [ | | | | | | | |[(j, y)|]];
      try (intros H; left; exact H). intros H. apply woken_choice in H as (<- & _).
    right; right; right. repeat eexists.
Qed.

Lemma shaped_fresh t : shaped t (fresh t).
Proof.
  destruct t as [ | | | | |e r a g| |]; cbn [fresh]; try exact I.
  - apply shaped_seq. cbn [slots_list]. rewrite repeat_length. repeat split; auto.
    intros i c x _ H. apply nth_error_In, repeat_spec in H. discriminate.
  - cbn [shaped map]. apply all_of_nil.
Qed.

Lemma shaped_slot_get c s : match cpres c with Dflt d => shaped (cty c) d | _ => True end ->
  (forall x, s = Some x -> shaped (cty c) x) -> shaped (cty c) (slot_get c s).
Proof.
  intros D H. destruct s as [x|]; cbn [slot_get]; [now apply H|].
  destruct (cpres c); auto using shaped_fresh.
Qed.

Lemma woken_refl t : forall v, shaped t v -> woken t v v.
Proof.
  induction t as [t S|e r a g IH|c t IH|e r a g IH] using ty_ind2; intros v H.
  - destruct t; try discriminate; destruct v; reflexivity.
  - destruct v as [ | | | | | |s| |]; try reflexivity. apply shaped_seq in H as (L & Z & H).
    apply woken_seq. repeat split; auto. intros i c x y Hc Hx Hy. rewrite Hx in Hy. injection Hy as <-.
    destruct x as [w|]; auto. cbn [slot_get]. rewrite Forall_forall in IH.
    apply IH; [eapply nth_error_In; eauto|]. eapply H; eauto.
  - destruct v as [ | | | | | | |l|]; try reflexivity. cbn [shaped woken] in *. apply all_of_map in H.
    induction H; constructor; auto.
  - destruct v as [ | | | | | | | |[(i, x)|]]; try reflexivity. apply shaped_choice in H.
    apply woken_choice. split; auto. destruct (nth_error _ i) as [c|] eqn:E; auto.
    rewrite Forall_forall in IH. apply IH; auto. eapply nth_error_In; eauto.
Qed.

(** ** What instantiation does to isValue *)

Lemma seq_any_nth ss cs : seq_any ss cs = true <->
  exists i c w, nth_error cs i = Some c /\ nth_error ss i = Some (Some w) /\ is_value (cty c) w = true.
Proof.
  revert cs. induction ss as [|s ss IH]; intros [|c cs]; cbn [seq_any]; fold seq_any;
    try (split; [discriminate|intros ([|i] & c' & w & H & K & _); discriminate]).
  rewrite orb_true_iff, IH. split.
  - intros [H|(i & c' & w & H)]; [|exists (S i); eauto]. destruct s as [w|]; [|discriminate].
    exists 0%nat, c, w. auto.
  - intros ([|i] & c' & w & H & K & V); cbn [nth_error] in *.
    + injection H as <-. injection K as ->. left. exact V.
    + right. exists i, c', w. auto.
Qed.

Lemma seq_mand_nth ss cs : len ss = len cs -> seq_mand ss cs = true <->
  (forall i c, nth_error cs i = Some c -> is_mandatory c = true ->
     exists w, nth_error ss i = Some (Some w) /\ is_value (cty c) w = true).
Proof.
  revert cs. induction ss as [|s ss IH]; intros [|c cs] L; try discriminate; cbn [seq_mand]; fold seq_mand.
  - split; auto. intros _ [|i]; discriminate.
  - rewrite andb_true_iff, IH by (cbn [List.length] in L; lia). split.
    + intros (H & K) [|i] c' Hc M; cbn [nth_error] in *; [|eauto]. injection Hc as <-.
      rewrite M in H. cbn [negb orb] in H. destruct s as [w|]; [|discriminate]. eauto.
    + intros H. split.
      * destruct (is_mandatory c) eqn:M; [|reflexivity].
        destruct (H 0%nat c eq_refl M) as (w & E & V). injection E as ->. exact V.
      * intros i c' Hc M. exact (H (S i) c' Hc M).
Qed.

Lemma is_value_none t : is_value t (VSeq None) =
  match comps_of t with [] => false | cs => forallb (fun c => negb (is_mandatory c)) cs end.
Proof. reflexivity. Qed.

Lemma forallb_not_mand (cs : list (comp ty)) : forallb (fun c => negb (is_mandatory c)) cs = true <->
  (forall i c, nth_error cs i = Some c -> is_mandatory c = false).
Proof.
  rewrite forallb_forall. split.
  - intros H i c Hc. apply nth_error_In in Hc. apply H in Hc. now destruct (is_mandatory c).
  - intros H c Hc. apply In_nth_error in Hc as (i & Hc). now rewrite (H i c Hc).
Qed.

(** An object with a value keeps it when more slots are instantiated. *)
Lemma woken_value t : forall v v', shaped t v -> woken t v v' -> is_value t v = true -> is_value t v' = true.
Proof.
  induction t as [t S|e r a g IH|c t IH|e r a g IH] using ty_ind2; intros v v' Sh W V.
  - apply woken_simple in W; auto. now subst.
  - destruct (woken_kind _ _ _ W) as [->|[(e' & r' & a' & g' & s & s' & E & -> & ->)|[(?&?&?&?&E&_)|(?&?&?&?&?&?&?&E&_)]]];
      auto; try discriminate. clear E e' r' a' g'. rewrite Forall_forall in IH.
    apply shaped_seq in Sh as (L & Z & Sh). apply woken_seq in W as (W1 & W2 & W3 & W). set (n := ncomps r a g) in *.
    destruct s' as [ss'|]; [|now rewrite (W1 eq_refl) in V].
    rewrite is_value_seq. cbn [comps_of slots_list] in *.
    assert (L' : len ss' = len (all_comps r a g)) by (rewrite W3; exact L).
    destruct s as [ss|].
    + rewrite is_value_seq in V. cbn [comps_of slots_list] in *. apply orb_true_iff in V as [V|V]; apply orb_true_iff.
      * left. rewrite seq_mand_nth in * by auto. intros i c Hc M. destruct (V i c Hc M) as (w & Hw & Vw).
        assert (exists y, nth_error ss' i = Some y) as (y & Hy).
        { destruct (nth_error ss' i) eqn:E; eauto. apply nth_error_None in E.
          assert (i < len ss)%nat by (apply nth_error_Some; congruence). lia. }
        pose proof (W i c _ _ Hc Hw Hy) as K. destruct y as [y|]; [|discriminate].
        exists y. split; auto. cbn [slot_get] in K. eapply IH; eauto. eapply nth_error_In; eauto.
      * right. apply seq_any_nth in V as (i & c & w & Hc & Hw & Vw). apply seq_any_nth.
        assert (exists y, nth_error ss' i = Some y) as (y & Hy).
        { destruct (nth_error ss' i) eqn:E; eauto. apply nth_error_None in E.
          assert (i < len ss)%nat by (apply nth_error_Some; congruence). lia. }
        pose proof (W i c _ _ Hc Hw Hy) as K. destruct y as [y|]; [|discriminate].
        exists i, c, y. repeat split; auto. cbn [slot_get] in K. eapply IH; eauto. eapply nth_error_In; eauto.
    + rewrite is_value_none in V. cbn [comps_of] in V. apply orb_true_iff. left.
      rewrite seq_mand_nth by auto. intros i c Hc M. exfalso.
      destruct (all_comps r a g) as [|c0 cs]; [discriminate|]. rewrite forallb_not_mand in V.
      rewrite (V i c Hc) in M. discriminate.
  - destruct (woken_kind _ _ _ W) as [->|[(?&?&?&?&?&?&E&_)|[(c'&t''&l&l'&E&->&->)|(?&?&?&?&?&?&?&E&_)]]];
      auto; try discriminate. clear E c' t''. cbn [shaped woken] in *. apply all_of_map in Sh.
    destruct W as [|x y l l' Hxy Hl]; auto. cbn [is_value elem_of] in *.
    apply Forall_cons_iff in Sh as (Sx & Sl). cbn [forallb] in *.
    apply andb_true_iff in V as (V1 & V2). apply andb_true_iff. split; [eapply IH; eauto|].
    clear -Hl V2 IH Sl. induction Hl as [|x y l l' H _ IHl]; auto. cbn [forallb] in *.
    apply Forall_cons_iff in Sl as (Sx & Sl). apply andb_true_iff in V2 as (V1 & V2).
    apply andb_true_iff; split; eauto.
  - destruct (woken_kind _ _ _ W) as [->|[(?&?&?&?&?&?&E&_)|[(?&?&?&?&E&_)|(e'&r'&a'&g'&i&x&y&E&->&->)]]];
      auto; try discriminate. clear E e' r' a' g'. apply woken_choice in W as (_ & W).
    apply shaped_choice in Sh. cbn [is_value comps_of] in *. unfold comp_ty in *.
    destruct (nth_error _ i) as [c|] eqn:E; [|now subst]. rewrite Forall_forall in IH.
    eapply IH; eauto. eapply nth_error_In; eauto.
Qed.

(** * Types whose objects do not come to life by being read *)

(** A SEQUENCE that has a mandatory component and no DEFAULT component, with the
    same for everything inside it: reading cannot give such an object a value. *)
Definition still (c : comp ty) (b : bool) : bool := negb (is_defaulted c) && b.

Fixpoint sleeps (t : ty) : bool :=
  match t with
  | TSeq _ root adds groups =>
      existsb is_mandatory (all_comps root adds groups) &&
      forallb (fun c => still c (sleeps (cty c))) root &&
      forallb (fun c => still c (sleeps (cty c))) adds &&
      forallb (forallb (fun c => still c (sleeps (cty c)))) groups
  | TSeqOf _ t' => sleeps t'
  | TChoice _ root adds groups =>
      forallb (fun c => sleeps (cty c)) root &&
      forallb (fun c => sleeps (cty c)) adds &&
      forallb (forallb (fun c => sleeps (cty c))) groups
  | _ => true
  end.

(** Every component whose presence is optional is of a sleeping type. *)
Fixpoint quiet (t : ty) : bool :=
  match t with
  | TSeq _ root adds groups =>
      forallb (fun c => (negb (is_optional c) || sleeps (cty c)) && quiet (cty c)) root &&
      forallb (fun c => sleeps (cty c) && quiet (cty c)) adds &&
      forallb (forallb (fun c => sleeps (cty c) && quiet (cty c))) groups
  | TSeqOf _ t' => quiet t'
  | TChoice _ root adds groups =>
      forallb (fun c => quiet (cty c)) root &&
      forallb (fun c => quiet (cty c)) adds &&
      forallb (forallb (fun c => quiet (cty c))) groups
  | _ => true
  end.

Lemma forallb_all {A} (f : A -> bool) r a g :
  forallb f r && forallb f a && forallb (forallb f) g = true <-> Forall (fun x => f x = true) (r ++ a ++ List.concat g).
Proof.
  rewrite !andb_true_iff, !Forall_app, !forallb_forall, !Forall_forall.
  assert (G : (forall x, In x g -> forallb f x = true) <-> (forall x, In x (List.concat g) -> f x = true)).
  { split.
    - intros H x Hx. apply in_concat in Hx as (l & Hl & Hx). specialize (H l Hl).
      rewrite forallb_forall in H. auto.
    - intros H l Hl. apply forallb_forall. intros x Hx. apply H, in_concat. eauto. }
  tauto.
Qed.

Lemma sleeps_seq e r a g : sleeps (TSeq e r a g) = true <->
  existsb is_mandatory (all_comps r a g) = true /\
  Forall (fun c => is_defaulted c = false /\ sleeps (cty c) = true) (all_comps r a g).
Proof.
  cbn [sleeps]. rewrite <- !andb_assoc, andb_true_iff, !andb_assoc, forallb_all.
  unfold all_comps. rewrite !(Forall_forall _ (r ++ a ++ List.concat g)).
  assert (E : forall c, still c (sleeps (cty c)) = true <-> is_defaulted c = false /\ sleeps (cty c) = true).
  { intros c. unfold still. destruct (is_defaulted c), (sleeps (cty c)); intuition. }
  split; intros (H & K); split; auto; intros c Hc; apply E; auto.
Qed.

Lemma sleeps_choice e r a g : sleeps (TChoice e r a g) = true <->
  Forall (fun c => sleeps (cty c) = true) (all_comps r a g).
Proof. cbn [sleeps]. apply forallb_all. Qed.

Lemma quiet_choice e r a g : quiet (TChoice e r a g) = true <->
  Forall (fun c => quiet (cty c) = true) (all_comps r a g).
Proof. cbn [quiet]. apply forallb_all. Qed.

Lemma sleeps_fresh t : sleeps t = true -> is_value t (fresh t) = false.
Proof.
  destruct t as [ | | | | |e r a g| |]; intros H; try reflexivity.
  apply sleeps_seq in H as (M & _). cbn [fresh]. rewrite is_value_none. cbn [comps_of].
  destruct (all_comps r a g) as [|c0 cs]; auto. apply not_true_is_false. intros F.
  apply existsb_exists in M as (c & Hc & M). rewrite forallb_forall in F. apply F in Hc.
  now rewrite M in Hc.
Qed.

Lemma sleeping t : forall v v', sleeps t = true -> shaped t v -> woken t v v' ->
  is_value t v' = is_value t v.
Proof.
  intros v v' S Sh W. destruct (is_value t v) eqn:V; [eapply woken_value; eauto|].
  apply not_true_is_false. intros V'. enough (is_value t v = true) by congruence. clear V.
  revert v v' S Sh W V'.
  induction t as [t S0|e r a g IH|c t IH|e r a g IH] using ty_ind2; intros v v' S Sh W V.
  - apply woken_simple in W; auto. now subst.
  - destruct (woken_kind _ _ _ W) as [->|[(e' & r' & a' & g' & s & s' & E & -> & ->)|[(?&?&?&?&E&_)|(?&?&?&?&?&?&?&E&_)]]];
      auto; try discriminate. clear E e' r' a' g'. rewrite Forall_forall in IH.
    apply sleeps_seq in S as (M & S). rewrite Forall_forall in S.
    apply shaped_seq in Sh as (L & Z & Sh). apply woken_seq in W as (W1 & W2 & W3 & W). set (n := ncomps r a g) in *.
    destruct s' as [ss'|]; [|now rewrite (W1 eq_refl)]. cbn [slots_list] in *.
    assert (L' : len ss' = len (all_comps r a g)) by (rewrite W3; exact L).
    assert (A : seq_any ss' (all_comps r a g) = true).
    { rewrite is_value_seq in V. apply orb_true_iff in V as [V|V]; auto. cbn [comps_of] in V.
      rewrite seq_mand_nth in V by auto. apply existsb_exists in M as (c & Hc & M).
      apply In_nth_error in Hc as (i & Hc). destruct (V i c Hc M) as (w & Hw & Vw).
      apply seq_any_nth. eauto 6. }
    apply seq_any_nth in A as (i & c & w & Hc & Hw & Vw).
    assert (exists x, nth_error (slots_list n s) i = Some x) as (x & Hx).
    { destruct (nth_error (slots_list n s) i) eqn:E; eauto. apply nth_error_None in E.
      assert (i < len ss')%nat by (apply nth_error_Some; congruence). lia. }
    pose proof (W i c _ _ Hc Hx Hw) as K. cbn iota in K. pose proof (nth_error_In _ _ Hc) as Ic.
    destruct (S c Ic) as (D & Sc). destruct x as [x|].
    + assert (Vx : is_value (cty c) x = true) by (eapply IH; eauto).
      destruct s as [ss|].
      * rewrite is_value_seq. cbn [slots_list comps_of] in *. apply orb_true_iff. right.
        apply seq_any_nth. eauto 6.
      * cbn [slots_list] in Hx. apply nth_error_In, repeat_spec in Hx. discriminate.
    + exfalso. assert (Vx : is_value (cty c) (slot_get c None) = true).
      { eapply IH; eauto. apply shaped_slot_get; [|discriminate].
        unfold is_defaulted in D. destruct (cpres c); auto; discriminate. }
      cbn [slot_get] in Vx. unfold is_defaulted in D. destruct (cpres c); try discriminate;
        rewrite sleeps_fresh in Vx by auto; discriminate.
  - destruct (woken_kind _ _ _ W) as [->|[(?&?&?&?&?&?&E&_)|[(c'&t''&l&l'&E&->&->)|(?&?&?&?&?&?&?&E&_)]]];
      auto; try discriminate. clear E c' t''. cbn [shaped woken sleeps] in *. apply all_of_map in Sh.
    destruct W as [|x y l l' Hxy Hl]; auto. cbn [is_value elem_of] in *.
    apply Forall_cons_iff in Sh as (Sx & Sl). cbn [forallb] in *.
    apply andb_true_iff in V as (V1 & V2). apply andb_true_iff. split; [eapply IH; eauto|].
    clear -Hl V2 IH S Sl. induction Hl as [|x y l l' H _ IHl]; auto. cbn [forallb] in *.
    apply Forall_cons_iff in Sl as (Sx & Sl). apply andb_true_iff in V2 as (V1 & V2).
    apply andb_true_iff; split; eauto.
  - destruct (woken_kind _ _ _ W) as [->|[(?&?&?&?&?&?&E&_)|[(?&?&?&?&E&_)|(e'&r'&a'&g'&i&x&y&E&->&->)]]];
      auto; try discriminate. clear E e' r' a' g'. apply woken_choice in W as (_ & W).
    apply shaped_choice in Sh. apply sleeps_choice in S. rewrite Forall_forall in S.
    cbn [is_value comps_of] in *. unfold comp_ty in *.
    destruct (nth_error _ i) as [c|] eqn:E; [|now subst]. rewrite Forall_forall in IH.
    apply nth_error_In in E. eapply IH; eauto.
Qed.

Lemma woken_len n s s' : len (slots_list n s') = len (slots_list n s) -> len (slots_list n s) = n ->
  comp_values_ok (VSeq s') = match s' with None => false | Some _ => negb (n =? 0)%nat end.
Proof.
  destruct s' as [[|x l]|]; auto; cbn [slots_list comp_values_ok List.length]; intros H K.
  - rewrite <- H in K. now subst n.
  - destruct n; [congruence|reflexivity].
Qed.

(** On a sleeping type an object that isValue is not an untouched one. *)
Lemma sleeping_touched t v : sleeps t = true -> shaped t v -> is_value t v = true -> comp_values_ok v = true.
Proof.
  destruct v as [ | | | | | |[[|x l]|]|[|x l]|[(i,x)|]]; auto.
  - intros S Sh V. destruct t as [ | | | | |e r a g| |]; try contradiction.
    apply shaped_seq in Sh as (L & Z & _). cbn [slots_list List.length] in L.
    now specialize (Z (eq_sym L)).
  - intros S Sh V. destruct t as [ | | | | |e r a g| |]; try contradiction.
    pose proof (sleeps_fresh _ S) as F. cbn [fresh] in F. congruence.
Qed.

(** * The encoding of an object read before *)

Definition pair_ok (look look' : string -> res val) (c : comp ty) : Prop :=
  exists v v', look (cname c) = Ok v /\ look' (cname c) = Ok v' /\
               shaped (cty c) v /\ woken (cty c) v v'.

Lemma pairs_ok e r a g s s' : formed (TSeq e r a g) -> shaped (TSeq e r a g) (VSeq s) ->
  woken (TSeq e r a g) (VSeq s) (VSeq s') ->
  Forall (pair_ok (get_by_name (all_comps r a g) s) (get_by_name (all_comps r a g) s')) (all_comps r a g).
Proof.
  intros F Sh W. apply (fun H => formed_comps e r a g (or_introl H)) in F as (N & F).
  apply shaped_seq in Sh as (L & Z & Sh). apply woken_seq in W as (W1 & W2 & W3 & W).
  set (n := ncomps r a g) in *. pose proof (looks_all _ s N L) as K.
  assert (L' : len (slots_list n s') = n) by congruence. pose proof (looks_all _ s' N L') as K'.
  apply Forall_forall. intros c Hc. apply In_nth_error in Hc as (i & Hc).
  assert (exists x, nth_error (slots_list n s) i = Some x) as (x & Hx).
  { destruct (nth_error (slots_list n s) i) eqn:E; eauto. apply nth_error_None in E.
    assert (i < len (all_comps r a g))%nat by (apply nth_error_Some; congruence). unfold n, ncomps in *. lia. }
  assert (exists y, nth_error (slots_list n s') i = Some y) as (y & Hy).
  { destruct (nth_error (slots_list n s') i) eqn:E; eauto. apply nth_error_None in E.
    assert (i < len (all_comps r a g))%nat by (apply nth_error_Some; congruence). unfold n, ncomps in *. lia. }
  pose proof (Forall2_nth _ _ _ _ _ _ K Hc Hx) as Lx. pose proof (Forall2_nth _ _ _ _ _ _ K' Hc Hy) as Ly.
  unfold looks in Lx, Ly. rewrite Forall_forall in F. destruct (F c (nth_error_In _ _ Hc)) as (Fc & D).
  assert (Sx : shaped (cty c) (slot_get c x)).
  { apply shaped_slot_get; auto. intros w ->. eauto. }
  exists (slot_get c x), (slot_get c y). repeat split; auto.
  pose proof (W i c x y Hc Hx Hy) as P. destruct y as [w|]; [exact P|]. subst x. now apply woken_refl.
Qed.

Lemma raw_ne_woken t d v v' : woken t v v' -> raw_ne d v' = raw_ne d v.
Proof.
  intros W. destruct (woken_kind _ _ _ W) as [->|[(?&?&?&?&?&?&_&->&->)|[(?&?&?&?&_&->&->)|(?&?&?&?&?&?&?&_&->&->)]]];
    auto; destruct d; reflexivity.
Qed.

Definition enc_same (t : ty) : Prop := forall v v', quiet t = true -> formed t -> shaped t v ->
  woken t v v' -> enc t v' = enc t v.

Lemma sleeping_cvo t v v' : sleeps t = true -> shaped t v -> shaped t v' -> woken t v v' ->
  is_value t v = true -> comp_values_ok v' = comp_values_ok v.
Proof.
  intros S Sh Sh' W V. rewrite (sleeping_touched t v), (sleeping_touched t v'); auto.
  now rewrite (sleeping t v v').
Qed.

(** Instantiated objects are well formed. *)
Lemma woken_shaped t : forall v v', formed t -> shaped t v -> woken t v v' -> shaped t v'.
Proof.
  induction t as [t S0|e r a g IH|c t IH|e r a g IH] using ty_ind2; intros v v' F Sh W.
  - apply woken_simple in W; auto. now subst.
  - destruct (woken_kind _ _ _ W) as [->|[(e' & r' & a' & g' & s & s' & E & -> & ->)|[(?&?&?&?&E&_)|(?&?&?&?&?&?&?&E&_)]]];
      auto; try discriminate. clear E e' r' a' g'. rewrite Forall_forall in IH.
    apply (fun H => formed_comps e r a g (or_introl H)) in F as (N & F). rewrite Forall_forall in F.
    apply shaped_seq in Sh as (L & Z & Sh). apply woken_seq in W as (W1 & W2 & W3 & W).
    apply shaped_seq. set (n := ncomps r a g) in *. repeat split.
    + congruence.
    + intros E. rewrite (W2 E). auto.
    + intros i c w Hc Hw. assert (exists x, nth_error (slots_list n s) i = Some x) as (x & Hx).
      { destruct (nth_error (slots_list n s) i) eqn:E; eauto. apply nth_error_None in E.
        assert (i < len (slots_list n s'))%nat by (apply nth_error_Some; congruence). lia. }
      pose proof (W i c _ _ Hc Hx Hw) as K. cbn iota in K. pose proof (nth_error_In _ _ Hc) as Ic.
      destruct (F c Ic) as (Fc & D). eapply IH; [exact Ic|exact Fc| |exact K].
      apply shaped_slot_get; auto. intros y ->. eauto.
  - destruct (woken_kind _ _ _ W) as [->|[(?&?&?&?&?&?&E&_)|[(c'&t''&l&l'&E&->&->)|(?&?&?&?&?&?&?&E&_)]]];
      auto; try discriminate. clear E c' t''. cbn [shaped woken formed] in *. apply all_of_map in Sh.
    apply all_of_map. induction W; auto. apply Forall_cons_iff in Sh as (Sx & Sl). constructor; eauto.
  - destruct (woken_kind _ _ _ W) as [->|[(?&?&?&?&?&?&E&_)|[(?&?&?&?&E&_)|(e'&r'&a'&g'&i&x&y&E&->&->)]]];
      auto; try discriminate. clear E e' r' a' g'. apply woken_choice in W as (_ & W).
    apply (fun H => formed_comps e r a g (or_intror H)) in F as (N & F). rewrite Forall_forall in F.
    apply shaped_choice in Sh. apply shaped_choice.
    destruct (nth_error _ i) as [c|] eqn:E; [|now subst]. rewrite Forall_forall in IH.
    apply nth_error_In in E. destruct (F c E). eapply IH; eauto.
Qed.

Lemma enc_root_same look look' cs : Forall (fun c => enc_same (cty c)) cs ->
  Forall (fun c => formed (cty c)) cs ->
  Forall (fun c => (negb (is_optional c) || sleeps (cty c)) && quiet (cty c) = true) cs ->
  Forall (pair_ok look look') cs -> enc_root enc look' cs = enc_root enc look cs.
Proof.
  intros IH F Q P. induction cs as [|c cs IHcs]; auto.
  apply Forall_cons_iff in IH as (E & IH). apply Forall_cons_iff in F as (Fc & F).
  apply Forall_cons_iff in Q as (Qc & Q). apply Forall_cons_iff in P as ((v & v' & Lv & Lv' & Sh & W) & P).
  apply andb_true_iff in Qc as (S & Qc).
  cbn [enc_root]. fold (enc_root enc look cs). fold (enc_root enc look' cs). rewrite Lv, Lv'. cbn [bind].
  rewrite IHcs by auto. rewrite (E v v') by auto.
  unfold is_optional in S. destruct (cpres c) as [| |d] eqn:Pc; cbn [negb orb] in S.
  - reflexivity.
  - rewrite (sleeping (cty c) v v') by auto. destruct (is_value (cty c) v) eqn:V; auto. cbn [andb].
    rewrite (sleeping_cvo (cty c) v v'); auto. eapply woken_shaped; eauto.
  - now rewrite (raw_ne_woken _ d _ _ W).
Qed.

Lemma enc_adds_same look look' cs : Forall (fun c => enc_same (cty c)) cs ->
  Forall (fun c => formed (cty c)) cs ->
  Forall (fun c => sleeps (cty c) && quiet (cty c) = true) cs ->
  Forall (pair_ok look look') cs -> forall prev, enc_adds enc look' prev cs = enc_adds enc look prev cs.
Proof.
  intros IH F Q P. induction cs as [|c cs IHcs]; auto. intros prev.
  apply Forall_cons_iff in IH as (E & IH). apply Forall_cons_iff in F as (Fc & F).
  apply Forall_cons_iff in Q as (Qc & Q). apply Forall_cons_iff in P as ((v & v' & Lv & Lv' & Sh & W) & P).
  apply andb_true_iff in Qc as (S & Qc).
  cbn [enc_adds]. fold (enc_adds enc look). fold (enc_adds enc look'). rewrite Lv, Lv'. cbn [bind].
  rewrite (E v v') by auto. rewrite (sleeping (cty c) v v') by auto.
  assert (C : is_value (cty c) v = true -> comp_values_ok v' = comp_values_ok v).
  { intros V. apply (sleeping_cvo (cty c)); auto. eapply woken_shaped; eauto. }
  destruct (is_value (cty c) v) eqn:V.
  - rewrite C by auto. destruct (match prev_missing prev with Some nm => _ | None => _ end) as [bf|]; auto.
    cbn [bind]. now rewrite IHcs.
  - cbn [bind]. now rewrite IHcs.
Qed.

Lemma group_scan_same look look' cs :
  Forall (fun c => formed (cty c)) cs ->
  Forall (fun c => sleeps (cty c) && quiet (cty c) = true) cs ->
  Forall (pair_ok look look') cs -> forall prev, group_scan look' prev cs = group_scan look prev cs.
Proof.
  intros F Q P. induction cs as [|c cs IHcs]; auto. intros prev.
  apply Forall_cons_iff in F as (Fc & F).
  apply Forall_cons_iff in Q as (Qc & Q). apply Forall_cons_iff in P as ((v & v' & Lv & Lv' & Sh & W) & P).
  apply andb_true_iff in Qc as (S & Qc).
  cbn [group_scan]. fold (group_scan look). fold (group_scan look'). rewrite Lv, Lv'. cbn [bind].
  rewrite (sleeping (cty c) v v') by auto.
  assert (C : is_value (cty c) v = true -> comp_values_ok v' = comp_values_ok v).
  { intros V. apply (sleeping_cvo (cty c)); auto. eapply woken_shaped; eauto. }
  destruct (is_value (cty c) v) eqn:V.
  - rewrite C by auto. destruct (match prev_missing prev with Some nm => _ | None => _ end) as [bf|]; auto.
    cbn [bind]. now rewrite IHcs.
  - cbn [bind]. now rewrite IHcs.
Qed.

Lemma enc_groups_same look look' gs : Forall (fun c => enc_same (cty c)) (List.concat gs) ->
  Forall (fun c => formed (cty c)) (List.concat gs) ->
  Forall (fun c => sleeps (cty c) && quiet (cty c) = true) (List.concat gs) ->
  Forall (pair_ok look look') (List.concat gs) ->
  forall prev, enc_groups enc look' prev gs = enc_groups enc look prev gs.
Proof.
  induction gs as [|g gs IHgs]; auto. cbn [List.concat]. rewrite !Forall_app.
  intros (I1 & I2) (F1 & F2) (Q1 & Q2) (P1 & P2) prev.
  cbn [enc_groups]. fold (enc_groups enc look). fold (enc_groups enc look').
  rewrite (group_scan_same look look') by auto.
  destruct (group_scan look None g) as [ps|]; auto. cbn [bind].
  rewrite (enc_root_same look look'); auto.
  - destruct (if existsb ppresent ps then _ else _) as [bf|]; auto. cbn [bind]. now rewrite IHgs.
  - eapply Forall_impl; [|exact Q1]. cbn beta. intros c H. apply andb_true_iff in H as (-> & ->).
    now rewrite orb_true_r.
Qed.

(** Whatever has been instantiated, the encoding is the same, errors included. *)
Lemma enc_woken t : enc_same t.
Proof.
  induction t as [t S0|e r a g IH|c t IH|e r a g IH] using ty_ind2; intros v v' Q F Sh W.
  - apply woken_simple in W; auto. now subst.
  - destruct (woken_kind _ _ _ W) as [->|[(e' & r' & a' & g' & s & s' & E & -> & ->)|[(?&?&?&?&E&_)|(?&?&?&?&?&?&?&E&_)]]];
      auto; try discriminate. clear E e' r' a' g'.
    pose proof (pairs_ok _ _ _ _ _ _ F Sh W) as P.
    apply (fun H => formed_comps e r a g (or_introl H)) in F as (N & F).
    assert (F' : Forall (fun c => formed (cty c)) (all_comps r a g)).
    { eapply Forall_impl; [|exact F]. cbn beta. tauto. } clear F.
    cbn [quiet] in Q. apply andb_true_iff in Q as (Q & Q3). apply andb_true_iff in Q as (Q1 & Q2).
    pose proof (proj1 (forallb_all _ r [] []) ltac:(cbn [forallb]; rewrite !andb_true_r; exact Q1)) as Q1'.
    cbn [List.concat app] in Q1'. rewrite app_nil_r in Q1'.
    pose proof (proj1 (forallb_all _ [] a []) ltac:(cbn [forallb]; rewrite !andb_true_r; exact Q2)) as Q2'.
    cbn [List.concat app] in Q2'. rewrite app_nil_r in Q2'.
    pose proof (proj1 (forallb_all _ [] [] g) Q3) as Q3'. cbn [app] in Q3'. cbv beta in Q1', Q2', Q3'.
    set (look := get_by_name (all_comps r a g) s) in *. set (look' := get_by_name (all_comps r a g) s') in *.
    unfold all_comps in IH, F', P. rewrite !Forall_app in IH, F', P.
    destruct IH as (I1 & I2 & I3), F' as (F1 & F2 & F3), P as (P1 & P2 & P3).
    cbn [enc]. unfold encode_sequence. fold look. fold look'.
    rewrite (enc_root_same look look'), (enc_adds_same look look'), (enc_groups_same look look') by auto.
    reflexivity.
  - destruct (woken_kind _ _ _ W) as [->|[(?&?&?&?&?&?&E&_)|[(c'&t''&l&l'&E&->&->)|(?&?&?&?&?&?&?&E&_)]]];
      auto; try discriminate. clear E c' t''. cbn [shaped woken formed quiet] in *. apply all_of_map in Sh.
    cbn [enc]. assert (L : zlen l' = zlen l) by (unfold zlen; now rewrite (Forall2_length _ _ _ W)).
    rewrite L. f_equal. clear L. induction W as [|x y l l' H _ IHl]; auto. apply Forall_cons_iff in Sh as (Sx & Sl).
    cbn [enc_list]. rewrite (IH x y), IHl by auto. reflexivity.
  - destruct (woken_kind _ _ _ W) as [->|[(?&?&?&?&?&?&E&_)|[(?&?&?&?&E&_)|(e'&r'&a'&g'&i&x&y&E&->&->)]]];
      auto; try discriminate. clear E e' r' a' g'. apply woken_choice in W as (_ & W).
    apply (fun H => formed_comps e r a g (or_intror H)) in F as (N & F). rewrite Forall_forall in F.
    apply shaped_choice in Sh. apply quiet_choice in Q. rewrite Forall_forall in Q, IH. cbn [enc].
    assert (E : forall h : comp ty -> string * (val -> res (list field)),
       map h r ++ map h a ++ List.concat (map (map h) g) = map h (all_comps r a g)).
    { intros h. unfold all_comps. now rewrite !map_app, concat_map. }
    rewrite E, nth_error_map. destruct (nth_error (all_comps r a g) i) as [c|] eqn:Ec; auto.
    cbn [option_map]. apply nth_error_In in Ec. destruct (F c Ec).
    rewrite (IH c Ec x y); auto.
Qed.

(** * Calls that instantiate slots *)

Lemma slots_after_list n l : len l = n -> slots_list n (slots_after l) = l.
Proof. destruct l; intros <-; reflexivity. Qed.

(** Every slot either stays or is filled with something the slot woke up to. *)
Lemma woken_slots e r a g s l : shaped (TSeq e r a g) (VSeq s) -> let n := ncomps r a g in
  len l = n ->
  (forall i c x, nth_error (all_comps r a g) i = Some c -> nth_error (slots_list n s) i = Some x ->
     nth_error l i = Some x \/
     exists w, nth_error l i = Some (Some w) /\ woken (cty c) (slot_get c x) w) ->
  woken (TSeq e r a g) (VSeq s) (VSeq (slots_after l)).
Proof.
  intros Sh n L H. apply shaped_seq in Sh as (L0 & Z & Sh).
  fold n in L0, Z, Sh. apply woken_seq. fold n. rewrite (slots_after_list n l L).
  repeat split; auto.
  - destruct l; [|discriminate]. intros _. apply Z. now rewrite <- L.
  - intros E. rewrite (Z E). rewrite E in L. now destruct l.
  - now rewrite L0.
  - intros i c x y Hc Hx Hy. destruct (H i c x Hc Hx) as [K|(w & K & W)].
    + rewrite K in Hy. injection Hy as <-. destruct x as [x|]; auto. cbn [slot_get].
      apply woken_refl. eauto.
    + rewrite K in Hy. injection Hy as <-. exact W.
Qed.

Lemma comp_found e r a g s i c x : formed (TSeq e r a g) -> shaped (TSeq e r a g) (VSeq s) ->
  nth_error (all_comps r a g) i = Some c -> nth_error (slots_list (ncomps r a g) s) i = Some x ->
  formed (cty c) /\ shaped (cty c) (slot_get c x).
Proof.
  intros F Sh Hc Hx. apply (fun H => formed_comps e r a g (or_introl H)) in F as (N & F).
  rewrite Forall_forall in F. destruct (F c (nth_error_In _ _ Hc)) as (Fc & D). split; auto.
  apply shaped_seq in Sh as (_ & _ & Sh). apply shaped_slot_get; auto. intros w ->. eauto.
Qed.

Lemma zipw_len_le {A B C} (f : A -> B -> C) l m : len (zipw f l m) = Nat.min (len l) (len m).
Proof. revert m. induction l as [|x l IH]; intros [|y m]; cbn [zipw List.length]; auto. now rewrite IH. Qed.

Lemma to_dict_woken t : forall v, formed t -> shaped t v -> woken t v (after_to_dict t v).
Proof.
  induction t as [t S0|e r a g IH|c t IH|e r a g IH] using ty_ind2; intros v F Sh.
  - destruct t; try discriminate; destruct v; reflexivity.
  - destruct v as [ | | | | | |s| |]; try reflexivity. cbn [after_to_dict]. rewrite all_att.
    pose proof Sh as Sh'. apply shaped_seq in Sh' as (L & _ & _). rewrite Forall_forall in IH.
    apply woken_slots; auto.
    + rewrite zipw_length, att_length; auto. rewrite att_length. now rewrite L.
    + intros i c x Hc Hx. right. destruct (comp_found _ _ _ _ _ _ _ _ F Sh Hc Hx) as (Fc & Sc).
      exists (after_to_dict (cty c) (slot_get c x)). split.
      * rewrite nth_error_zipw, nth_error_att, Hc, Hx. reflexivity.
      * apply IH; auto. eapply nth_error_In; eauto.
  - destruct v as [ | | | | | | |l|]; try reflexivity. cbn [after_to_dict woken shaped formed] in *.
    apply all_of_map in Sh. induction Sh; constructor; auto.
  - destruct v as [ | | | | | | | |[(i, x)|]]; try reflexivity. cbn [after_to_dict].
    rewrite all_att, nth_error_att. apply shaped_choice in Sh.
    apply (fun H => formed_comps e r a g (or_intror H)) in F as (N & F). rewrite Forall_forall in F, IH.
    destruct (nth_error (all_comps r a g) i) as [c|] eqn:E; cbn [option_map].
    + apply woken_choice. rewrite E. split; auto. apply nth_error_In in E.
      destruct (is_value (cty c) x); [|now apply woken_refl]. destruct (F c E). apply IH; auto.
    + apply woken_choice. rewrite E. auto.
Qed.

(** The component read is there: one of a SEQUENCE, or the selected alternative of a
    CHOICE (C29_alternative_refuted is about the others). *)
Definition own_part (t : ty) (i : nat) (v : val) : bool :=
  match t, v with
  | TChoice _ _ _ _, VChoice (Some (j, _)) => Nat.eqb j i
  | TChoice _ _ _ _, _ => false
  | _, _ => true
  end.

Lemma read_woken t i v : own_part t i v = true -> formed t -> shaped t v -> woken t v (after_read t i v).
Proof.
  intros O F Sh. destruct t as [ | | | | |e r a g| |e r a g]; try (apply woken_refl; auto; fail).
  2:{ destruct v as [ | | | | | | | |[[j x]|]]; try (apply woken_refl; auto; fail); [|discriminate]. cbn [own_part after_read] in *. rewrite O.
      destruct (nth_error (all_comps r a g) i); now apply woken_refl. }
  destruct v as [ | | | | | |s| |]; try (apply woken_refl; auto; fail). cbn [after_read].
  fold (ncomps r a g). destruct (nth_error (all_comps r a g) i) as [c|] eqn:Hc; [|now apply woken_refl].
  destruct (nth_error (slots_list (ncomps r a g) s) i) as [x|] eqn:Hx; [|now apply woken_refl].
  destruct (comp_found _ _ _ _ _ _ _ _ F Sh Hc Hx) as (Fc & Sc).
  pose proof Sh as Sh'. apply shaped_seq in Sh' as (L & Z & Sl). set (n := ncomps r a g) in *.
  set (ss := slots_list n s) in *.
  assert (E : Some (update i (Some (slot_get c x)) ss) = slots_after (update i (Some (slot_get c x)) ss)).
  { destruct ss as [|y ss]; [destruct i; discriminate|]. destruct i; reflexivity. }
  rewrite E. clear E.
  assert (Lu : forall A (l : list A) i y, len (update i y l) = len l).
  { intros A l. induction l; intros [|j] y; cbn [update List.length]; auto. }
  assert (Nu : forall A (l : list A) i y j, nth_error (update i y l) j =
     if (i =? j)%nat then (match nth_error l j with Some _ => Some y | None => None end) else nth_error l j).
  { intros A l. induction l as [|b l IHl]; intros [|k] y [|j]; cbn [update nth_error Nat.eqb]; auto.
    - now destruct (k =? j)%nat. }
  apply woken_slots; auto.
  - rewrite Lu. exact L.
  - intros j c' x' Hc' Hx'. fold n ss in Hx'. rewrite Nu, Hx'. destruct (i =? j)%nat eqn:Eij; auto.
    apply Nat.eqb_eq in Eij. subst j. rewrite Hc in Hc'. rewrite Hx in Hx'.
    injection Hc' as <-. injection Hx' as <-. right. exists (slot_get c x). split; auto. now apply woken_refl.
Qed.

Inductive slots3 (R : comp ty -> option val -> option val -> Prop) :
  list (comp ty) -> list (option val) -> list (option val) -> Prop :=
| slots3_nil : slots3 R [] [] []
| slots3_cons c s s' cs ss ss' : R c s s' -> slots3 R cs ss ss' ->
    slots3 R (c :: cs) (s :: ss) (s' :: ss').

Lemma slots3_app R c1 s1 l1 c2 s2 l2 : slots3 R c1 s1 l1 -> slots3 R c2 s2 l2 ->
  slots3 R (c1 ++ c2) (s1 ++ s2) (l1 ++ l2).
Proof. induction 1; cbn [app]; auto. intros; constructor; auto. Qed.

Lemma slots3_len R cs ss l : slots3 R cs ss l -> len l = len cs /\ len ss = len cs.
Proof. induction 1; cbn [List.length]; lia. Qed.

Lemma slots3_nth R cs ss l i c x : slots3 R cs ss l -> nth_error cs i = Some c ->
  nth_error ss i = Some x -> exists y, nth_error l i = Some y /\ R c x y.
Proof.
  intros H. revert i. induction H as [|c0 s0 s0' cs ss ss' H0 H IH]; intros [|i] Hc Hx; try discriminate.
  - injection Hc as ->. injection Hx as ->. exists s0'. auto.
  - apply IH; auto.
Qed.

Lemma slots3_zip {A} (R : comp ty -> option val -> option val -> Prop) (h : ty -> A) f cs : forall ss,
  len ss = len cs ->
  (forall i c s, nth_error cs i = Some c -> nth_error ss i = Some s -> R c s (f (c, h (cty c)) s)) ->
  slots3 R cs ss (zipw f (att h cs) ss).
Proof.
  induction cs as [|c cs IH]; intros [|s ss] L H; try discriminate; cbn [att map zipw]; constructor.
  - apply (H 0%nat); reflexivity.
  - apply IH; [cbn [List.length] in L; lia|]. intros i c' s' Hc Hs. apply (H (S i)); auto.
Qed.

Lemma slots3_same (R : comp ty -> option val -> option val -> Prop) cs : forall ss, len ss = len cs -> (forall c s, R c s s) -> slots3 R cs ss ss.
Proof.
  induction cs as [|c cs IH]; intros [|s ss] L H; try discriminate; constructor; auto.
Qed.

Lemma slots3_impl (R R' : comp ty -> option val -> option val -> Prop) cs ss l :
  (forall c s y, R c s y -> R' c s y) -> slots3 R cs ss l -> slots3 R' cs ss l.
Proof. intros H. induction 1; constructor; auto. Qed.

Definition slot_rel (c : comp ty) (x y : option val) : Prop :=
  y = x \/ exists w, y = Some w /\ woken (cty c) (slot_get c x) w.

Definition enc_wakes (t : ty) : Prop := forall v, formed t -> shaped t v -> woken t v (after_encode t v).

Definition ready_slot (c : comp ty) (s : option val) : Prop :=
  enc_wakes (cty c) /\ formed (cty c) /\ shaped (cty c) (slot_get c s).

Lemma enc_root_slot_rel c s : ready_slot c s -> slot_rel c s (enc_root_slot (c, after_encode (cty c)) s).
Proof.
  intros (E & F & Sh). unfold enc_root_slot. cbn [fst snd]. right.
  eexists. split; [reflexivity|]. destruct (cpres c) as [| |d].
  - now apply E.
  - destruct (present _ _); [now apply E|now apply woken_refl].
  - destruct (raw_ne d _) as [[|]|]; [now apply E|now apply woken_refl|now apply woken_refl].
Qed.

Lemma enc_groups_rel gs : forall ss, Forall2 ready_slot (List.concat gs) ss ->
  slots3 slot_rel (List.concat gs) ss (enc_groups_slots (map (att after_encode) gs) ss).
Proof.
  induction gs as [|g gs IH]; intros ss H; cbn [List.concat map enc_groups_slots] in *.
  - inversion H; constructor.
  - apply Forall2_app_l in H as (H1 & H2). rewrite att_length.
    replace ss with (firstn (len g) ss ++ skipn (len g) ss) at 1 by apply firstn_skipn.
    apply slots3_app; auto. unfold enc_group_slots.
    set (s1 := firstn (len g) ss) in *.
    assert (L : len s1 = len g) by (symmetry; exact (Forall2_length _ _ _ H1)).
    assert (Z : forall f : comp ty * (val -> val) -> option val -> option val,
       zipw f (att after_encode g) ss = zipw f (att after_encode g) s1).
    { intros f. rewrite <- (zipw_firstn f (att after_encode g) ss), att_length. reflexivity. }
    rewrite !Z. destruct (group_valued _ _).
    + apply slots3_zip; auto. intros i c s Hc Hs. apply enc_root_slot_rel.
      exact (Forall2_nth _ _ _ _ _ _ H1 Hc Hs).
    + apply slots3_zip; auto. intros i c s Hc Hs. cbn [fst].
      destruct (Forall2_nth _ _ _ _ _ _ H1 Hc Hs) as (_ & _ & Sh). right. eexists; split; [reflexivity|].
      now apply woken_refl.
Qed.

Lemma Forall2_of_nth {A B} (R : A -> B -> Prop) l : forall m, len l = len m ->
  (forall i a b, nth_error l i = Some a -> nth_error m i = Some b -> R a b) -> Forall2 R l m.
Proof.
  induction l as [|a l IH]; intros [|b m] L H; try discriminate; constructor.
  - apply (H 0%nat); reflexivity.
  - apply IH; [cbn [List.length] in L; lia|]. intros i a' b' Ha Hb. apply (H (S i)); auto.
Qed.

Definition seq_after (e : bool) (r a : list (comp ty)) (g : list (list (comp ty)))
    (s : option (list (option val))) : list (option val) :=
  let ss := slots_list (ncomps r a g) s in
  zipw enc_root_slot (att after_encode r) ss ++
  (if e then zipw enc_add_slot (att after_encode a) (skipn (len r) ss)
         ++ enc_groups_slots (map (att after_encode) g) (skipn (len a) (skipn (len r) ss))
   else skipn (len r) ss).

Lemma seq_after_rel e r a g s : Forall (fun c => enc_wakes (cty c)) (all_comps r a g) ->
  formed (TSeq e r a g) -> shaped (TSeq e r a g) (VSeq s) ->
  slots3 slot_rel (all_comps r a g) (slots_list (ncomps r a g) s) (seq_after e r a g s).
Proof.
  intros IH F Sh. pose proof Sh as Sh'. apply shaped_seq in Sh' as (L & _ & _). rewrite Forall_forall in IH.
  unfold seq_after. set (n := ncomps r a g) in *. set (ss := slots_list n s) in *.
  assert (R : Forall2 ready_slot (all_comps r a g) ss).
  { apply Forall2_of_nth; [now rewrite L|]. intros i c x Hc Hx. split; [apply IH; eapply nth_error_In; eauto|].
    eapply comp_found; eauto. }
  unfold all_comps in R. apply Forall2_app_l in R as (R1 & R2).
  unfold all_comps. rewrite <- (firstn_skipn (len r) ss) at 1. apply slots3_app.
  - rewrite <- (zipw_firstn enc_root_slot (att after_encode r) ss), att_length.
    apply slots3_zip; [symmetry; exact (Forall2_length _ _ _ R1)|].
    intros i c x Hc Hx. apply enc_root_slot_rel. exact (Forall2_nth _ _ _ _ _ _ R1 Hc Hx).
  - destruct e.
    + apply Forall2_app_l in R2 as (R2 & R3). set (s2 := skipn (len r) ss) in *.
      rewrite <- (firstn_skipn (len a) s2) at 1. apply slots3_app.
      * rewrite <- (zipw_firstn enc_add_slot (att after_encode a) s2), att_length.
        apply slots3_zip; [symmetry; exact (Forall2_length _ _ _ R2)|].
        intros i c x Hc Hx. destruct (Forall2_nth _ _ _ _ _ _ R2 Hc Hx) as (Ec & Fc & Sc).
        right. unfold enc_add_slot. cbn [fst snd]. eexists; split; [reflexivity|].
        destruct (present _ _); [now apply Ec|now apply woken_refl].
      * now apply enc_groups_rel.
    + apply slots3_same; [symmetry; exact (Forall2_length _ _ _ R2)|]. intros; now left.
Qed.

Lemma enc_wakes_all t : enc_wakes t.
Proof.
  induction t as [t S0|e r a g IH|c t IH|e r a g IH] using ty_ind2; intros v F Sh.
  - destruct t; try discriminate; destruct v; reflexivity.
  - destruct v as [ | | | | | |s| |]; try reflexivity. pose proof (seq_after_rel e r a g s IH F Sh) as S3.
    cbn [after_encode]. fold (seq_after e r a g s).
    apply woken_slots; auto; [apply slots3_len in S3; unfold ncomps; tauto|].
    intros i c x Hc Hx. destruct (slots3_nth _ _ _ _ _ _ _ S3 Hc Hx) as (y & Hy & [->|(w & -> & W)]); eauto.
  - destruct v as [ | | | | | | |l|]; try reflexivity. cbn [after_encode woken shaped formed] in *.
    apply all_of_map in Sh. induction Sh; constructor; auto.
  - destruct v as [ | | | | | | | |[(i, x)|]]; try reflexivity. cbn [after_encode].
    rewrite all_att, nth_error_att. apply shaped_choice in Sh.
    apply (fun H => formed_comps e r a g (or_intror H)) in F as (N & F). rewrite Forall_forall in F, IH.
    destruct (nth_error (all_comps r a g) i) as [c|] eqn:E; cbn [option_map].
    + apply woken_choice. rewrite E. split; auto. apply nth_error_In in E.
      destruct (F c E). apply IH; auto.
    + apply woken_choice. rewrite E. auto.
Qed.

(** * Encoding again *)

Lemma present_woken t v v' : shaped t v -> woken t v v' -> present t v = true -> present t v' = true.
Proof.
  intros Sh W P. rewrite present_eq in *. apply andb_true_iff in P as (V & C). apply andb_true_iff.
  split; [eapply woken_value; eauto|].
  destruct (woken_kind _ _ _ W) as [->|[(e & r & a & g & s & s' & -> & -> & ->)|[(c&t'&l&l'&->&->&->)|(e&r&a&g&i&x&y&->&->&->)]]]; auto.
  - apply shaped_seq in Sh as (L & Z & _). apply woken_seq in W as (W1 & W2 & W3 & _).
    destruct s' as [[|? ?]|]; auto.
    + cbn [slots_list List.length] in W3. rewrite L in W3. now rewrite <- (W2 (eq_sym W3)) in C.
    + now rewrite (W1 eq_refl) in C.
  - cbn [woken] in W. destruct W; auto.
Qed.

(** A mandatory component of an addition group that is sent is there, or cannot
    get a value by being read. *)
Definition settled (c : comp ty) (s : option val) : Prop :=
  is_mandatory c = true -> sleeps (cty c) = true \/ present (cty c) (slot_get c s) = true.

Definition filled_root (ca : comp ty * (val -> Prop)) (s : option val) : Prop :=
  let v := slot_get (fst ca) s in
  match cpres (fst ca) with
  | Mand => snd ca v
  | Opt => present (cty (fst ca)) v = true -> snd ca v
  | Dflt _ => True
  end.

Definition filled_add (ca : comp ty * (val -> Prop)) (s : option val) : Prop :=
  let v := slot_get (fst ca) s in present (cty (fst ca)) v = true -> snd ca v.

Definition filled_group (g : list (comp ty * (val -> Prop))) (ss : list (option val)) : Prop :=
  group_valued (map fst g) ss = true ->
  all_of (zipw filled_root g ss) /\ all_of (zipw settled (map fst g) ss).

Fixpoint filled_groups (gs : list (list (comp ty * (val -> Prop)))) (ss : list (option val)) : Prop :=
  match gs with
  | [] => True
  | g :: gs' => filled_group g ss /\ filled_groups gs' (skipn (List.length g) ss)
  end.

(** The groups are settled, in every part of the object that is sent. *)
Fixpoint filled (t : ty) (v : val) {struct t} : Prop :=
  match t, v with
  | TSeq ext root adds groups, VSeq slots =>
      let ss := slots_list (ncomps root adds groups) slots in
      all_of (zipw filled_root (att filled root) ss) /\
      all_of (zipw filled_add (att filled adds) (skipn (List.length root) ss)) /\
      filled_groups (map (att filled) groups) (skipn (List.length root + List.length adds) ss)
  | TSeqOf _ t', VSeqOf vs => all_of (map (filled t') vs)
  | TChoice _ root adds groups, VChoice (Some (i, v')) =>
      match nth_error (att filled root ++ att filled adds
                       ++ List.concat (map (att filled) groups)) i with
      | Some ca => snd ca v'
      | None => True
      end
  | _, _ => True
  end.

Lemma Forall2_cons_iff {A B} (R : A -> B -> Prop) a b l m :
  Forall2 R (a :: l) (b :: m) <-> R a b /\ Forall2 R l m.
Proof. split; [intros H; inversion H; auto|intros (H & K); now constructor]. Qed.

Definition again (t : ty) : Prop := forall v fs, formed t -> shaped t v -> filled t v ->
  enc t v = Ok fs -> enc t (after_encode t v) = Ok fs /\ reading t (after_encode t v) = reading t v.

Definition slot_fit (c : comp ty) (s : option val) : Prop :=
  again (cty c) /\ formed (cty c) /\ shaped (cty c) (slot_get c s).

Lemma slot_fit_wakes c s : slot_fit c s -> woken (cty c) (slot_get c s) (after_encode (cty c) (slot_get c s)).
Proof. intros (_ & F & Sh). now apply enc_wakes_all. Qed.

Ltac step H := match type of H with
  | bind ?x _ = Ok _ => let E := fresh "E" in destruct x eqn:E; [cbn [bind] in H|discriminate H]
  end.

(** A DEFAULT component that was compared is a simple object. *)
Lemma raw_ne_simple t d v b : shaped t v -> raw_ne d v = Ok b -> is_simple t = true.
Proof.
  intros Sh H. destruct t; auto; exfalso; destruct v as [ | | | | | | | |[(i, x)|]]; try contradiction Sh;
    destruct d; discriminate.
Qed.

Lemma after_simple t v : is_simple t = true -> after_encode t v = v.
Proof. destruct t; try discriminate; destruct v; reflexivity. Qed.

Lemma again_root look look' cs : forall ss bm fs,
  Forall2 slot_fit cs ss -> all_of (zipw filled_root (att filled cs) ss) ->
  Forall2 (looks look) cs ss -> Forall2 (looks look') cs (zipw enc_root_slot (att after_encode cs) ss) ->
  enc_root enc look cs = Ok (bm, fs) ->
  enc_root enc look' cs = Ok (bm, fs) /\
  zipw read_root (att reading cs) (zipw enc_root_slot (att after_encode cs) ss)
  = zipw read_root (att reading cs) ss.
Proof.
  induction cs as [|c cs IH]; intros ss bm fs H Fl Lk Lk' E.
  { cbn in *. split; auto. }
  inversion H as [|? s ? ss' Hc Hss]; subst. apply Forall2_cons_iff in Lk as (Lc & Lk).
  cbn [att map zipw] in Lk', Fl |- *. apply all_of_cons in Fl as (Fc & Fl).
  apply Forall2_cons_iff in Lk' as (Lc' & Lk'). fold (att after_encode cs) in *. fold (att reading cs). fold (att filled cs) in Fl.
  cbn [enc_root] in E |- *. fold (enc_root enc look) in E. fold (enc_root enc look').
  unfold looks in Lc, Lc'. rewrite Lc in E. rewrite Lc'. cbn [bind] in E |- *.
  step E. rename a into bf. step E. rename a into rr. injection E as <- <-.
  destruct rr as (bm', fs'). destruct (IH ss' bm' fs') as (IH1 & IH2); auto.
  rewrite IH1, IH2. clear IH IH1 IH2. pose proof (slot_fit_wakes _ _ Hc) as W.
  destruct Hc as (Ag & Fo & Sh). unfold filled_root in Fc. cbn [fst snd] in Fc.
  unfold read_root. cbn [fst snd]. unfold enc_root_slot. cbn [fst snd slot_get].
  destruct (cpres c) as [| |d] eqn:Pc.
  - step E0. destruct (Ag _ _ Fo Sh Fc E) as (A1 & A2). rewrite A1, A2. cbn [bind].
    injection E0 as <-. auto.
  - rewrite <- present_eq in *. destruct (present (cty c) (slot_get c s)) eqn:P.
    + step E0. destruct (Ag _ _ Fo Sh (Fc eq_refl) E) as (A1 & A2). rewrite A1, A2.
      rewrite (present_woken (cty c) (slot_get c s)) by auto. cbn [bind]. injection E0 as <-. auto.
    + rewrite P. injection E0 as <-. cbn [bind]. auto.
  - step E0. pose proof (raw_ne_simple _ _ _ _ Sh E) as Si. rewrite !(after_simple _ _ Si).
    destruct a; rewrite E; cbn [bind] in *; [rewrite E0; auto|injection E0 as <-; auto].
Qed.

Lemma again_adds look look' cs : forall ss prev bm fs,
  Forall2 slot_fit cs ss -> all_of (zipw filled_add (att filled cs) ss) ->
  Forall2 (looks look) cs ss -> Forall2 (looks look') cs (zipw enc_add_slot (att after_encode cs) ss) ->
  enc_adds enc look prev cs = Ok (bm, fs) ->
  enc_adds enc look' prev cs = Ok (bm, fs) /\
  zipw read_ext (att reading cs) (zipw enc_add_slot (att after_encode cs) ss)
  = zipw read_ext (att reading cs) ss.
Proof.
  induction cs as [|c cs IH]; intros ss prev bm fs H Fl Lk Lk' E.
  { cbn in *. split; auto. }
  inversion H as [|? s ? ss' Hc Hss]; subst. apply Forall2_cons_iff in Lk as (Lc & Lk).
  cbn [att map zipw] in Lk', Fl |- *. apply all_of_cons in Fl as (Fc & Fl).
  apply Forall2_cons_iff in Lk' as (Lc' & Lk'). fold (att after_encode cs) in *. fold (att reading cs). fold (att filled cs) in Fl.
  cbn [enc_adds] in E |- *. fold (enc_adds enc look) in E. fold (enc_adds enc look').
  unfold looks in Lc, Lc'. rewrite Lc in E. rewrite Lc'. cbn [bind] in E |- *.
  step E. rename a into bf. step E. rename a into rr. injection E as <- <-.
  destruct rr as (bm', fs'). destruct (IH ss' _ bm' fs' Hss Fl Lk Lk' E1) as (IH1 & IH2).
  rewrite IH2. clear IH IH2. pose proof (slot_fit_wakes _ _ Hc) as W.
  destruct Hc as (Ag & Fo & Sh). unfold filled_add in Fc. cbn [fst snd] in Fc.
  unfold read_ext at 1 3. cbn [fst snd]. unfold enc_add_slot. cbn [fst snd slot_get].
  destruct (present (cty c) (slot_get c s)) eqn:P.
  - pose proof (present_woken _ _ _ Sh W P) as P'. rewrite P'.
    rewrite present_eq in P, P'. apply andb_true_iff in P as (V & C). apply andb_true_iff in P' as (V' & C').
    rewrite V, C in E0. rewrite V', C'. destruct (prev_missing prev); [discriminate|].
    step E0. rename a into fc. destruct (Ag _ _ Fo Sh (Fc eq_refl) E) as (A1 & A2). rewrite A1, A2.
    cbn [bind]. rewrite E0. cbn [bind]. rewrite IH1. cbn [bind fst snd]. auto.
  - rewrite P. rewrite E0. cbn [bind]. rewrite IH1. auto.
Qed.

Lemma group_valued_cons c g s ss : group_valued (c :: g) (s :: ss) =
  present (cty c) (slot_get c s) || group_valued g ss.
Proof. reflexivity. Qed.

Lemma again_scan look look' cs : forall ss prev,
  Forall2 slot_fit cs ss -> all_of (zipw settled cs ss) ->
  Forall2 (looks look) cs ss -> Forall2 (looks look') cs (zipw enc_root_slot (att after_encode cs) ss) ->
  group_scan look' prev cs = group_scan look prev cs.
Proof.
  induction cs as [|c cs IH]; intros ss prev H Fl Lk Lk'; auto.
  inversion H as [|? s ? ss' Hc Hss]; subst. apply Forall2_cons_iff in Lk as (Lc & Lk).
  cbn [att map zipw] in Lk', Fl |- *. apply all_of_cons in Fl as (Fc & Fl).
  apply Forall2_cons_iff in Lk' as (Lc' & Lk'). fold (att after_encode cs) in *.
  cbn [group_scan]. fold (group_scan look). fold (group_scan look').
  unfold looks in Lc, Lc'. rewrite Lc, Lc'. cbn [bind]. pose proof (slot_fit_wakes _ _ Hc) as W.
  destruct Hc as (Ag & Fo & Sh). unfold enc_root_slot. cbn [fst snd slot_get].
  assert (G : forall v', is_value (cty c) v' = is_value (cty c) (slot_get c s) ->
    (is_value (cty c) (slot_get c s) = true -> comp_values_ok v' = comp_values_ok (slot_get c s)) ->
    (let* here :=
       if is_value (cty c) v' then
         match prev_missing prev with
         | Some nm => Err (MandatoryFieldNotPresentInExtensionGroup nm)
         | None => Ok (comp_values_ok v')
         end
       else Ok false in
     let* r := group_scan look' (Some (Prev (cname c) here (is_optional c))) cs in
     Ok (Prev (cname c) here (is_optional c) :: r)) =
    (let* here :=
       if is_value (cty c) (slot_get c s) then
         match prev_missing prev with
         | Some nm => Err (MandatoryFieldNotPresentInExtensionGroup nm)
         | None => Ok (comp_values_ok (slot_get c s))
         end
       else Ok false in
     let* r := group_scan look (Some (Prev (cname c) here (is_optional c))) cs in
     Ok (Prev (cname c) here (is_optional c) :: r))).
  { intros v' -> K. destruct (is_value (cty c) (slot_get c s)).
    - rewrite K by auto. destruct (prev_missing prev); auto. cbn [bind]. now rewrite (IH ss').
    - cbn [bind]. now rewrite (IH ss'). }
  assert (Pr : present (cty c) (slot_get c s) = true ->
     is_value (cty c) (after_encode (cty c) (slot_get c s)) = is_value (cty c) (slot_get c s) /\
     comp_values_ok (after_encode (cty c) (slot_get c s)) = comp_values_ok (slot_get c s)).
  { intros P. pose proof (present_woken _ _ _ Sh W P) as P'. rewrite present_eq in P, P'.
    apply andb_true_iff in P as (-> & ->). apply andb_true_iff in P' as (-> & ->). auto. }
  apply G; clear G; destruct (cpres c) as [| |d] eqn:Pc; auto.
  - destruct (Fc ltac:(unfold is_mandatory; now rewrite Pc)) as [S|P]; [now apply sleeping|now apply Pr].
  - destruct (present (cty c) (slot_get c s)) eqn:P; auto. now apply Pr.
  - destruct (raw_ne d _) as [[|]|] eqn:R; auto. pose proof (raw_ne_simple _ _ _ _ Sh R) as Si.
    now rewrite (after_simple _ _ Si).
  - intros V. destruct (Fc ltac:(unfold is_mandatory; now rewrite Pc)) as [S|P]; [|now apply Pr].
    apply (sleeping_cvo (cty c)); auto. eapply woken_shaped; eauto.
  - intros V. destruct (present (cty c) (slot_get c s)) eqn:P; auto. now apply Pr.
  - intros V. destruct (raw_ne d _) as [[|]|] eqn:R; auto. pose proof (raw_ne_simple _ _ _ _ Sh R) as Si.
    now rewrite (after_simple _ _ Si).
Qed.

(** Slots filled with what was found in them. *)
Lemma same_slots look look' cs : forall ss,
  Forall2 (looks look) cs ss ->
  Forall2 (looks look') cs (zipw (fun ca s => Some (slot_get (fst ca) s)) (att after_encode cs) ss) ->
  Forall (fun c => look' (cname c) = look (cname c)) cs.
Proof.
  induction cs as [|c cs IH]; intros ss L L'; [constructor|].
  inversion L as [|? s ? ss' Lc Ls]; subst. cbn [att map zipw] in L'. apply Forall2_cons_iff in L' as (Lc' & Ls').
  constructor; [|eapply IH; eauto]. unfold looks in *. rewrite Lc, Lc'. reflexivity.
Qed.

Lemma group_scan_look look look' cs : Forall (fun c : comp ty => look' (cname c) = look (cname c)) cs ->
  forall prev, group_scan look' prev cs = group_scan look prev cs.
Proof.
  induction 1 as [|c cs H _ IH]; intros prev; auto. cbn [group_scan]. fold (group_scan look). fold (group_scan look').
  rewrite H. destruct (look (cname c)) as [v|]; auto. cbn [bind].
  destruct (if is_value (cty c) v then _ else _); auto. cbn [bind]. now rewrite IH.
Qed.

Lemma group_after_len g ss : len ss = len g -> len (enc_group_slots (att after_encode g) ss) = len g.
Proof.
  intros L. unfold enc_group_slots. destruct (group_valued _ _); rewrite zipw_length; rewrite att_length; auto.
Qed.

Lemma group_valued_again g ss : Forall2 slot_fit g ss ->
  group_valued g (zipw enc_root_slot (att after_encode g) ss) = true \/ group_valued g ss = false.
Proof.
  intros H. induction H as [|c s g ss Hc H IH]; [now right|].
  cbn [att map zipw]. rewrite !group_valued_cons. unfold enc_root_slot at 1. cbn [fst snd slot_get].
  pose proof (slot_fit_wakes _ _ Hc) as W. destruct Hc as (_ & _ & Sh).
  destruct (present (cty c) (slot_get c s)) eqn:P.
  - left. apply orb_true_iff. left. destruct (cpres c) as [| |d].
    + eapply present_woken; eauto.
    + eapply present_woken; eauto.
    + destruct (raw_ne d _) as [[|]|]; auto. eapply present_woken; eauto.
  - cbn [orb]. fold (att after_encode g). destruct IH as [IH|IH]; rewrite IH; [left; apply orb_true_r|now right].
Qed.

Lemma filled_group_firstn g ss : filled_group (att filled g) ss -> filled_group (att filled g) (firstn (len g) ss).
Proof.
  unfold filled_group. rewrite att_fst.
  assert (E : group_valued g (firstn (len g) ss) = group_valued g ss) by (unfold group_valued; now rewrite zipw_firstn).
  rewrite E. intros H V. destruct (H V) as (A & B). split.
  - rewrite <- (zipw_firstn filled_root), att_length in A. exact A.
  - rewrite <- (zipw_firstn settled) in B. exact B.
Qed.

Lemma again_group look look' g ss : Forall2 slot_fit g ss -> filled_group (att filled g) ss ->
  Forall2 (looks look) g ss -> Forall2 (looks look') g (enc_group_slots (att after_encode g) ss) ->
  (forall prev, group_scan look' prev g = group_scan look prev g) /\
  (group_valued g ss = true -> forall bm fs, enc_root enc look g = Ok (bm, fs) ->
     enc_root enc look' g = Ok (bm, fs) /\
     read_group (att reading g) (enc_group_slots (att after_encode g) ss) = read_group (att reading g) ss) /\
  (group_valued g ss = false ->
     read_group (att reading g) (enc_group_slots (att after_encode g) ss) = read_group (att reading g) ss).
Proof.
  intros H Fl Lk Lk'. unfold enc_group_slots, filled_group, read_group in *. rewrite !att_fst in *.
  destruct (group_valued g ss) eqn:V.
  - destruct (Fl eq_refl) as (F1 & F2). split; [|split; [|discriminate]].
    + intros prev. eapply again_scan; eauto.
    + intros _ bm fs E. destruct (again_root _ _ _ _ _ _ H F1 Lk Lk' E) as (A1 & A2). split; auto.
      destruct (group_valued_again g ss H) as [->|]; congruence.
  - split; [|split; [discriminate|]].
    + intros prev. apply group_scan_look. eapply same_slots; eauto.
    + intros _. assert (E : group_valued g (zipw (fun ca s => Some (slot_get (fst ca) s)) (att after_encode g) ss)
                    = group_valued g ss).
      { clear -H. induction H as [|c s g ss _ _ IH]; auto. cbn [att map zipw]. rewrite !group_valued_cons.
        now rewrite <- IH. }
      now rewrite E, V.
Qed.

Lemma again_groups look look' gs : forall ss prevg bm fs,
  Forall2 slot_fit (List.concat gs) ss -> filled_groups (map (att filled) gs) ss ->
  Forall2 (looks look) (List.concat gs) ss ->
  Forall2 (looks look') (List.concat gs) (enc_groups_slots (map (att after_encode) gs) ss) ->
  enc_groups enc look prevg gs = Ok (bm, fs) ->
  enc_groups enc look' prevg gs = Ok (bm, fs) /\
  read_groups (map (att reading) gs) (enc_groups_slots (map (att after_encode) gs) ss)
  = read_groups (map (att reading) gs) ss.
Proof.
  induction gs as [|g gs IH]; intros ss prevg bm fs H Fl Lk Lk' E; auto.
  cbn [List.concat map enc_groups_slots filled_groups read_groups] in *. rewrite !att_length in *.
  apply Forall2_app_l in H as (H1 & H2). apply Forall2_app_l in Lk as (L1 & L2). destruct Fl as (F1 & F2).
  assert (EG : enc_group_slots (att after_encode g) ss = enc_group_slots (att after_encode g) (firstn (len g) ss)).
  { unfold enc_group_slots. rewrite att_fst.
    replace (group_valued g (firstn (len g) ss)) with (group_valued g ss)
      by (unfold group_valued; now rewrite zipw_firstn).
    rewrite <- (zipw_firstn enc_root_slot (att after_encode g) ss).
    rewrite <- (zipw_firstn (fun ca s => Some (slot_get (fst ca) s)) (att after_encode g) ss), att_length. reflexivity. }
  rewrite EG in *. clear EG. apply filled_group_firstn in F1.
  assert (RG : forall h : list (option val), read_group (att reading g) (firstn (len g) h) = read_group (att reading g) h).
  { intros h. unfold read_group. rewrite att_fst. unfold group_valued. rewrite zipw_firstn.
    now rewrite <- (zipw_firstn read_root (att reading g) h), att_length. }
  assert (L : len (firstn (len g) ss) = len g) by (symmetry; exact (Forall2_length _ _ _ H1)).
  pose proof (group_after_len g _ L) as Lg.
  set (new := enc_group_slots (att after_encode g) (firstn (len g) ss)) in *.
  set (old := firstn (len g) ss) in *.
  apply Forall2_app_l in Lk' as (L1' & L2'). rewrite (firstn_len_app new) in L1' by auto.
  rewrite (skipn_len_app new) in L2' by auto. rewrite (skipn_len_app new) by auto.
  rewrite <- (RG (new ++ _)), (firstn_len_app new) by auto. rewrite <- (RG ss). fold old.
  destruct (again_group look look' g old H1 F1 L1 L1') as (G1 & G2 & G3). fold new in G2, G3.
  cbn [enc_groups] in E |- *. fold (enc_groups enc look) in E. fold (enc_groups enc look').
  rewrite G1. step E. rename a into ps. step E. rename a into bf. step E. rename a into rr.
  injection E as <- <-. destruct rr as (bm', fs').
  destruct (IH _ _ _ _ H2 F2 L2 L2' E2) as (I1 & I2). rewrite I2. cbn [bind].
  pose proof (group_scan_present look g old None ps L1 E0) as Ps. rewrite Ps in E1.
  replace (group_sent g old) with (group_valued g old) in * by reflexivity. rewrite Ps.
  destruct (group_valued g old) eqn:V.
  - step E1. cbn [bind]. step E1. destruct a0 as (rb, rf). destruct (G2 eq_refl _ _ eq_refl) as (A1 & A2).
    rewrite A1, A2. cbn [bind]. rewrite E1. cbn [bind]. rewrite I1. auto.
  - rewrite (G3 eq_refl). injection E1 as <-. cbn [bind]. rewrite I1. auto.
Qed.

Lemma again_all t : again t.
Proof.
  induction t as [t S0|e r a g IH|c t IH|e r a g IH] using ty_ind2; intros v fs F Sh Fl E.
  - now rewrite after_simple.
  - destruct v as [ | | | | | |s| |]; try contradiction Sh.
    assert (EW : Forall (fun c => enc_wakes (cty c)) (all_comps r a g))
      by (apply Forall_forall; intros; apply enc_wakes_all).
    pose proof (slots3_len _ _ _ _ (seq_after_rel e r a g s EW F Sh)) as (L' & L). clear EW.
    cbn [after_encode filled] in *. fold (seq_after e r a g s). pose proof F as F2.
    apply (fun H => formed_comps e r a g (or_introl H)) in F2 as (N & _). rewrite Forall_forall in IH.
    pose proof (slots_after_list (ncomps r a g) _ L') as Hn.
    set (n := ncomps r a g) in *. set (ss := slots_list n s) in *. destruct Fl as (Fl1 & Fl2 & Fl3).
    set (new := slots_after (seq_after e r a g s)) in *.
    assert (R : Forall2 slot_fit (all_comps r a g) ss).
    { apply Forall2_of_nth; [now rewrite L|]. intros i c x Hc Hx. split; [apply IH; eapply nth_error_In; eauto|].
      eapply comp_found; eauto. }
    pose proof (looks_all _ s N L) as Lk.
    pose proof (looks_all _ new N ltac:(fold (ncomps r a g); fold n; rewrite Hn; exact L')) as Lk'.
    fold (ncomps r a g) in Lk, Lk'. fold n in Lk, Lk'. fold ss in Lk. rewrite Hn in Lk'.
    set (look := get_by_name (all_comps r a g) s) in *. set (look' := get_by_name (all_comps r a g) new) in *.
    cbn [reading enc] in *. fold n. fold ss. rewrite Hn. unfold encode_sequence in *. fold look in E. fold look'.
    unfold seq_after in Lk', L' |- *. fold n ss in Lk', L' |- *.
    set (l1 := zipw enc_root_slot (att after_encode r) ss) in *.
    unfold all_comps in R. apply Forall2_app_l in R as (R1 & R2). apply Forall2_app_l in R2 as (R2 & R3).
    unfold all_comps in Lk. apply Forall2_app_l in Lk as (K1 & K2). apply Forall2_app_l in K2 as (K2 & K3).
    assert (Ll1 : len l1 = len r).
    { unfold l1. rewrite zipw_len_le, att_length. apply Forall2_length in R1. rewrite firstn_length in R1. lia. }
    unfold all_comps in Lk'. apply Forall2_app_l in Lk' as (K1' & K2').
    rewrite (firstn_len_app l1) in K1' by auto. rewrite (skipn_len_app l1) in K2' by auto.
    rewrite (zipw_app_r read_root) by (rewrite att_length, Ll1; auto).
    rewrite !(skipn_len_app l1) by auto.
    assert (Z1 : l1 = zipw enc_root_slot (att after_encode r) (firstn (len r) ss))
      by (unfold l1; rewrite <- (zipw_firstn enc_root_slot), att_length; reflexivity).
    rewrite Z1 in K1'. rewrite <- (zipw_firstn filled_root), att_length in Fl1.
    step E. destruct a0 as (rb, rf).
    destruct (again_root _ _ _ _ _ _ R1 Fl1 K1 K1' E0) as (A1 & A2). rewrite A1. cbn [bind] in E |- *.
    rewrite <- Z1 in A2. rewrite A2. rewrite <- (zipw_firstn read_root (att reading r) ss), att_length.
    step E. rename a0 into rfs. cbn [bind].
    set (s2 := skipn (len r) ss) in *.
    assert (K4 : skipn (len r + len a) ss = skipn (len a) s2)
      by (unfold s2; rewrite skipn_skipn'; f_equal; lia).
    rewrite K4 in *. rewrite <- (zipw_firstn filled_add), att_length in Fl2.
    assert (Sk : forall x y : list (option val), len x = len a ->
       skipn (len r + len a) (l1 ++ x ++ y) = y).
    { intros x y Hx. rewrite app_assoc. apply skipn_len_app. rewrite app_length. lia. }
    destruct e.
    + set (l2 := zipw enc_add_slot (att after_encode a) s2) in *.
      assert (Ll2 : len l2 = len a).
      { unfold l2. rewrite zipw_len_le, att_length. apply Forall2_length in R2. rewrite firstn_length in R2. lia. }
      rewrite (Sk l2) by auto. rewrite (zipw_app_r read_ext) by (rewrite att_length, Ll2; auto).
      apply Forall2_app_l in K2' as (K2' & K3').
      rewrite (firstn_len_app l2) in K2' by auto. rewrite (skipn_len_app l2) in K3' by auto.
      assert (Z2 : l2 = zipw enc_add_slot (att after_encode a) (firstn (len a) s2))
        by (unfold l2; rewrite <- (zipw_firstn enc_add_slot), att_length; reflexivity).
      rewrite Z2 in K2'.
      destruct (isnil a && isnil g) eqn:Nil.
      * split; auto. apply andb_true_iff in Nil as (Na & Ng). destruct a; [|discriminate].
        destruct g; [|discriminate]. reflexivity.
      * step E. destruct a0 as (ab, af). step E. destruct a0 as (gb, gf).
        destruct (again_adds _ _ _ _ _ _ _ R2 Fl2 K2 K2' E2) as (B1 & B2).
        destruct (again_groups _ _ _ _ _ _ _ R3 Fl3 K3 K3' E3) as (C1 & C2).
        rewrite B1. cbn [bind]. rewrite C1. cbn [bind]. split; auto.
        rewrite <- Z2 in B2. rewrite B2, C2. rewrite <- (zipw_firstn read_ext (att reading a) s2), att_length.
        reflexivity.
    + rewrite E. split; auto. do 3 f_equal.
      replace (skipn (len r + len a) (l1 ++ s2)) with (skipn (len a) s2); auto.
      rewrite <- (firstn_skipn (len a) s2) at 2. symmetry. apply Sk.
      symmetry. exact (Forall2_length _ _ _ R2).
  - destruct v as [ | | | | | | |l|]; try contradiction Sh. cbn [after_encode enc reading shaped formed filled] in *.
    apply all_of_map in Sh, Fl. step E. rename a into body.
    assert (G : enc_list (enc t) (map (after_encode t) l) = Ok body /\
                map (reading t) (map (after_encode t) l) = map (reading t) l).
    { clear E. revert body E0. induction l as [|x l IHl]; intros body E; auto.
      apply Forall_cons_iff in Sh as (Sx & Sl). apply Forall_cons_iff in Fl as (Fx & Fll).
      cbn [enc_list map] in *. step E. step E. injection E as <-.
      destruct (IH x _ F Sx Fx E0) as (A1 & A2). destruct (IHl Sl Fll _ eq_refl) as (B1 & B2).
      rewrite A1, A2. cbn [bind]. rewrite B1, B2. auto. }
    destruct G as (G1 & G2). rewrite G1, G2. cbn [bind]. unfold zlen in *. rewrite map_length. auto.
  - destruct v as [ | | | | | | | |[(i, x)|]]; try contradiction Sh; [|discriminate].
    apply shaped_choice in Sh. cbn [after_encode reading filled enc] in *. rewrite all_att, nth_error_att in Fl. rewrite !all_att, !nth_error_att.
    assert (Ec : forall h : comp ty -> string * (val -> res (list field)),
       map h r ++ map h a ++ List.concat (map (map h) g) = map h (all_comps r a g)).
    { intros h. unfold all_comps. now rewrite !map_app, concat_map. }
    rewrite Ec, nth_error_map in *. clear Ec.
    apply (fun H => formed_comps e r a g (or_intror H)) in F as (N & F). rewrite Forall_forall in F, IH.
    destruct (nth_error (all_comps r a g) i) as [c|] eqn:Hc; [|discriminate].
    cbn [option_map fst snd] in *. pose proof (nth_error_In _ _ Hc) as Ic. destruct (F c Ic) as (Fc & _).
    step E. rename a0 into body. destruct (IH c Ic x body Fc Sh Fl E0) as (A1 & A2).
    rewrite nth_error_map, nth_error_att, Hc. cbn [option_map snd]. rewrite A1, A2. auto.
Qed.

(** ** What the object reads as *)

Definition same_read (t : ty) : Prop := forall v v', quiet t = true -> formed t -> shaped t v ->
  woken t v v' -> reading t v' = reading t v.

Definition slot_pair (c : comp ty) (s s' : option val) : Prop :=
  same_read (cty c) /\ formed (cty c) /\ shaped (cty c) (slot_get c s) /\
  woken (cty c) (slot_get c s) (slot_get c s').

Lemma sleeping_present t v v' : sleeps t = true -> formed t -> shaped t v -> woken t v v' ->
  present t v' = present t v.
Proof.
  intros S F Sh W. rewrite !present_eq, (sleeping t v v') by auto.
  destruct (is_value t v) eqn:V; auto. cbn [andb]. apply (sleeping_cvo t); auto. eapply woken_shaped; eauto.
Qed.

Lemma slots3_of_nth (R : comp ty -> option val -> option val -> Prop) cs : forall ss ss',
  len ss = len cs -> len ss' = len cs ->
  (forall i c s s', nth_error cs i = Some c -> nth_error ss i = Some s -> nth_error ss' i = Some s' -> R c s s') ->
  slots3 R cs ss ss'.
Proof.
  induction cs as [|c cs IH]; intros [|s ss] [|s' ss'] L L' H; try discriminate; constructor.
  - apply (H 0%nat); reflexivity.
  - apply IH; [cbn [List.length] in *; lia|cbn [List.length] in *; lia|].
    intros i c0 x y Hc Hx Hy. apply (H (S i)); auto.
Qed.

Lemma slots3_split R c1 c2 ss ss' : slots3 R (c1 ++ c2) ss ss' ->
  slots3 R c1 (firstn (len c1) ss) (firstn (len c1) ss') /\
  slots3 R c2 (skipn (len c1) ss) (skipn (len c1) ss').
Proof.
  revert ss ss'. induction c1 as [|c c1 IH]; intros ss ss' H; [split; [constructor|exact H]|].
  cbn [app] in H. inversion H as [|? s s' ? t t' Hc Ht]; subst. destruct (IH _ _ Ht) as (A & B).
  cbn [List.length firstn skipn]. split; auto. now constructor.
Qed.

Lemma read_root_same cs : Forall (fun c => (negb (is_optional c) || sleeps (cty c)) && quiet (cty c) = true) cs ->
  forall ss ss', slots3 slot_pair cs ss ss' ->
  zipw read_root (att reading cs) ss' = zipw read_root (att reading cs) ss.
Proof.
  intros Q ss ss' H. induction H as [|c s s' cs ss ss' (Rd & F & Sh & W) H IH]; auto.
  apply Forall_cons_iff in Q as (Qc & Q). apply andb_true_iff in Qc as (S & Qc).
  cbn [att map zipw]. unfold att in IH. rewrite IH by auto. f_equal.
  unfold read_root. cbn [fst snd]. rewrite (Rd _ _ Qc F Sh W).
  unfold is_optional in S. destruct (cpres c); auto. cbn [negb orb] in S.
  now rewrite (sleeping_present (cty c) (slot_get c s)).
Qed.

Lemma read_ext_same cs : Forall (fun c => sleeps (cty c) && quiet (cty c) = true) cs ->
  forall ss ss', slots3 slot_pair cs ss ss' ->
  zipw read_ext (att reading cs) ss' = zipw read_ext (att reading cs) ss /\
  group_valued cs ss' = group_valued cs ss.
Proof.
  intros Q ss ss' H. induction H as [|c s s' cs ss ss' (Rd & F & Sh & W) H IH]; auto.
  apply Forall_cons_iff in Q as (Qc & Q). apply andb_true_iff in Qc as (S & Qc).
  destruct (IH Q) as (I1 & I2). cbn [att map zipw]. unfold att in I1. rewrite !group_valued_cons, I1, I2.
  rewrite (sleeping_present (cty c) (slot_get c s)) by auto. split; auto. f_equal.
  unfold read_ext. cbn [fst snd]. rewrite (Rd _ _ Qc F Sh W).
  now rewrite (sleeping_present (cty c) (slot_get c s)).
Qed.

Lemma read_groups_same gs : Forall (fun c => sleeps (cty c) && quiet (cty c) = true) (List.concat gs) ->
  forall ss ss', slots3 slot_pair (List.concat gs) ss ss' ->
  read_groups (map (att reading) gs) ss' = read_groups (map (att reading) gs) ss.
Proof.
  induction gs as [|g gs IH]; intros Q ss ss' H; auto. cbn [List.concat map read_groups] in *.
  rewrite att_length. apply Forall_app in Q as (Q1 & Q2). apply slots3_split in H as (H1 & H2).
  rewrite (IH Q2 _ _ H2). f_equal. unfold read_group. rewrite att_fst.
  destruct (read_ext_same g Q1 _ _ H1) as (_ & V). assert (GV : forall h, group_valued g (firstn (len g) h) = group_valued g h)
    by (intros h; unfold group_valued; now rewrite zipw_firstn).
  rewrite !GV in V. rewrite V. destruct (group_valued g ss); auto.
  rewrite <- (zipw_firstn read_root (att reading g) ss'), <- (zipw_firstn read_root (att reading g) ss), att_length.
  apply read_root_same; auto. eapply Forall_impl; [|exact Q1]. cbn beta. intros c K.
  apply andb_true_iff in K as (-> & ->). now rewrite orb_true_r.
Qed.

Lemma reading_woken t : same_read t.
Proof.
  induction t as [t S0|e r a g IH|c t IH|e r a g IH] using ty_ind2; intros v v' Q F Sh W.
  - apply woken_simple in W; auto. now subst.
  - destruct (woken_kind _ _ _ W) as [->|[(e' & r' & a' & g' & s & s' & E & -> & ->)|[(?&?&?&?&E&_)|(?&?&?&?&?&?&?&E&_)]]];
      auto; try discriminate. clear E e' r' a' g'.
    cbn [quiet] in Q. apply andb_true_iff in Q as (Q & Q3). apply andb_true_iff in Q as (Q1 & Q2).
    pose proof (proj1 (forallb_all _ r [] []) ltac:(cbn [forallb]; rewrite !andb_true_r; exact Q1)) as Q1'.
    cbn [List.concat app] in Q1'. rewrite app_nil_r in Q1'.
    pose proof (proj1 (forallb_all _ [] a []) ltac:(cbn [forallb]; rewrite !andb_true_r; exact Q2)) as Q2'.
    cbn [List.concat app] in Q2'. rewrite app_nil_r in Q2'.
    pose proof (proj1 (forallb_all _ [] [] g) Q3) as Q3'. cbn [app] in Q3'. cbv beta in Q1', Q2', Q3'.
    rewrite Forall_forall in IH. pose proof Sh as Sh0. apply shaped_seq in Sh0 as (L & _ & _).
    apply woken_seq in W as (_ & _ & W3 & W). set (n := ncomps r a g) in *.
    assert (S3 : slots3 slot_pair (all_comps r a g) (slots_list n s) (slots_list n s')).
    { apply slots3_of_nth; [exact L|rewrite W3; exact L|]. intros i c x y Hc Hx Hy.
      destruct (comp_found _ _ _ _ _ _ _ _ F Sh Hc Hx) as (Fc & Sc).
      split; [apply IH; eapply nth_error_In; eauto|]. repeat split; auto.
      specialize (W i c x y Hc Hx Hy). destruct y as [w|]; [exact W|]. subst x. now apply woken_refl. }
    cbn [reading]. fold n. apply slots3_split in S3 as (S1 & S3). apply slots3_split in S3 as (S2 & S3).
    rewrite !skipn_skipn' in S3.
    rewrite <- (read_groups_same g Q3' _ _ S3).
    destruct (read_ext_same a Q2' _ _ S2) as (E2 & _).
    rewrite <- !(zipw_firstn read_ext (att reading a) (skipn _ _)), att_length, E2.
    pose proof (read_root_same r Q1' _ _ S1) as E1.
    rewrite <- (zipw_firstn read_root (att reading r) (slots_list n s')),
            <- (zipw_firstn read_root (att reading r) (slots_list n s)), att_length, E1. reflexivity.
  - destruct (woken_kind _ _ _ W) as [->|[(?&?&?&?&?&?&E&_)|[(c'&t''&l&l'&E&->&->)|(?&?&?&?&?&?&?&E&_)]]];
      auto; try discriminate. clear E c' t''. cbn [shaped woken formed quiet reading] in *. apply all_of_map in Sh.
    f_equal. induction W as [|x y l l' H _ IHl]; auto. apply Forall_cons_iff in Sh as (Sx & Sl).
    cbn [map]. f_equal; auto.
  - destruct (woken_kind _ _ _ W) as [->|[(?&?&?&?&?&?&E&_)|[(?&?&?&?&E&_)|(e'&r'&a'&g'&i&x&y&E&->&->)]]];
      auto; try discriminate. clear E e' r' a' g'. apply woken_choice in W as (_ & W).
    apply (fun H => formed_comps e r a g (or_intror H)) in F as (N & F). rewrite Forall_forall in F.
    apply shaped_choice in Sh. apply quiet_choice in Q. rewrite Forall_forall in Q, IH. cbn [reading].
    rewrite !all_att, !nth_error_att. destruct (nth_error (all_comps r a g) i) as [c|] eqn:Ec; auto.
    cbn [option_map snd]. apply nth_error_In in Ec. destruct (F c Ec).
    rewrite (IH c Ec x y); auto.
Qed.

(** * C28 and C29 *)

(** A call that touches a message object, or an object inside it. *)
Inductive call : ty -> val -> val -> Prop :=
| call_encode t v : call t v (after_encode t v)
| call_to_dict t v : call t v (after_to_dict t v)
| call_read t i v : own_part t i v = true -> call t v (after_read t i v)
| call_component e r a g ss i c x x' : nth_error (all_comps r a g) i = Some c ->
    nth_error ss i = Some (Some x) -> call (cty c) x x' ->
    call (TSeq e r a g) (VSeq (Some ss)) (VSeq (Some (update i (Some x') ss)))
| call_element c t l i x x' : nth_error l i = Some x -> call t x x' ->
    call (TSeqOf c t) (VSeqOf l) (VSeqOf (update i x' l))
| call_chosen e r a g i c x x' : nth_error (all_comps r a g) i = Some c -> call (cty c) x x' ->
    call (TChoice e r a g) (VChoice (Some (i, x))) (VChoice (Some (i, x'))).

Definition calls (t : ty) : val -> val -> Prop := clos_refl_trans_1n val (call t).

Lemma update_len {A} (l : list A) : forall i y, len (update i y l) = len l.
Proof. induction l; intros [|j] y; cbn [update List.length]; auto. Qed.

Lemma update_nth {A} (l : list A) : forall i y j, nth_error (update i y l) j =
  if (i =? j)%nat then (match nth_error l j with Some _ => Some y | None => None end) else nth_error l j.
Proof.
  induction l as [|b l IHl]; intros [|k] y [|j]; cbn [update nth_error Nat.eqb]; auto.
  now destruct (k =? j)%nat.
Qed.

Lemma call_woken t v v' : call t v v' -> formed t -> shaped t v -> woken t v v'.
Proof.
  induction 1 as [t v|t v|t i v|e r a g ss i c x x' Hc Hx H IH|c t l i x x' Hx H IH|e r a g i c x x' Hc H IH];
    intros F Sh.
  - now apply enc_wakes_all.
  - now apply to_dict_woken.
  - now apply read_woken.
  - assert (E : Some (update i (Some x') ss) = slots_after (update i (Some x') ss)).
    { destruct ss as [|y ss]; [destruct i; discriminate|]. destruct i; reflexivity. }
    rewrite E. pose proof Sh as Sh0. apply shaped_seq in Sh0 as (L & Z & S). cbn [slots_list] in *.
    apply woken_slots; auto; [now rewrite update_len|]. cbn [slots_list].
    intros j c' y Hc' Hy. rewrite update_nth, Hy. destruct (i =? j)%nat eqn:Eij; auto.
    apply Nat.eqb_eq in Eij. subst j. rewrite Hc in Hc'. rewrite Hx in Hy.
    injection Hc' as <-. injection Hy as <-. right. exists x'. split; auto. cbn [slot_get].
    destruct (comp_found _ _ _ _ (Some ss) _ _ _ F Sh Hc Hx) as (Fc & Sc). now apply IH.
  - cbn [shaped woken formed] in *. apply all_of_map in Sh. revert i Hx.
    induction Sh as [|y l Hy Hl IHl]; intros [|i] Hx; cbn [nth_error update] in *; try discriminate.
    + injection Hx as ->. constructor; auto. clear -Hl. induction Hl; constructor; auto using woken_refl.
    + constructor; auto using woken_refl.
  - apply shaped_choice in Sh. apply woken_choice. rewrite Hc in *. split; auto.
    apply (fun H => formed_comps e r a g (or_intror H)) in F as (_ & F). rewrite Forall_forall in F.
    destruct (F c (nth_error_In _ _ Hc)). auto.
Qed.

(** Full claim (C29): reading a message, in any way and at any depth, does not
    change what encode returns.  Proved for types in which every component of
    optional presence (OPTIONAL, additions, components of addition groups) is of
    a [sleeps] type: no SEQUENCE there whose components may all be absent or
    defaulted.  Without that it is false: C29_empty_sequence_refuted and
    C29_default_refuted.  Errors are preserved too. *)
Theorem C29_reading_partial : forall t v v',
  quiet t = true -> formed t -> shaped t v -> calls t v v' ->
  encode t v' = encode t v /\ reading t v' = reading t v.
Proof.
  intros t v v' Q F Sh H. unfold encode.
  enough (G : enc t v' = enc t v /\ reading t v' = reading t v) by (destruct G as (-> & ->); auto).
  induction H as [v|v w v' H _ IH]; auto. pose proof (call_woken _ _ _ H F Sh) as W.
  destruct (IH (woken_shaped _ _ _ F Sh W)) as (I1 & I2). rewrite I1, I2.
  rewrite (enc_woken t v w), (reading_woken t v w); auto.
Qed.

(** The same for every state of instantiation, however it came about. *)
Theorem C29_instantiated_partial : forall t v v',
  quiet t = true -> formed t -> shaped t v -> woken t v v' ->
  encode t v' = encode t v /\ reading t v' = reading t v.
Proof.
  intros t v v' Q F Sh W. unfold encode. rewrite (enc_woken t v v'), (reading_woken t v v'); auto.
Qed.

(** Full claim (C28): encoding the same object twice gives the same octets and
    encode does not change what the object reads as.  Proved for every type
    provided that the mandatory components of the addition groups sent are
    present (or of a sleeping type); C28_second_encode_refuted is what happens
    otherwise. *)
Theorem C28_repeatable_partial : forall t v bs,
  formed t -> shaped t v -> filled t v -> encode t v = Ok bs ->
  encode t (after_encode t v) = Ok bs /\ reading t (after_encode t v) = reading t v.
Proof.
  intros t v bs F Sh Fl E. unfold encode in *. step E.
  destruct (again_all t v _ F Sh Fl E0) as (-> & ->). auto.
Qed.

(** On quiet types the second call also fails when the first one failed, in the
    same way, even after a partial instantiation. *)
Theorem C28_quiet_partial : forall t v,
  quiet t = true -> formed t -> shaped t v ->
  encode t (after_encode t v) = encode t v /\ reading t (after_encode t v) = reading t v.
Proof.
  intros t v Q F Sh. apply C29_reading_partial; auto.
  eapply Relation_Operators.rt1n_trans; [apply call_encode|apply rt1n_refl].
Qed.

Open Scope string_scope.
Open Scope list_scope.
Open Scope Z_scope.

(** A message with an absent OPTIONAL SEQUENCE, a DEFAULT component left alone, a
    SEQUENCE OF and an addition group whose last component is absent. *)
Definition C28_ty : ty :=
  TSeq true
    [Comp "id" Mand (TInt (CRange false (Some 0) (Some 255)));
     Comp "d" (Dflt (VInt 5)) (TInt CNone);
     Comp "s" Opt (TSeq false [Comp "m" Mand (TInt CNone); Comp "o" Opt TBool] [] []);
     Comp "l" Mand (TSeqOf (CSeqSize false (Some 0) (Some 3)) TBool)]
    [Comp "x" Mand TBool]
    [[Comp "y" Mand (TOcts CNone);
      Comp "z" Opt (TSeq false [Comp "q" Mand TBool] [] [])]].

Definition C28_val : val :=
  VSeq (Some [Some (VInt 7); None; None; Some (VSeqOf [VBool true; VBool false]);
              Some (VBool true); Some (VOcts [171]); None]).

(** Closes the well-formedness conditions of a concrete type or object. *)
Ltac concrete :=
  repeat match goal with
  | |- _ /\ _ => split
  | |- all_of [] => apply all_of_nil
  | |- all_of (_ :: _) => apply all_of_cons
  | |- NoDup [] => constructor
  | |- NoDup (_ :: _) => constructor; [cbn [In]; intuition discriminate|]
  | |- True => exact I
  | |- _ = _ \/ _ => first [left; reflexivity | right]
  | |- _ => progress intros
  | |- _ = _ => first [reflexivity | discriminate]
  end.

Example C28_case :
  formed C28_ty /\ shaped C28_ty C28_val /\ filled C28_ty C28_val /\ quiet C28_ty = true /\
  encode C28_ty C28_val = Ok [128; 7; 160; 56; 1; 128; 3; 0; 1; 171] /\
  after_encode C28_ty C28_val <> C28_val /\
  encode C28_ty (after_encode C28_ty C28_val) = encode C28_ty C28_val.
Proof.
  split; [cbv -[all_of]; concrete|].
  split; [cbv -[all_of]; concrete|].
  split; [cbv -[all_of]; concrete|].
  split; [reflexivity|]. split; [vm_compute; reflexivity|]. split; [discriminate|vm_compute; reflexivity].
Qed.

(** An addition group of which only the first component is set: encoding it
    instantiates the SEQUENCE y, which then has a value, while the SEQUENCE OF p
    in between has none.  The second call raises. *)
Theorem C28_second_encode_refuted : exists t v bs,
  formed t /\ shaped t v /\ encode t v = Ok bs /\
  encode t (after_encode t v) = Err (MandatoryFieldNotPresentInExtensionGroup "p") /\
  reading t (after_encode t v) = reading t v.
Proof.
  exists (TSeq true [] []
    [[Comp "x" Mand TBool;
      Comp "p" Mand (TSeqOf (CSeqSize false (Some 0) None) TBool);
      Comp "y" Mand (TSeq false [Comp "q" Mand (TSeq false [Comp "o" Opt TBool] [] [])] [] [])]]),
    (VSeq (Some [Some (VBool true); None; None])), [128; 128; 3; 128; 0; 0].
  split; [cbv -[all_of]; concrete|]. split; [cbv -[all_of]; concrete|].
  split; [vm_compute; reflexivity|]. split; vm_compute; reflexivity.
Qed.

Definition C29_ty : ty :=
  TSeq false [Comp "s" Opt (TSeq false [Comp "o" Opt TBool] [] []); Comp "b" Mand TBool] [] [].

Definition C29_val : val := VSeq (Some [None; Some (VBool true)]).

(** Printing a message whose OPTIONAL SEQUENCE is absent makes the SEQUENCE
    present, when all its components may be absent; so does reading one of its
    components. *)
Theorem C29_empty_sequence_refuted : exists t v,
  formed t /\ shaped t v /\ encode t v = Ok [64] /\
  encode t (after_to_dict t v) = Ok [160] /\
  exists v', calls t v v' /\ encode t v' = Ok [160] /\
             to_dict t true v' = to_dict t true v.
Proof.
  exists C29_ty, C29_val.
  split; [cbv -[all_of]; concrete|]. split; [cbv -[all_of]; concrete|].
  split; [vm_compute; reflexivity|]. split; [vm_compute; reflexivity|].
  eexists. split.
  - eapply Relation_Operators.rt1n_trans; [apply (call_read C29_ty 0); reflexivity|].
    eapply Relation_Operators.rt1n_trans; [|apply rt1n_refl].
    eapply (call_component false _ _ _ _ 0); [reflexivity|reflexivity|]. apply (call_read _ 0). reflexivity.
  - split; vm_compute; reflexivity.
Qed.

(** An absent OPTIONAL SEQUENCE with a DEFAULT component gets a value by being
    printed; the next encode asks for its mandatory component. *)
Theorem C29_default_refuted : exists t v bs,
  formed t /\ shaped t v /\ encode t v = Ok bs /\
  encode t (after_to_dict t v) = Err PyAsn1Error.
Proof.
  exists (TSeq false [Comp "s" Opt (TSeq false [Comp "m" Mand (TInt CNone); Comp "d" (Dflt (VInt 5)) (TInt CNone)] [] []);
                      Comp "b" Mand TBool] [] []),
    (VSeq (Some [None; Some (VBool true)])), [64].
  split; [cbv -[all_of]; concrete|]. split; [cbv -[all_of]; concrete|].
  split; vm_compute; reflexivity.
Qed.

(** Asking a CHOICE for an alternative that is not the selected one drops the
    selected one: the message cannot be encoded any more; asked for an alternative
    that needs nothing to be encoded, it is another message. *)
Theorem C29_alternative_refuted : exists t v,
  formed t /\ shaped t v /\ quiet t = true /\ encode t v = Ok [32] /\
  to_dict t true v = Ok (DDict [("a", DBool true)]) /\
  encode t (after_read t 1 v) = Err PyAsn1Error /\
  encode t (after_read t 2 v) = Ok [128].
Proof.
  exists (TChoice false [Comp "a" Mand TBool; Comp "b" Mand (TInt CNone); Comp "c" Mand (TSeq false [Comp "o" Opt TBool] [] [])] [] []),
    (VChoice (Some (0%nat, VBool true))).
  split; [cbv -[all_of]; concrete|]. split; [cbv -[all_of]; concrete|]. repeat split; vm_compute; reflexivity.
Qed.

(** The type of C28_case is quiet; three calls, one of them inside the message. *)
Example C29_case : exists v', calls C28_ty C28_val v' /\ v' <> C28_val /\
  encode C28_ty v' = Ok [128; 7; 160; 56; 1; 128; 3; 0; 1; 171].
Proof.
  eexists. split.
  - eapply Relation_Operators.rt1n_trans; [apply (call_read C28_ty 2); reflexivity|].
    eapply Relation_Operators.rt1n_trans.
    { eapply (call_component true _ _ _ _ 2); [reflexivity|reflexivity|]. apply call_to_dict. }
    eapply Relation_Operators.rt1n_trans; [apply call_to_dict|apply rt1n_refl].
  - split; [discriminate|vm_compute; reflexivity].
Qed.
