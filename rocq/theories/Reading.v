(** What the decoder delivers reads like what was encoded; the round trip of a
    whole message. *)
From Coq Require Import ZArith List String Bool Lia Arith.
From Coq Require Import ZifyBool ZifyNat ZifyN.
Import ListNotations.
From Verif Require Import PyBase Schema Encoder Decoder BitFacts Stream Prims Spec SimpleTypes RoundTrip.
Open Scope Z_scope.

(** ** isValue of a SEQUENCE, as two list functions *)
Definition slot_value (c : comp ty) (s : option val) : bool :=
  match s with Some v' => is_value (cty c) v' | None => false end.

Definition seq_mand : list (option val) -> list (comp ty) -> bool :=
  fix mand ss cs :=
    match ss, cs with
    | s :: ss', c :: cs' => (negb (is_mandatory c) || slot_value c s) && mand ss' cs'
    | [], cs => forallb (fun c => negb (is_mandatory c)) cs
    | _, [] => true
    end.

Definition seq_any : list (option val) -> list (comp ty) -> bool :=
  fix any ss cs :=
    match ss, cs with
    | s :: ss', c :: cs' => slot_value c s || any ss' cs'
    | _, _ => false
    end.

Lemma is_value_seq t slots : is_value t (VSeq (Some slots)) =
  seq_mand slots (comps_of t) || seq_any slots (comps_of t).
Proof. reflexivity. Qed.

Lemma seq_any_app s1 s2 c1 c2 : len s1 = len c1 ->
  seq_any (s1 ++ s2) (c1 ++ c2) = seq_any s1 c1 || seq_any s2 c2.
Proof.
  revert c1. induction s1 as [|s s1 IH]; intros [|c c1] H; cbn [List.length] in H; try lia; [reflexivity|].
  cbn [app seq_any]. fold seq_any. rewrite IH by lia. now rewrite orb_assoc.
Qed.

Lemma seq_mand_app s1 s2 c1 c2 : len s1 = len c1 ->
  seq_mand (s1 ++ s2) (c1 ++ c2) = seq_mand s1 c1 && seq_mand s2 c2.
Proof.
  revert c1. induction s1 as [|s s1 IH]; intros [|c c1] H; cbn [List.length] in H; try lia; [reflexivity|].
  cbn [app seq_mand]. fold seq_mand. rewrite IH by lia. now rewrite andb_assoc.
Qed.

Lemma slots_of_value t os : seq_any os (comps_of t) = true -> present t (VSeq (slots_of os)) = true.
Proof.
  intros H. unfold slots_of. destruct (forallb is_none os) eqn:N.
  - exfalso. apply forallb_none_repeat in N. rewrite N in H. clear N.
    generalize dependent (comps_of t). induction (len os) as [|n IH]; intros cs H; [discriminate|].
    destruct cs as [|c cs]; [discriminate|]. cbn [repeat seq_any] in H. fold seq_any in H.
    cbn [slot_value orb] in H. eapply IH; eauto.
  - unfold present. rewrite is_value_seq, H, orb_true_r. destruct os; [discriminate|reflexivity].
Qed.

(** ** Presence is judged alike before and after *)

Section Kept.
Context {kept : constr -> list Z -> Prop} {shift : constr -> list Z -> list Z}.
Local Notation supported := (supported_by kept).
Local Notation canon := (canon_by shift).

Definition keeps_value_by (t : ty) : Prop :=
  forall v fs, supported t v -> enc t v = Ok fs -> contentful t v -> present t (canon t v) = true.
Local Notation keeps_value := keeps_value_by.

(** What supported, encoded components look like in a SEQUENCE. *)
Lemma enc_root_inv look cs ss bm fs : Forall2 (looks look) cs ss -> enc_root enc look cs = Ok (bm, fs) ->
  Forall2 (fun c s => (forall d, cpres c = Dflt d -> exists b, raw_ne d (slot_get c s) = Ok b) /\
                      (sent_root c (slot_get c s) = true -> exists f, enc (cty c) (slot_get c s) = Ok f))
          cs ss.
Proof.
  intros H. revert bm fs. induction H as [|c s cs ss Hl H IH]; intros bm fs E; [constructor|].
  cbn [enc_root] in E. rewrite Hl in E. cbn [bind] in E.
  match type of E with bind ?x _ = _ => destruct x as [bf|] eqn:EX; [|discriminate] end.
  cbn [bind] in E. destruct (enc_root enc look cs) as [[b2 f2]|] eqn:E2; [|discriminate].
  constructor; [|eauto]. unfold sent_root. destruct (cpres c) as [| |d].
  - split; [discriminate|]. destruct (enc (cty c) (slot_get c s)); [eauto|discriminate].
  - split; [discriminate|]. intros V. rewrite <- present_eq, V in EX.
    destruct (enc (cty c) (slot_get c s)); [eauto|discriminate].
  - destruct (raw_ne d (slot_get c s)) as [b|] eqn:N; [|discriminate]. split.
    + intros d' [= <-]. eauto.
    + intros ->. cbn [bind] in EX. destruct (enc (cty c) (slot_get c s)); [eauto|discriminate].
Qed.

Lemma enc_adds_inv look cs ss prev bm fs : Forall2 (looks look) cs ss -> enc_adds enc look prev cs = Ok (bm, fs) ->
  Forall2 (fun c s => sent_add c (slot_get c s) = true -> exists f, enc (cty c) (slot_get c s) = Ok f) cs ss.
Proof.
  intros H. revert prev bm fs. induction H as [|c s cs ss Hl H IH]; intros prev bm fs E; [constructor|].
  cbn [enc_adds] in E. rewrite Hl in E. cbn [bind] in E.
  match type of E with bind ?x _ = _ => destruct x as [bf|] eqn:EX; [|discriminate] end.
  cbn [bind] in E. destruct (enc_adds enc look _ cs) as [[b2 f2]|] eqn:E2; [|discriminate].
  constructor; [|eauto]. unfold sent_add. rewrite present_eq. intros V. apply andb_true_iff in V as (V1 & V2).
  rewrite V1, V2 in EX. destruct (prev_missing prev); [discriminate|].
  destruct (enc (cty c) (slot_get c s)); [eauto|discriminate].
Qed.

Lemma default_decided d v b : default_ok d v -> raw_ne d v = Ok b -> (b = false <-> v = d).
Proof.
  intros D E. split.
  - intros ->. destruct D as [D|(D & DB)]; auto. exfalso.
    destruct d, v; cbn [raw_ne] in E; try discriminate; injection E as E; apply negb_false_iff in E.
    + apply Bool.eqb_prop in E. congruence.
    + apply Z.eqb_eq in E. congruence.
    + apply Z.eqb_eq in E. congruence.
    + apply Z.eqb_eq in E. apply (DB s s0); auto.
    + destruct (list_eq_dec Z.eq_dec bs bs0); congruence.
  - intros ->. eapply raw_ne_refl; eauto.
Qed.

(** ** A supported SEQUENCE that encodes, taken apart *)

Definition comp_inv_by (c : comp ty) (s : option val) : Prop :=
  supp_root (c, supported (cty c)) s /\
  (forall d, cpres c = Dflt d -> exists b, raw_ne d (slot_get c s) = Ok b) /\
  (sent_root c (slot_get c s) = true -> exists f, enc (cty c) (slot_get c s) = Ok f).
Local Notation comp_inv := comp_inv_by.

Definition add_inv_by (c : comp ty) (s : option val) : Prop :=
  supp_add (c, supported (cty c)) s /\
  (sent_add c (slot_get c s) = true -> exists f, enc (cty c) (slot_get c s) = Ok f).
Local Notation add_inv := add_inv_by.

Definition group_inv_by (g : list (comp ty)) (ss : list (option val)) : Prop :=
  len g = len ss /\
  Forall2 (fun c s => is_defaulted c = true -> present (cty c) (slot_get c s) = true) g ss /\
  (group_valued g ss = true ->
   Forall2 (fun c s => comp_inv c s /\
      (present (cty c) (slot_get c s) = true -> contentful (cty c) (slot_get c s))) g ss).
Local Notation group_inv := group_inv_by.

Lemma Forall2_all_of (f : comp ty -> option val -> Prop) cs ss : len cs = len ss ->
  all_of (zipw f cs ss) -> Forall2 f cs ss.
Proof.
  revert ss. induction cs as [|c cs IH]; intros [|s ss] L H; cbn [List.length] in L; try lia; constructor.
  - cbn [zipw] in H. apply all_of_cons in H. tauto.
  - apply IH; [lia|]. cbn [zipw] in H. apply all_of_cons in H. tauto.
Qed.

Lemma zipw_att {A C} (f : comp ty * A -> option val -> C) (h : ty -> A) cs ss :
  zipw f (att h cs) ss = zipw (fun c s => f (c, h (cty c)) s) cs ss.
Proof.
  revert ss. induction cs as [|c cs IH]; intros [|s ss]; try reflexivity.
  cbn [att map zipw]. fold (att h cs). now rewrite IH.
Qed.

Lemma Forall2_and {A B} (P Q : A -> B -> Prop) l m : Forall2 P l m -> Forall2 Q l m ->
  Forall2 (fun a b => P a b /\ Q a b) l m.
Proof. induction 1; intros H'; inversion H'; subst; constructor; auto. Qed.

Lemma Forall2_impl' {A B} (P Q : A -> B -> Prop) l m : (forall a b, P a b -> Q a b) ->
  Forall2 P l m -> Forall2 Q l m.
Proof. intros H. induction 1; constructor; auto. Qed.

Lemma group_valued_sent g ss : len g = len ss ->
  Forall2 (fun c s => present (cty c) (slot_get c s) = true -> contentful (cty c) (slot_get c s)) g ss ->
  group_valued g ss = true -> group_sent g ss = true.
Proof.
  intros _ H. induction H as [|c s g ss Hc H IH]; [discriminate|].
  unfold group_valued, group_sent. cbn [zipw existsb]. intros V.
  apply orb_true_iff in V as [V|V]; apply orb_true_iff.
  - left. exact V.
  - right. now apply IH.
Qed.

Lemma groups_inv look gs : forall ss prevg bm fs,
  Forall2 (looks look) (List.concat gs) ss ->
  supp_groups (map (att supported) gs) ss ->
  enc_groups enc look prevg gs = Ok (bm, fs) ->
  exists sgs, ss = List.concat sgs /\ Forall2 group_inv gs sgs.
Proof.
  induction gs as [|g gs IH]; intros ss prevg bm fs HL HS E.
  - inversion HL; subst. exists []. split; [reflexivity|constructor].
  - cbn [List.concat] in HL. apply Forall2_app_inv_l in HL as (s1 & s2 & HL1 & HL2 & ->).
    pose proof (Forall2_length _ _ _ HL1) as L1.
    cbn [map supp_groups] in HS. rewrite att_length, skipn_len_app in HS by auto.
    destruct HS as (HS1 & HS2). cbn [enc_groups] in E.
    destruct (group_scan look None g) as [ps|] eqn:Eps; [|discriminate]. cbn [bind] in E.
    rewrite (group_scan_present look g s1 None ps) in E by auto.
    match type of E with bind ?x _ = _ => destruct x as [bf|] eqn:EX; [|discriminate] end.
    cbn [bind] in E. destruct (enc_groups enc look (Some ps) gs) as [[bm' f2]|] eqn:E2; [|discriminate].
    destruct (IH _ _ _ _ HL2 HS2 E2) as (sgs & -> & F). exists (s1 :: sgs). split; [reflexivity|].
    constructor; auto. unfold supp_group in HS1.
    rewrite att_fst, group_valued_app, !zipw_app_r, firstn_len_app in HS1 by (rewrite ?att_length; lia).
    destruct HS1 as (D & HS1). split; [auto|]. split; [apply Forall2_all_of; auto|].
    intros V. destruct (HS1 V) as (SR & SC & _).
    apply Forall2_all_of in SC; auto.
    rewrite zipw_att in SR. apply Forall2_all_of in SR; auto.
    rewrite (group_valued_sent g s1 L1 SC V) in EX.
    assert (ER : exists rb rfs, enc_root enc look g = Ok (rb, rfs)).
    { match type of EX with bind ?x _ = _ => destruct x as [[]|]; [|discriminate] end.
      cbn [bind] in EX. destruct (enc_root enc look g) as [[rb rfs]|]; [eauto|discriminate]. }
    destruct ER as (rb & rfs & ER).
    pose proof (enc_root_inv look g s1 rb rfs HL1 ER) as I.
    apply Forall2_and; [apply Forall2_and; [exact SR|exact I]|exact SC].
Qed.

Lemma seq_inv ext root adds groups slots fs :
  supported (TSeq ext root adds groups) (VSeq slots) ->
  enc (TSeq ext root adds groups) (VSeq slots) = Ok fs ->
  exists s1 s2 sgs, slots_list (ncomps root adds groups) slots = s1 ++ s2 ++ List.concat sgs /\
    Forall2 comp_inv root s1 /\ Forall2 add_inv adds s2 /\ Forall2 group_inv groups sgs.
Proof.
  intros S E. cbn [supported_by] in S. cbv zeta in S. destruct S as (ND & L & Hext & SR & SA & SG).
  cbn [enc] in E. unfold encode_sequence in E. cbv zeta in E.
  pose proof (looks_all _ slots ND L) as HL. fold (ncomps root adds groups) in HL.
  set (ss := slots_list (ncomps root adds groups) slots) in *.
  set (look := get_by_name (all_comps root adds groups) slots) in *.
  unfold all_comps in HL. apply Forall2_app_inv_l in HL as (s1 & s23 & HL1 & HL & Es).
  apply Forall2_app_inv_l in HL as (s2 & s3 & HL2 & HL3 & ->).
  pose proof (Forall2_length _ _ _ HL1) as L1. pose proof (Forall2_length _ _ _ HL2) as L2.
  assert (K1 : skipn (len root) ss = s2 ++ s3) by (rewrite Es; apply skipn_len_app; auto).
  assert (K2 : skipn (len root + len adds) ss = s3).
  { rewrite Es, app_assoc. apply skipn_len_app. rewrite app_length. lia. }
  rewrite K1 in SA. rewrite K2 in SG.
  rewrite Es, zipw_app_r in SR by (rewrite att_length; lia).
  rewrite zipw_app_r in SA by (rewrite att_length; lia).
  rewrite zipw_att in SR, SA. apply Forall2_all_of in SR; auto. apply Forall2_all_of in SA; auto.
  destruct (enc_root enc look root) as [[rb rfs]|] eqn:Er; [|discriminate]. cbn [bind] in E.
  destruct (root_fields (rb, rfs)) as [rf|] eqn:Erf; [|discriminate]. cbn [bind] in E.
  pose proof (enc_root_inv look root s1 rb rfs HL1 Er) as IR.
  assert (NILS : adds = [] -> groups = [] -> exists s0 s4 sgs, ss = s0 ++ s4 ++ List.concat sgs /\
     Forall2 comp_inv root s0 /\ Forall2 add_inv adds s4 /\ Forall2 group_inv groups sgs).
  { intros -> ->. cbn [List.concat] in HL3. clear K1 K2 SG SA L2.
    inversion HL2; subst s2. inversion HL3; subst s3.
    exists s1, [], []. split; [auto|]. split; [apply Forall2_and; auto|]. split; constructor. }
  destruct ext; [|destruct (Hext eq_refl); auto].
  destruct (isnil adds && isnil groups) eqn:Nil.
  { apply NILS; [destruct adds; [reflexivity|discriminate]|].
    destruct adds; [|discriminate]. destruct groups; [reflexivity|discriminate]. }
  destruct (enc_adds enc look None adds) as [[ab af]|] eqn:Ea; [|discriminate]. cbn [bind] in E.
  destruct (enc_groups enc look None groups) as [[gb gf]|] eqn:Eg; [|discriminate].
  destruct (groups_inv look groups s3 None gb gf HL3 SG Eg) as (sgs & -> & G).
  exists s1, s2, sgs. split; [auto|]. split; [apply Forall2_and; auto|]. split; [|auto].
  apply Forall2_and; auto. eapply enc_adds_inv; eauto.
Qed.

Lemma canon_groups_concat gs sgs : Forall2 (fun g (sg : list (option val)) => len g = len sg) gs sgs ->
  canon_groups (map (att canon) gs) (List.concat sgs) =
  List.concat (zipw (fun g sg => canon_group (att canon g) sg) gs sgs).
Proof.
  induction 1 as [|g sg gs sgs L H IH]; [reflexivity|].
  cbn [map canon_groups List.concat zipw]. rewrite att_length, skipn_len_app by auto. rewrite IH. f_equal.
  unfold canon_group. rewrite att_fst. rewrite group_sent_app by lia.
  destruct (group_sent g sg); auto. rewrite zipw_app_r; auto. rewrite att_length. lia.
Qed.

Lemma read_groups_concat gs sgs : Forall2 (fun g (sg : list (option val)) => len g = len sg) gs sgs ->
  read_groups (map (att reading) gs) (List.concat sgs) =
  List.concat (zipw (fun g sg => read_group (att reading g) sg) gs sgs).
Proof.
  induction 1 as [|g sg gs sgs L H IH]; [reflexivity|].
  cbn [map read_groups List.concat zipw]. rewrite att_length, skipn_len_app by auto. rewrite IH. f_equal.
  unfold read_group. rewrite att_fst. rewrite group_valued_app by lia.
  destruct (group_valued g sg); auto. rewrite zipw_app_r; auto. rewrite att_length. lia.
Qed.

Lemma groups_len gs sgs : Forall2 group_inv gs sgs ->
  Forall2 (fun g (sg : list (option val)) => len g = len sg) gs sgs.
Proof. apply Forall2_impl'. intros g sg H. apply H. Qed.

Lemma canon_group_length g sg : len g = len sg -> len (canon_group (att canon g) sg) = len g.
Proof.
  intros L. unfold canon_group. destruct (group_sent _ _).
  - rewrite zipw_length; rewrite att_length; auto.
  - rewrite map_length. apply att_length.
Qed.

(** The delivered slots of a SEQUENCE. *)
Lemma canon_seq ext root adds groups slots s1 s2 sgs :
  slots_list (ncomps root adds groups) slots = s1 ++ s2 ++ List.concat sgs ->
  len root = len s1 -> len adds = len s2 ->
  Forall2 (fun g (sg : list (option val)) => len g = len sg) groups sgs ->
  canon (TSeq ext root adds groups) (VSeq slots) =
  VSeq (slots_of (zipw canon_root (att canon root) s1 ++ zipw canon_add (att canon adds) s2
                  ++ List.concat (zipw (fun g sg => canon_group (att canon g) sg) groups sgs))).
Proof.
  intros Es L1 L2 LG. cbn [canon_by]. cbv zeta. rewrite Es.
  rewrite skipn_len_app by auto.
  replace (skipn (len root + len adds) (s1 ++ s2 ++ List.concat sgs)) with (List.concat sgs).
  - rewrite !zipw_app_r by (rewrite att_length; lia). now rewrite canon_groups_concat.
  - rewrite app_assoc. symmetry. apply skipn_len_app. rewrite app_length. lia.
Qed.

(** ** Content survives *)

Lemma keep_comp c s : keeps_value (cty c) -> comp_inv c s ->
  cont_root (c, contentful (cty c)) s ->
  slot_value c (canon_root (c, canon (cty c)) s) = true.
Proof.
  intros K (S & D & E) ((V & C) & N). cbn [fst snd] in *. unfold canon_root. cbn [fst snd]. cbv zeta.
  set (v := slot_get c s) in *.
  assert (SR : sent_root c v = true /\ supported (cty c) v).
  { unfold sent_root. unfold supp_root in S. cbn [fst snd] in S. cbv zeta in S. fold v in S.
    destruct (cpres c) as [| |d].
    - auto.
    - rewrite V. split; [reflexivity|]. apply S. auto.
    - destruct S as (SD & S). split; [|auto]. destruct (D d eq_refl) as (b & B). rewrite B.
      pose proof (default_decided _ _ _ SD B). destruct b; auto. exfalso. apply N. tauto. }
  destruct SR as (SR & Sv). rewrite SR. cbn [slot_value]. destruct (E SR) as (f & Ef).
  eapply present_value, K; eauto.
Qed.

Lemma keep_root cs ss : Forall (fun c => keeps_value (cty c)) cs -> Forall2 comp_inv cs ss ->
  some_of (zipw cont_root (att contentful cs) ss) ->
  seq_any (zipw canon_root (att canon cs) ss) cs = true.
Proof.
  intros K H. revert K. induction H as [|c s cs ss Hc H IH]; intros K; [intros X; now apply some_of_nil in X|].
  inversion K; subst. cbn [att map zipw]. fold (att contentful cs) (att canon cs).
  intros X. apply some_of_cons in X as [X|X]; cbn [seq_any]; fold seq_any; apply orb_true_iff.
  - left. apply keep_comp; auto.
  - right. auto.
Qed.

Lemma keep_add cs ss : Forall (fun c => keeps_value (cty c)) cs -> Forall2 add_inv cs ss ->
  some_of (zipw cont_add (att contentful cs) ss) ->
  seq_any (zipw canon_add (att canon cs) ss) cs = true.
Proof.
  intros K H. revert K. induction H as [|c s cs ss Hc H IH]; intros K; [intros X; now apply some_of_nil in X|].
  inversion K as [|? ? K1 K2]; subst. cbn [att map zipw]. fold (att contentful cs) (att canon cs).
  intros X. apply some_of_cons in X as [X|X]; cbn [seq_any]; fold seq_any; apply orb_true_iff.
  - left. destruct Hc as ((_ & S) & E). destruct X as (V & C). cbn [fst snd] in *.
    unfold canon_add. cbn [fst snd]. cbv zeta. set (v := slot_get c s) in *.
    assert (SV : sent_add c v = true).
    { exact V. }
    rewrite SV. cbn [slot_value]. destruct (E SV) as (f & Ef). destruct (S V) as (_ & Sv & _).
    eapply present_value, K1; eauto.
  - right. auto.
Qed.

Lemma cont_valued g ss : some_of (zipw cont_root (att contentful g) ss) -> group_valued g ss = true.
Proof.
  revert ss. induction g as [|c g IH]; intros [|s ss].
  1-3: intros X; now apply some_of_nil in X.
  cbn [att map zipw]. fold (att contentful g). unfold group_valued. cbn [zipw existsb].
  intros X. apply some_of_cons in X as [((V & _) & _)|X]; apply orb_true_iff; [left; exact V|right; exact (IH ss X)].
Qed.

Lemma zipw_app {A B C} (f : A -> B -> C) l1 l2 m1 m2 : len l1 = len m1 ->
  zipw f (l1 ++ l2) (m1 ++ m2) = zipw f l1 m1 ++ zipw f l2 m2.
Proof.
  revert m1. induction l1 as [|a l1 IH]; intros [|b m1] L; cbn [List.length] in L; try lia; [reflexivity|].
  cbn [app zipw]. now rewrite IH by lia.
Qed.

Lemma keep_groups gs sgs : Forall (Forall (fun c => keeps_value (cty c))) gs -> Forall2 group_inv gs sgs ->
  some_of (zipw cont_root (List.concat (map (att contentful) gs)) (List.concat sgs)) ->
  seq_any (List.concat (zipw (fun g sg => canon_group (att canon g) sg) gs sgs)) (List.concat gs) = true.
Proof.
  intros K H. revert K. induction H as [|g sg gs sgs (L & D & Hg) H IH]; intros K;
    [intros X; now apply some_of_nil in X|].
  inversion K as [|? ? K1 K2]; subst. cbn [map List.concat zipw].
  rewrite zipw_app by (rewrite att_length; auto).
  rewrite seq_any_app by (apply canon_group_length; auto).
  intros X. apply some_of_app in X as [X|X]; apply orb_true_iff.
  - left. pose proof (cont_valued g sg X) as V. specialize (Hg V).
    assert (SC : Forall2 (fun c s => present (cty c) (slot_get c s) = true -> contentful (cty c) (slot_get c s)) g sg).
    { eapply Forall2_impl'; [|exact Hg]. cbn beta. tauto. }
    unfold canon_group. rewrite att_fst. rewrite (group_valued_sent g sg L SC V).
    apply keep_root; auto. eapply Forall2_impl'; [|exact Hg]. cbn beta. tauto.
  - right. auto.
Qed.

Lemma keeps_all t : keeps_value t.
Proof.
  induction t using ty_rect'; intros v fs S E C.
  1-5: destruct v; try contradiction; reflexivity.
  - destruct v as [| | | | | |slots| |]; try contradiction.
    destruct (seq_inv _ _ _ _ _ _ S E) as (s1 & s2 & sgs & Es & I1 & I2 & I3).
    pose proof (Forall2_length _ _ _ I1) as L1. pose proof (Forall2_length _ _ _ I2) as L2.
    pose proof (groups_len _ _ I3) as L3.
    rewrite (canon_seq e r a g slots s1 s2 sgs) by auto. apply slots_of_value.
    cbn [comps_of]. unfold all_comps.
    rewrite seq_any_app by (rewrite zipw_length; rewrite att_length; auto).
    rewrite seq_any_app by (rewrite zipw_length; rewrite att_length; auto).
    cbn [contentful] in C. cbv zeta in C. rewrite Es in C.
    rewrite skipn_len_app in C by auto.
    replace (skipn (len r + len a) (s1 ++ s2 ++ List.concat sgs)) with (List.concat sgs) in C
      by (rewrite app_assoc; symmetry; apply skipn_len_app; rewrite app_length; lia).
    rewrite !(zipw_app_r cont_root (att contentful r)), !(zipw_app_r cont_add) in C by (rewrite att_length; lia).
    rewrite !some_of_app in C. rewrite !orb_true_iff. destruct C as [C|[C|C]].
    + left. apply keep_root; auto.
    + right. left. apply keep_add; auto.
    + right. right. apply keep_groups; auto.
  - destruct v as [| | | | | | |vs|]; try contradiction. cbn [contentful] in C. destruct C as (Hn & C).
    cbn [supported_by] in S. destruct S as (_ & S). cbn [enc] in E.
    destruct (enc_list (enc t) vs) as [body|] eqn:EL; [|discriminate]. clear E.
    cbn [canon_by is_value elem_of].
    assert (F : forallb (is_value t) (map (canon t) vs) = true).
    { clear Hn. revert body EL. induction vs as [|v vs IH]; intros body EL; [reflexivity|].
      cbn [map] in S, C. apply all_of_cons in S as (S1 & S). apply all_of_cons in C as (C1 & C).
      cbn [enc_list] in EL. destruct (enc t v) as [f1|] eqn:E1; [|discriminate]. cbn [bind] in EL.
      destruct (enc_list (enc t) vs) as [f2|] eqn:E2; [|discriminate].
      cbn [map forallb]. apply andb_true_iff. split; [eapply present_value, IHt; eauto|eapply IH; eauto]. }
    destruct vs; [congruence|]. unfold present. rewrite andb_true_r. exact F.
  - destruct v as [| | | | | | | |[[i v']|]]; try contradiction.
    cbn [supported_by] in S. destruct S as (ND & Hext & Hn & S). rewrite all_att, nth_error_att in S.
    cbn [contentful] in C. rewrite all_att, nth_error_att in C.
    cbn [canon_by]. rewrite all_att, nth_error_att. cbn [enc] in E.
    assert (EM : map (fun c0 : comp ty => (cname c0, enc (cty c0))) r ++
               map (fun c0 => (cname c0, enc (cty c0))) a ++
               List.concat (map (map (fun c0 => (cname c0, enc (cty c0)))) g) =
               map (fun c0 => (cname c0, enc (cty c0))) (all_comps r a g)).
    { unfold all_comps. rewrite !map_app, concat_map. reflexivity. }
    rewrite EM, nth_error_map in E. clear EM.
    destruct (nth_error (all_comps r a g) i) as [c|] eqn:EC; [|contradiction].
    cbn [fst snd option_map] in *. destruct S as (Sv & _).
    destruct (enc (cty c) v') as [body|] eqn:EB; [|discriminate].
    unfold present. rewrite andb_true_r. cbn [is_value comps_of]. unfold comp_ty. rewrite EC.
    assert (K : keeps_value (cty c)).
    { apply nth_error_In in EC. assert (F : Forall (fun c => keeps_value (cty c)) (all_comps r a g)).
      { unfold all_comps. apply Forall_app. split; auto. apply Forall_app. split; auto. now apply Forall_concat. }
      rewrite Forall_forall in F. now apply F. }
    eapply present_value, K; eauto.
Qed.

Lemma group_valued_canon g ss :
  Forall2 (fun c s => comp_inv c s /\
    (present (cty c) (slot_get c s) = true -> contentful (cty c) (slot_get c s))) g ss ->
  group_valued g ss = true -> group_valued g (zipw canon_root (att canon g) ss) = true.
Proof.
  induction 1 as [|c s g ss ((S & D & E) & C) H IH]; [discriminate|].
  cbn [att map zipw]. fold (att canon g). unfold group_valued. cbn [zipw existsb].
  intros V. apply orb_true_iff in V as [V|V]; apply orb_true_iff; [left|right; exact (IH V)].
  specialize (C V). unfold canon_root. cbn [fst snd]. cbv zeta. set (v := slot_get c s) in *.
  unfold supp_root in S. cbn [fst snd] in S. cbv zeta in S. fold v in S. unfold sent_root in *.
  destruct (cpres c) as [| |d] eqn:P.
  - destruct (E eq_refl) as (f & Ef). cbn [slot_get]. eapply keeps_all; eauto.
  - rewrite V in *.
    destruct (E eq_refl) as (f & Ef). cbn [slot_get]. destruct (S eq_refl). eapply keeps_all; eauto.
  - destruct S as (SD & Sv). destruct (D d eq_refl) as (b & B). rewrite B in *.
    pose proof (default_decided _ _ _ SD B) as DD. destruct b.
    + destruct (E eq_refl) as (f & Ef). cbn [slot_get]. eapply keeps_all; eauto.
      apply Sv. intros X. apply DD in X. discriminate.
    + cbn [slot_get]. rewrite P. rewrite <- (proj1 DD eq_refl). exact V.
Qed.

Lemma canon_groups_len gs sgs : Forall2 (fun g (sg : list (option val)) => len g = len sg) gs sgs ->
  Forall2 (fun g (o : list (option val)) => len g = len o) gs
          (zipw (fun g sg => canon_group (att canon g) sg) gs sgs).
Proof.
  induction 1 as [|g sg gs sgs L H IH]; cbn [zipw]; constructor; auto.
  symmetry. now apply canon_group_length.
Qed.

End Kept.
Notation keeps_value := (keeps_value_by (kept := octs_ok) (shift := fun _ bs => bs)).

(** ** Reading is preserved *)

Section Same.
Context {kept : constr -> list Z -> Prop}.
Local Notation supported := (supported_by kept).
Local Notation comp_inv := (comp_inv_by (kept := kept)).
Local Notation add_inv := (add_inv_by (kept := kept)).
Local Notation group_inv := (group_inv_by (kept := kept)).

Definition same_reading_by (t : ty) : Prop :=
  forall v fs, supported t v -> enc t v = Ok fs -> reading t (canon t v) = reading t v.
Local Notation same_reading := same_reading_by.

Lemma fresh_absent t : present t (fresh t) = false.
Proof. destruct t; try reflexivity. apply andb_false_r. Qed.

Lemma read_root_comp c s : same_reading (cty c) -> comp_inv c s ->
  read_root (c, reading (cty c)) (canon_root (c, canon (cty c)) s) =
  read_root (c, reading (cty c)) s.
Proof.
  intros K (S & D & E). unfold read_root, canon_root. cbn [fst snd]. cbv zeta.
  set (v := slot_get c s) in *. unfold sent_root in *.
  unfold supp_root in S. cbn [fst snd] in S. cbv zeta in S. fold v in S.
  destruct (cpres c) as [| |d] eqn:P.
  - destruct (E eq_refl) as (f & Ef). cbn [slot_get]. f_equal. eapply K; eauto.
  - destruct (present (cty c) v) eqn:V.
    + destruct (S eq_refl) as (C & Sv).
      destruct (E eq_refl) as (f & Ef). cbn [slot_get].
      rewrite (keeps_all (kept := kept) (cty c) v f) by auto. f_equal. eapply K; eauto.
    + cbn [slot_get]. rewrite P, fresh_absent. reflexivity.
  - destruct S as (SD & Sv). destruct (D d eq_refl) as (b & B). rewrite B in *.
    pose proof (default_decided _ _ _ SD B) as DD. destruct b.
    + destruct (E eq_refl) as (f & Ef). cbn [slot_get]. f_equal. eapply K; eauto.
      apply Sv. intros X. apply DD in X. discriminate.
    + cbn [slot_get]. rewrite P. f_equal. f_equal. symmetry. tauto.
Qed.

Lemma read_root_list cs ss : Forall (fun c => same_reading (cty c)) cs -> Forall2 comp_inv cs ss ->
  zipw read_root (att reading cs) (zipw canon_root (att canon cs) ss) = zipw read_root (att reading cs) ss.
Proof.
  intros K H. revert K. induction H as [|c s cs ss Hc H IH]; intros K; [reflexivity|].
  inversion K; subst. cbn [att map zipw]. fold (att reading cs) (att canon cs).
  rewrite read_root_comp, IH by auto. reflexivity.
Qed.

Lemma read_add_list cs ss : Forall (fun c => same_reading (cty c)) cs -> Forall2 add_inv cs ss ->
  zipw read_ext (att reading cs) (zipw canon_add (att canon cs) ss) = zipw read_ext (att reading cs) ss.
Proof.
  intros K H. revert K. induction H as [|c s cs ss Hc H IH]; intros K; [reflexivity|].
  inversion K as [|? ? K1 K2]; subst. cbn [att map zipw]. fold (att reading cs) (att canon cs).
  rewrite IH by auto. f_equal. destruct Hc as ((D & S) & E). cbn [fst snd] in *.
  unfold read_ext, canon_add. cbn [fst snd]. cbv zeta. set (v := slot_get c s) in *.
  unfold sent_add in *. destruct (present (cty c) v) eqn:V.
  - destruct (S eq_refl) as (C & Sv & _).
    destruct (E eq_refl) as (f & Ef). cbn [slot_get].
    rewrite (keeps_all (kept := kept) (cty c) v f) by auto. f_equal. eapply K1; eauto.
  - cbn [slot_get]. unfold is_defaulted in D. destruct (cpres c).
    + now rewrite fresh_absent.
    + now rewrite fresh_absent.
    + specialize (D eq_refl). discriminate.
Qed.

Lemma group_none g ss : len g = len ss ->
  Forall2 (fun c s => is_defaulted c = true -> present (cty c) (slot_get c s) = true) g ss ->
  group_valued g ss = false -> group_valued g (map (fun _ => None) g) = false.
Proof.
  intros _. induction 1 as [|c s g ss Hc H IH]; [reflexivity|].
  unfold group_valued. cbn [zipw existsb map]. intros V. apply orb_false_iff in V as (V1 & V2).
  apply orb_false_iff. split; [|exact (IH V2)]. unfold is_defaulted in Hc. cbn [slot_get]. destruct (cpres c).
  - apply fresh_absent.
  - apply fresh_absent.
  - specialize (Hc eq_refl). congruence.
Qed.

Lemma read_groups_list gs sgs : Forall (Forall (fun c => same_reading (cty c))) gs -> Forall2 group_inv gs sgs ->
  Forall2 (fun g sg => read_group (att reading g) (canon_group (att canon g) sg) = read_group (att reading g) sg)
          gs sgs.
Proof.
  intros K H. revert K. induction H as [|g sg gs sgs (L & D & Hg) H IH]; intros K; constructor.
  - inversion K as [|? ? K1 K2]; subst. unfold canon_group, read_group. rewrite !att_fst.
    destruct (group_valued g sg) eqn:V.
    + specialize (Hg eq_refl).
      assert (SC : Forall2 (fun c s => present (cty c) (slot_get c s) = true -> contentful (cty c) (slot_get c s)) g sg).
      { eapply Forall2_impl'; [|exact Hg]. cbn beta. tauto. }
      rewrite (group_valued_sent g sg L SC V).
      rewrite (group_valued_canon (kept := kept)) by auto. apply read_root_list; auto.
      eapply Forall2_impl'; [|exact Hg]. cbn beta. tauto.
    + destruct (group_sent g sg) eqn:GS; [apply group_sent_some in GS; congruence|].
      replace (map (fun _ : comp ty * (val -> val) => @None val) (att canon g)) with (map (fun _ : comp ty => @None val) g)
        by (unfold att; rewrite map_map; reflexivity).
      rewrite (group_none g sg) by auto. reflexivity.
  - inversion K; subst. auto.
Qed.

Lemma slots_list_of n os : len os = n -> slots_list n (slots_of os) = os.
Proof.
  intros <-. unfold slots_of. destruct (forallb is_none os) eqn:N; cbn [slots_list]; [|reflexivity].
  symmetry. now apply forallb_none_repeat.
Qed.

Lemma reading_seq ext root adds groups slots s1 s2 sgs :
  slots_list (ncomps root adds groups) slots = s1 ++ s2 ++ List.concat sgs ->
  len root = len s1 -> len adds = len s2 ->
  Forall2 (fun g (sg : list (option val)) => len g = len sg) groups sgs ->
  reading (TSeq ext root adds groups) (VSeq slots) =
  ASeq (zipw read_root (att reading root) s1 ++ zipw read_ext (att reading adds) s2
        ++ List.concat (zipw (fun g sg => read_group (att reading g) sg) groups sgs)).
Proof.
  intros Es L1 L2 LG. cbn [reading]. cbv zeta. rewrite Es.
  rewrite skipn_len_app by auto.
  replace (skipn (len root + len adds) (s1 ++ s2 ++ List.concat sgs)) with (List.concat sgs).
  - rewrite !zipw_app_r by (rewrite att_length; lia). now rewrite read_groups_concat.
  - rewrite app_assoc. symmetry. apply skipn_len_app. rewrite app_length. lia.
Qed.

Lemma concat_length_eq {A B} (gs : list (list A)) (os : list (list B)) :
  Forall2 (fun g o => len g = len o) gs os -> len (List.concat gs) = len (List.concat os).
Proof. induction 1; [reflexivity|]. cbn [List.concat]. rewrite !app_length. lia. Qed.

Theorem same_reading_all t : same_reading t.
Proof.
  induction t using ty_rect'; intros v fs S E.
  1-5: destruct v; try contradiction; reflexivity.
  - destruct v as [| | | | | |slots| |]; try contradiction.
    destruct (seq_inv _ _ _ _ _ _ S E) as (s1 & s2 & sgs & Es & I1 & I2 & I3).
    pose proof (Forall2_length _ _ _ I1) as L1. pose proof (Forall2_length _ _ _ I2) as L2.
    pose proof (groups_len _ _ I3) as L3.
    rewrite (canon_seq e r a g slots s1 s2 sgs) by auto.
    rewrite (reading_seq e r a g slots s1 s2 sgs) by auto.
    set (o1 := zipw canon_root (att canon r) s1).
    set (o2 := zipw canon_add (att canon a) s2).
    set (o3 := zipw (fun g sg => canon_group (att canon g) sg) g sgs).
    assert (LO1 : len r = len o1) by (unfold o1; rewrite zipw_length; rewrite att_length; auto).
    assert (LO2 : len a = len o2) by (unfold o2; rewrite zipw_length; rewrite att_length; auto).
    pose proof (canon_groups_len (shift := fun _ bs => bs) g sgs L3) as LO3. fold o3 in LO3.
    rewrite (reading_seq e r a g _ o1 o2 o3); auto.
    + f_equal. unfold o1. rewrite read_root_list by auto. f_equal.
      unfold o2. rewrite read_add_list by auto. f_equal. f_equal.
      pose proof (read_groups_list g sgs ltac:(auto) I3) as RG. unfold o3. clear - RG.
      induction RG as [|gr sg g sgs R RG IH]; [reflexivity|]. cbn [zipw]. now rewrite R, IH.
    + apply slots_list_of. rewrite !app_length. unfold ncomps, all_comps. rewrite !app_length.
      rewrite (concat_length_eq g o3 LO3). lia.
  - destruct v as [| | | | | | |vs|]; try contradiction. cbn [supported_by] in S. destruct S as (_ & S).
    cbn [enc] in E. destruct (enc_list (enc t) vs) as [body|] eqn:EL; [|discriminate]. clear E.
    cbn [canon_by reading]. f_equal. revert body EL. induction vs as [|v vs IH]; intros body EL; [reflexivity|].
    cbn [map] in S. apply all_of_cons in S as (S1 & S).
    cbn [enc_list] in EL. destruct (enc t v) as [f1|] eqn:E1; [|discriminate]. cbn [bind] in EL.
    destruct (enc_list (enc t) vs) as [f2|] eqn:E2; [|discriminate].
    cbn [map]. f_equal; [eapply IHt; eauto|eapply IH; eauto].
  - destruct v as [| | | | | | | |[[i v']|]]; try contradiction.
    cbn [supported_by] in S. destruct S as (ND & Hext & Hn & S). rewrite all_att, nth_error_att in S.
    cbn [enc] in E.
    assert (EM : map (fun c0 : comp ty => (cname c0, enc (cty c0))) r ++
               map (fun c0 => (cname c0, enc (cty c0))) a ++
               List.concat (map (map (fun c0 => (cname c0, enc (cty c0)))) g) =
               map (fun c0 => (cname c0, enc (cty c0))) (all_comps r a g)).
    { unfold all_comps. rewrite !map_app, concat_map. reflexivity. }
    rewrite EM, nth_error_map in E. clear EM.
    destruct (nth_error (all_comps r a g) i) as [c|] eqn:EC; [|contradiction].
    cbn [fst snd option_map] in *. destruct S as (Sv & _).
    destruct (enc (cty c) v') as [body|] eqn:EB; [|discriminate].
    cbn [canon_by]. rewrite all_att, nth_error_att, EC. cbn [snd].
    cbn [reading]. rewrite all_att, nth_error_att, EC. cbn [snd].
    assert (K : same_reading (cty c)).
    { apply nth_error_In in EC. assert (F : Forall (fun c => same_reading (cty c)) (all_comps r a g)).
      { unfold all_comps. apply Forall_app. split; auto. apply Forall_app. split; auto. now apply Forall_concat. }
      rewrite Forall_forall in F. now apply F. }
    do 3 f_equal. eapply K; eauto.
Qed.
End Same.
Notation comp_inv := (comp_inv_by (kept := octs_ok)).
Notation add_inv := (add_inv_by (kept := octs_ok)).
Notation group_inv := (group_inv_by (kept := octs_ok)).
Notation same_reading := (same_reading_by (kept := octs_ok)).

(** ** The whole message *)

Lemma eq_empty_inside v : eq_empty v = empty_inside v.
Proof. destruct v as [| | | |[|]| | | |[[]|]]; try reflexivity. Qed.

Section Arrive.
Context {kept : constr -> list Z -> Prop} {shift : constr -> list Z -> list Z}
  (KW : forall c bs fs, kept c bs -> fill (encode_octetstring c bs) = Ok fs ->
     reads_as (TOcts c) fs (VOcts (shift c bs))).
Local Notation supported := (supported_by kept).
Local Notation canon := (canon_by shift).

Lemma canon_empty t v : match t with TChoice _ _ _ _ => True | _ => False end ->
  supported t v -> empty_inside (canon t v) = empty_inside v.
Proof.
  revert v. induction t using ty_rect'; intros v T S; try contradiction.
  destruct v as [| | | | | | | |[[i v']|]]; try contradiction.
  cbn [supported_by] in S. destruct S as (ND & Hext & Hn & S). rewrite all_att, nth_error_att in S.
  cbn [canon_by]. rewrite all_att, nth_error_att.
  destruct (nth_error (all_comps r a g) i) as [c|] eqn:EC; [|contradiction].
  cbn [fst snd] in *. destruct S as (Sv & _). cbn [empty_inside].
  assert (F : Forall (fun c => forall v, match cty c with TChoice _ _ _ _ => True | _ => False end ->
     supported (cty c) v -> empty_inside (canon (cty c) v) = empty_inside v) (all_comps r a g)).
  { unfold all_comps. apply Forall_app. split; auto. apply Forall_app. split; auto. now apply Forall_concat. }
  rewrite Forall_forall in F. specialize (F c (nth_error_In _ _ EC)).
  destruct (cty c) eqn:TC; try (destruct v'; try contradiction; reflexivity).
  apply F; auto.
Qed.

(** Decoding an encoded message gives the delivered object, whatever octets
    follow it. *)
Theorem decode_encode_by t v bs rest : supported t v -> top_ok t v -> encode t v = Ok bs ->
  Forall octet rest -> decode (bs ++ rest) t = Ok (canon t v).
Proof.
  intros S T E HR. apply encode_inv in E as (fs & E & Hbs & Hob & Hoct & Hne).
  destruct (rt_by_all KW t v fs S E) as (dv & C & R).
  unfold decode, decode_pos.
  destruct (per_init_ok (bs ++ rest)) as (p & Ep & Ap).
  { apply Forall_app. auto. }
  { destruct bs; [congruence|discriminate]. }
  rewrite Ep. cbn [bind]. destruct (produce_spec fs) as (k & Ek & _).
  rewrite obits_app, Hob, Ek, <- app_assoc in Ap.
  destruct (R 0%nat p [] (repeat false k ++ obits rest)) as (p' & E' & _); auto.
  rewrite E'. cbn [bind fst snd]. destruct dv as [v'|].
  - cbn [cast] in C. injection C as ->. rewrite eq_empty_inside.
    destruct (empty_inside (canon t v)) eqn:EI; [|reflexivity].
    destruct t; try (destruct v; try contradiction; discriminate).
    + destruct v; try contradiction. cbn [canon_by] in *. destruct s; [|discriminate].
      cbn [supported_by] in S. destruct S as (S & _). unfold from_empty. cbn [cast].
      change (zlen (@nil bool)) with 0 in S. rewrite S. reflexivity.
    + cbn [top_ok] in T. rewrite canon_empty in EI by (auto; exact I). congruence.
  - destruct t; cbn [cast] in C; try discriminate; unfold from_empty; cbn [cast]; rewrite C; reflexivity.
Qed.
End Arrive.

Theorem decode_encode_canon t v bs rest : supported t v -> top_ok t v -> encode t v = Ok bs ->
  Forall octet rest -> decode (bs ++ rest) t = Ok (canon t v).
Proof. exact (decode_encode_by octs_rt t v bs rest). Qed.

Theorem round_trip t v bs : supported t v -> top_ok t v -> encode t v = Ok bs ->
  exists v', decode bs t = Ok v' /\ reading t v' = reading t v.
Proof.
  intros S T E. exists (canon t v). split.
  - rewrite <- (app_nil_r bs). apply decode_encode_canon; auto.
  - apply encode_inv in E as (fs & E & _). eapply same_reading_all; eauto.
Qed.
