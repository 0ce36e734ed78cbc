(** What is read of a message whose OCTET STRINGs lost their zero digits.

    C72 gives the object that arrives.  Here the values are compared: what a
    program reads from it is what the sender put in, with the digits of its
    OCTET STRINGs of a variable size moved, and nothing else. *)
From Coq Require Import ZArith List String Bool Lia Arith.
From Coq Require Import ZifyBool ZifyNat ZifyN.
Import ListNotations.
From Verif Require Import PyBase Schema Encoder Decoder BitFacts Stream Prims Spec SimpleTypes RoundTrip Reading
  Totality PropsRoundTrip Objects Constraints Valid Exact Faults Extent X691 Conform Safe Standard Peers Mild Shifted.
Open Scope Z_scope.
Ltac Zify.zify_post_hook ::= Z.div_mod_to_equations.

(** * Values with their strings changed *)

Fixpoint move_slots (cas : list (comp ty * (aval -> aval))) (l : list (option aval)) : list (option aval) :=
  match cas, l with
  | ca :: cas', o :: l' => option_map (snd ca) o :: move_slots cas' l'
  | _, _ => l
  end.

Fixpoint moved (w : constr -> list Z -> list Z) (t : ty) (a : aval) {struct t} : aval :=
  match t, a with
  | TOcts c, AOcts bs => AOcts (w c bs)
  | TSeqOf _ t', ASeqOf l => ASeqOf (map (moved w t') l)
  | TChoice _ root adds groups, AChoice (Some (i, x)) =>
      match nth_error (att (moved w) root ++ att (moved w) adds ++ List.concat (map (att (moved w)) groups)) i with
      | Some ca => AChoice (Some (i, snd ca x))
      | None => a
      end
  | TSeq _ root adds groups, ASeq l =>
      ASeq (move_slots (att (moved w) root ++ att (moved w) adds ++ List.concat (map (att (moved w)) groups)) l)
  | _, _ => a
  end.

(** DEFAULTs that would not change. *)
Definition still_default (w : constr -> list Z -> list Z) (c : comp ty) : Prop :=
  match cpres c with Dflt d => moved w (cty c) (reading (cty c) d) = reading (cty c) d | _ => True end.

Definition still_comp (w : constr -> list Z -> list Z) (ca : comp ty * Prop) : Prop :=
  snd ca /\ still_default w (fst ca).

Fixpoint still (w : constr -> list Z -> list Z) (t : ty) : Prop :=
  match t with
  | TSeqOf _ t' => still w t'
  | TSeq _ root adds groups =>
      all_of (map (still_comp w) (att (still w) root ++ att (still w) adds ++ List.concat (map (att (still w)) groups)))
  | TChoice _ root adds groups =>
      all_of (map snd (att (still w) root ++ att (still w) adds ++ List.concat (map (att (still w)) groups)))
  | _ => True
  end.

Section Moved.
Context {kept : constr -> list Z -> Prop} {shift : constr -> list Z -> list Z}.
Local Notation supported := (supported_by kept).
Local Notation comp_inv := (comp_inv_by (kept := kept)).
Local Notation add_inv := (add_inv_by (kept := kept)).
Local Notation group_inv := (group_inv_by (kept := kept)).
Local Notation canon := (canon_by shift).
Local Notation moved := (moved shift).
Local Notation still := (still shift).

Definition moves (t : ty) : Prop :=
  still t -> forall v fs, supported t v -> enc t v = Ok fs -> reading t (canon t v) = moved t (reading t v).

Definition comp_moves (c : comp ty) : Prop := moves (cty c) /\ still (cty c) /\ still_default shift c.

Lemma move_root_comp c s : comp_moves c -> comp_inv c s ->
  read_root (c, reading (cty c)) (canon_root (c, canon (cty c)) s) =
  option_map (moved (cty c)) (read_root (c, reading (cty c)) s).
Proof.
  intros (K & St & SDf) (S & D & E). specialize (K St). unfold read_root, canon_root. cbn [fst snd]. cbv zeta.
  set (v := slot_get c s) in *. unfold sent_root in *.
  unfold supp_root in S. cbn [fst snd] in S. cbv zeta in S. fold v in S. unfold still_default in SDf.
  destruct (cpres c) as [| |d] eqn:P; cbn [option_map].
  - destruct (E eq_refl) as (f & Ef). cbn [slot_get]. f_equal. eapply K; eauto.
  - destruct (present (cty c) v) eqn:V.
    + destruct (S eq_refl) as (C & Sv).
      destruct (E eq_refl) as (f & Ef). cbn [slot_get option_map].
      rewrite (keeps_all (kept := kept) (cty c) v f) by auto. f_equal. eapply K; eauto.
    + cbn [slot_get]. rewrite P, fresh_absent. reflexivity.
  - destruct S as (SD & Sv). destruct (D d eq_refl) as (b & B). rewrite B in *.
    pose proof (default_decided _ _ _ SD B) as DD. destruct b.
    + destruct (E eq_refl) as (f & Ef). cbn [slot_get]. f_equal. eapply K; eauto.
      apply Sv. intros X. apply DD in X. discriminate.
    + cbn [slot_get]. rewrite P. f_equal. assert (v = d) as -> by tauto. symmetry. exact SDf.
Qed.

Lemma move_root_list cs ss : Forall comp_moves cs -> Forall2 comp_inv cs ss ->
  zipw read_root (att reading cs) (zipw canon_root (att canon cs) ss) =
  move_slots (att moved cs) (zipw read_root (att reading cs) ss).
Proof.
  intros K H. revert K. induction H as [|c s cs ss Hc H IH]; intros K; [reflexivity|].
  inversion K; subst. cbn [att map zipw move_slots snd]. fold (att reading cs) (att canon cs) (att moved cs).
  rewrite move_root_comp, IH by auto. reflexivity.
Qed.

Lemma move_add_list cs ss : Forall comp_moves cs -> Forall2 add_inv cs ss ->
  zipw read_ext (att reading cs) (zipw canon_add (att canon cs) ss) =
  move_slots (att moved cs) (zipw read_ext (att reading cs) ss).
Proof.
  intros K H. revert K. induction H as [|c s cs ss Hc H IH]; intros K; [reflexivity|].
  inversion K as [|? ? (K1 & St & _) K2]; subst. specialize (K1 St).
  cbn [att map zipw move_slots snd]. fold (att reading cs) (att canon cs) (att moved cs).
  rewrite IH by auto. f_equal. destruct Hc as ((D & S) & E). cbn [fst snd] in *.
  unfold read_ext, canon_add. cbn [fst snd]. cbv zeta. set (v := slot_get c s) in *.
  unfold sent_add in *. destruct (present (cty c) v) eqn:V.
  - destruct (S eq_refl) as (C & Sv & _).
    destruct (E eq_refl) as (f & Ef). cbn [slot_get option_map].
    rewrite (keeps_all (kept := kept) (cty c) v f) by auto. f_equal. eapply K1; eauto.
  - cbn [slot_get option_map]. unfold is_defaulted in D. destruct (cpres c).
    + now rewrite fresh_absent.
    + now rewrite fresh_absent.
    + specialize (D eq_refl). discriminate.
Qed.

Lemma move_none (g : list (comp ty)) : move_slots (att moved g) (map (fun _ => None) g) = map (fun _ => None) g.
Proof. induction g as [|c g IH]; [reflexivity|]. cbn [att map move_slots option_map]. fold (att moved g). now rewrite IH. Qed.

Lemma att_none {A} (f : ty -> A) {B} (g : list (comp ty)) :
  map (fun _ => @None B) (att f g) = map (fun _ => None) g.
Proof. unfold att. rewrite map_map. reflexivity. Qed.

Lemma move_groups_list gs sgs : Forall (Forall comp_moves) gs -> Forall2 group_inv gs sgs ->
  Forall2 (fun g sg => read_group (att reading g) (canon_group (att canon g) sg) =
                       move_slots (att moved g) (read_group (att reading g) sg)) gs sgs.
Proof.
  intros K H. revert K. induction H as [|g sg gs sgs (L & D & Hg) H IH]; intros K; constructor.
  - inversion K as [|? ? K1 K2]; subst. unfold canon_group, read_group. rewrite !att_fst.
    destruct (group_valued g sg) eqn:V.
    + specialize (Hg eq_refl).
      assert (SC : Forall2 (fun c s => present (cty c) (slot_get c s) = true -> contentful (cty c) (slot_get c s)) g sg).
      { eapply Forall2_impl'; [|exact Hg]. cbn beta. tauto. }
      rewrite (group_valued_sent g sg L SC V).
      rewrite (group_valued_canon (kept := kept)) by auto. apply move_root_list; auto.
      eapply Forall2_impl'; [|exact Hg]. cbn beta. tauto.
    + destruct (group_sent g sg) eqn:GS; [apply group_sent_some in GS; congruence|].
      rewrite !att_none. rewrite (group_none g sg) by auto. symmetry. apply move_none.
  - inversion K; subst. auto.
Qed.

Lemma move_app cas1 cas2 l1 l2 : len cas1 = len l1 ->
  move_slots (cas1 ++ cas2) (l1 ++ l2) = move_slots cas1 l1 ++ move_slots cas2 l2.
Proof.
  revert l1. induction cas1 as [|ca cas IH]; intros [|o l1] L; try discriminate; [reflexivity|].
  cbn [app move_slots]. injection L as L. now rewrite IH.
Qed.

Lemma still_seq r a g : all_of (map (still_comp shift) (att still r ++ att still a ++ List.concat (map (att still) g))) ->
  Forall (fun c => still (cty c) /\ still_default shift c) (all_comps r a g).
Proof.
  rewrite all_att, all_of_forall. unfold att. rewrite Forall_map. intros F. eapply Forall_impl; [|exact F].
  intros c (A & B). auto.
Qed.

Theorem moves_all t : moves t.
Proof.
  induction t using ty_rect'; intros St v fs S E.
  1-5: destruct v; try contradiction; reflexivity.
  - destruct v as [| | | | | |slots| |]; try contradiction.
    cbn [Received.still] in St. apply still_seq in St. unfold all_comps in St. rewrite !Forall_app in St.
    destruct St as (T1 & T2 & T3).
    assert (J : forall l, Forall (fun c => moves (cty c)) l -> Forall (fun c => still (cty c) /\ still_default shift c) l ->
      Forall comp_moves l).
    { intros l A B. rewrite Forall_forall in *. intros c Ic. split; [now apply A|now apply B]. }
    assert (J3 : Forall (Forall comp_moves) g).
    { clear - H1 T3 J. induction H1 as [|x g Hx Hg IH]; constructor; cbn [List.concat] in T3; apply Forall_app in T3 as (T & T3); auto. }
    pose proof (J r H T1) as J1. pose proof (J a H0 T2) as J2.
    destruct (seq_inv _ _ _ _ _ _ S E) as (s1 & s2 & sgs & Es & I1 & I2 & I3).
    pose proof (Forall2_length _ _ _ I1) as L1. pose proof (Forall2_length _ _ _ I2) as L2.
    pose proof (groups_len _ _ I3) as L3.
    rewrite (canon_seq e r a g slots s1 s2 sgs) by auto.
    rewrite (reading_seq e r a g slots s1 s2 sgs) by auto.
    set (o1 := zipw canon_root (att canon r) s1).
    set (o2 := zipw canon_add (att canon a) s2).
    set (o3 := zipw (fun g sg => canon_group (att canon g) sg) g sgs).
    assert (LO1 : len r = len o1) by (unfold o1; rewrite zipw_length; rewrite att_length; auto).
    assert (LO2 : len a = len o2) by (unfold o2; rewrite zipw_length; rewrite att_length; auto).
    pose proof (canon_groups_len (shift := shift) g sgs L3) as LO3. fold o3 in LO3.
    rewrite (reading_seq e r a g _ o1 o2 o3); auto.
    + cbn [Received.moved]. f_equal.
      rewrite move_app by (rewrite att_length, zipw_length; rewrite att_length; auto).
      rewrite move_app by (rewrite att_length, zipw_length; rewrite att_length; auto).
      unfold o1. rewrite move_root_list by auto. f_equal.
      unfold o2. rewrite move_add_list by auto. f_equal.
      pose proof (move_groups_list g sgs J3 I3) as RG. unfold o3. clear - RG L3.
      induction RG as [|gr sg g sgs R RG IH]; [reflexivity|]. inversion L3; subst. cbn [zipw map List.concat].
      rewrite R, IH by auto. symmetry. apply move_app. rewrite att_length. unfold read_group.
      destruct (group_valued _ _); [rewrite zipw_length; rewrite att_length; auto|rewrite map_length, att_length; reflexivity].
    + apply slots_list_of. rewrite !app_length. unfold ncomps, all_comps. rewrite !app_length.
      rewrite (concat_length_eq g o3 LO3). lia.
  - destruct v as [| | | | | | |vs|]; try contradiction. cbn [supported_by] in S. destruct S as (_ & S).
    cbn [enc] in E. destruct (enc_list (enc t) vs) as [body|] eqn:EL; [|discriminate]. clear E.
    cbn [canon_by reading Received.moved]. f_equal. revert body EL. induction vs as [|v vs IH]; intros body EL; [reflexivity|].
    cbn [map] in S. apply all_of_cons in S as (S1 & S).
    cbn [enc_list] in EL. destruct (enc t v) as [f1|] eqn:E1; [|discriminate]. cbn [bind] in EL.
    destruct (enc_list (enc t) vs) as [f2|] eqn:E2; [|discriminate].
    cbn [map]. f_equal; [eapply IHt; eauto|eapply IH; eauto].
  - destruct v as [| | | | | | | |[[i v']|]]; try contradiction.
    cbn [Received.still] in St. rewrite all_att, all_of_forall in St. unfold att in St. rewrite Forall_map in St. cbn [snd] in St.
    cbn [supported_by] in S. destruct S as (ND & Hext & Hn & S). rewrite all_att, nth_error_att in S.
    cbn [enc] in E.
    assert (EM : map (fun c0 : comp ty => (cname c0, enc (cty c0))) r ++
               map (fun c0 => (cname c0, enc (cty c0))) a ++
               List.concat (map (map (fun c0 => (cname c0, enc (cty c0)))) g) =
               map (fun c0 => (cname c0, enc (cty c0))) (all_comps r a g)).
    { unfold all_comps. rewrite !map_app, concat_map. reflexivity. }
    rewrite EM, nth_error_map in E. clear EM.
    destruct (nth_error (all_comps r a g) i) as [c|] eqn:EC; [|contradiction].
    cbn [fst snd option_map] in *. destruct S as (Sv & _).
    destruct (enc (cty c) v') as [body|] eqn:EB; [|discriminate].
    cbn [canon_by]. rewrite all_att, nth_error_att, EC. cbn [snd].
    cbn [reading]. rewrite all_att, nth_error_att, EC. cbn [snd].
    cbn [Received.moved]. rewrite all_att, nth_error_att, EC. cbn [snd].
    assert (K : moves (cty c)).
    { apply nth_error_In in EC. assert (F : Forall (fun c => moves (cty c)) (all_comps r a g)).
      { unfold all_comps. apply Forall_app. split; auto. apply Forall_app. split; auto. now apply Forall_concat. }
      rewrite Forall_forall in F. now apply F. }
    rewrite Forall_forall in St. do 3 f_equal. eapply K; eauto. apply St. now apply (nth_error_In _ i).
Qed.
End Moved.

(** * Schemas *)

Lemma safe_arrives c bs : safe_octs c = true -> arrives c bs = bs.
Proof.
  intros S. unfold safe_octs in S. apply andb_true_iff in S as (_ & S). unfold arrives.
  destruct (cext c && negb (inside c (zlen bs))); [reflexivity|].
  destruct (clo c) as [l|]; [|reflexivity]. destruct (chi c) as [h|]; [|reflexivity].
  destruct bs as [|b r]; [reflexivity|]. replace (l <? h) with false by lia. reflexivity.
Qed.

Lemma kept_arrives c bs : Forall (fun b => 0 <= b < 256) bs -> digits_kept bs -> arrives c bs = bs.
Proof.
  intros O K. unfold arrives. destruct (cext c && negb (inside c (zlen bs))); [reflexivity|].
  destruct (clo c) as [l|]; [|reflexivity]. destruct (chi c) as [h|]; [|reflexivity].
  destruct bs as [|b r]; [reflexivity|]. destruct (l <? h); [|reflexivity]. apply shifted_kept; [exact O|discriminate|exact K].
Qed.

Lemma still_of c : safe_default c = true -> default_shown c = true -> still_default arrives c.
Proof.
  unfold safe_default, default_shown, still_default. destruct (cpres c) as [| |d]; auto. intros F Dn.
  apply andb_true_iff in F as (F & _). destruct (cty c); cbn [fits] in F; try discriminate; destruct d; try discriminate; try reflexivity.
  cbn [reading moved]. f_equal. apply andb_true_iff in F as (_ & F). apply orb_true_iff in Dn as [Dn|Dn].
  - now apply safe_arrives.
  - apply kept_arrives; [|now apply digits_keptb_ok]. rewrite Forall_forall. rewrite forallb_forall in F. intros b Ib.
    specialize (F b Ib). lia.
Qed.

Lemma settled_still o t : safe_by o t = true -> settled t = true -> still arrives t.
Proof.
  induction t using ty_rect'; intros Sf Se; cbn [still]; try exact Logic.I.
  - cbn [safe_by settled] in *. apply andb_true_iff in Sf as (Sf & S3). apply three_all in S3. apply three_all in Se.
    pose proof (all_three _ r a g H H0 H1) as HA. rewrite Forall_forall in S3, Se, HA.
    apply andb_true_iff in Sf as (Sf & Sg). apply andb_true_iff in Sf as (Sf & Sa). apply andb_true_iff in Sf as (_ & Sr).
    assert (SD : forall c, In c (all_comps r a g) -> safe_default c = true).
    { intros c Ic. unfold all_comps in Ic. rewrite !in_app_iff in Ic. rewrite !forallb_forall in *. destruct Ic as [Ic|[Ic|Ic]].
      - specialize (Sr c Ic). unfold safe_root in Sr. now apply andb_true_iff in Sr as (Sr & _).
      - specialize (Sa c Ic). unfold safe_add in Sa. now apply andb_true_iff in Sa as (Sa & _).
      - apply in_concat in Ic as (x & Ix & Ic). specialize (Sg x Ix). rewrite forallb_forall in Sg. specialize (Sg c Ic).
        unfold safe_add in Sg. now apply andb_true_iff in Sg as (Sg & _). }
    rewrite all_att, all_of_forall. unfold att. rewrite Forall_map, Forall_forall. intros c Ic. specialize (Se c Ic).
    apply andb_true_iff in Se as (S1 & S2). split; cbn [fst snd]; [apply HA; auto|apply still_of; auto].
  - cbn [safe_by settled] in *. apply andb_true_iff in Sf as (_ & Sf). auto.
  - cbn [safe_by settled] in *. apply andb_true_iff in Sf as (_ & S3). apply three_all in S3. apply three_all in Se.
    pose proof (all_three _ r a g H H0 H1) as HA. rewrite Forall_forall in S3, Se, HA.
    rewrite all_att, all_of_forall. unfold att. rewrite Forall_map, Forall_forall. intros c Ic. apply HA; auto.
Qed.

Lemma received_by {rule} {asked : constr -> list Z -> Prop} t :
  (forall c bs, rule c = true -> sat c (zlen bs) -> Forall (fun b => 0 <= b < 256) bs ->
    asked c bs -> octs_read c bs /\ bounded_ext c /\ fixed_small c) ->
  forall v, safe_by rule t = true -> settled t = true -> message t v -> modest_by asked t v ->
  exists bs v', encode t v = Ok bs /\ decode bs t = Ok v' /\ reading t v' = moved arrives t (reading t v).
Proof.
  intros RD v Sf Se M Md. destruct (read_back t RD v Sf M Md) as (bs & E & Dv). exists bs, (canon_by arrives t v).
  split; [exact E|]. split; [exact Dv|]. destruct (safe_good (ok := octs_read) t RD Sf v M Md) as (Su & _).
  apply encode_inv in E as (fs & E & _). apply (moves_all (kept := octs_read) t (settled_still rule t Sf Se) v fs Su E).
Qed.

(** What is read is what was sent, with the digits of its strings moved. *)
Theorem C72_received : forall t v, mild t = true -> message t v -> modest_by arriving_size t v ->
  exists bs v', encode t v = Ok bs /\ decode bs t = Ok v' /\ reading t v' = moved arrives t (reading t v).
Proof.
  intros t v Mi M Md. unfold mild in Mi. apply andb_true_iff in Mi as (Sf & Se). exact (received_by t mild_read v Sf Se M Md).
Qed.

Theorem C72_received_all : forall t v, safe_by upward_octs t = true -> settled t = true -> message t v -> modest t v ->
  exists bs v', encode t v = Ok bs /\ decode bs t = Ok v' /\ reading t v' = moved arrives t (reading t v).
Proof. intros t v Sf Se M Md. exact (received_by t upward_read v Sf Se M Md). Qed.

Lemma upward_mild c : upward_octs c = true -> mild_octs c = true.
Proof.
  unfold upward_octs, mild_octs. intros S. apply orb_true_iff in S as [S|S]; [now rewrite S|]. apply orb_true_iff. right.
  destruct c as [| | |e lo hi| | |]; try discriminate. destruct e; [discriminate|]. destruct lo as [l|]; [|discriminate].
  destruct hi as [h|]; [|discriminate]. unfold regularb. cbn [cext clo chi unmarked orb negb andb]. lia.
Qed.

(** The checks of the schema. *)
Definition upward (t : ty) : bool := safe_by upward_octs t && settled t && standard t && limited t && bare t.

(** The octets X.691 prescribes for any value, whoever sends them, are read as the
    value with the digits of its strings moved; none are refused. *)
Theorem C72_any_sender : forall t a bs, upward t = true -> Peers.valid t a -> PER t a bs ->
  exists v, decode bs t = Ok v /\ reading t v = moved arrives t a.
Proof.
  unfold upward. intros t a bs T V P. apply andb_true_iff in T as (T & Ba). apply andb_true_iff in T as (T & Li).
  apply andb_true_iff in T as (T & St). apply andb_true_iff in T as (Sf & Se).
  destruct (values_told t Sf Ba a V) as (M & Ea).
  assert (Md : modest t (unread t a)) by now apply (limited_calm upward_sane).
  assert (Br : brief t (unread t a)) by now apply (limited_brief upward_octs).
  destruct (C72_received_all t (unread t a) Sf Se M Md) as (bs0 & v & E & Dv & Rv).
  pose proof (C45_conforms_partial t (unread t a) bs0
    (standard_sound t (fun c x U => mild_standard c x (upward_mild c U)) Sf St _ M Md Br) E) as P0.
  rewrite Ea in P0, Rv. rewrite (C45_unique _ _ _ _ P P0). exists v. auto.
Qed.

Example C72_received_case : mild strings = true /\ message strings zeros /\ modest_by arriving_size strings zeros /\
  reading strings zeros = ASeq [Some (AOcts [0; 5]); Some (AOcts [1; 2; 3]); Some (AOcts [0; 18; 52])] /\
  moved arrives strings (reading strings zeros) = ASeq [Some (AOcts [0; 5]); Some (AOcts [16; 32; 48]); Some (AOcts [18; 52])] /\
  exists bs v', encode strings zeros = Ok bs /\ decode bs strings = Ok v' /\
    reading strings v' = moved arrives strings (reading strings zeros).
Proof.
  destruct C72_case as (_ & M & Md & _). assert (Mi : mild strings = true) by (vm_compute; reflexivity).
  split; [exact Mi|]. split; [exact M|]. split; [exact Md|]. split; [reflexivity|]. split; [vm_compute; reflexivity|].
  now apply C72_received.
Qed.
