(** When encode answers with bytes: a complete message inside the implemented
    limits is never refused. *)
From Coq Require Import ZArith List String Bool Lia ZifyBool ZifyNat ZifyN.
Import ListNotations.
From Verif Require Import PyBase Schema Encoder Decoder BitFacts Stream Prims Spec SimpleTypes RoundTrip Reading.
Open Scope Z_scope.
Ltac Zify.zify_post_hook ::= Z.div_mod_to_equations.

(** * Specification: [ready] *)

(** The extension marker follows a root with two finite end points. *)
Definition bounded_ext (c : constr) : Prop :=
  cext c = true -> clo c <> None /\ chi c <> None.

(** A fixed size is below 64K. *)
Definition fixed_small (c : constr) : Prop :=
  forall l, clo c = Some l -> chi c = Some l -> l < 65536.

(** Two values of one simple type, both given. *)
Definition same_kind (d v : val) : Prop :=
  match d, v with
  | VBool _, VBool _ | VInt _, VInt _ | VEnum _, VEnum _
  | VBits _, VBits _ | VOcts _, VOcts _ => True
  | _, _ => False
  end.

(** Entries (may be absent or is present, has a value): nothing with a value
    after a hole. *)
Fixpoint no_gap (l : list (bool * bool)) : Prop :=
  match l with
  | [] => True
  | (o, p) :: r => ((exists x, In x r /\ snd x = true) -> o = true) /\ no_gap r
  end.

Definition comp_flag (c : comp ty) (s : option val) : bool * bool :=
  (is_optional c || present (cty c) (slot_get c s), is_value (cty c) (slot_get c s)).

Definition ready_root (ca : comp ty * (val -> Prop)) (s : option val) : Prop :=
  let c := fst ca in
  let v := slot_get c s in
  match cpres c with
  | Mand => snd ca v
  | Opt => present (cty c) v = true -> snd ca v
  | Dflt d => same_kind d v /\ (v <> d -> snd ca v)
  end.

Definition ready_add (ca : comp ty * (val -> Prop)) (s : option val) : Prop :=
  let v := slot_get (fst ca) s in present (cty (fst ca)) v = true -> snd ca v.

Definition ready_group (g : list (comp ty * (val -> Prop))) (ss : list (option val)) : Prop :=
  no_gap (zipw comp_flag (map fst g) ss) /\
  (group_valued (map fst g) ss = true ->
   Z.of_nat (optional_count (map fst g)) < 65536 /\ all_of (zipw ready_root g ss)).

Fixpoint ready_groups (gs : list (list (comp ty * (val -> Prop)))) (ss : list (option val)) : Prop :=
  match gs with
  | [] => True
  | g :: gs' => ready_group g ss /\ ready_groups gs' (skipn (List.length g) ss)
  end.

(** A group may be absent when one of its components is OPTIONAL. *)
Fixpoint group_flags (gs : list (list (comp ty))) (ss : list (option val)) : list (bool * bool) :=
  match gs with
  | [] => []
  | g :: gs' =>
      (existsb is_optional g || group_valued g ss, group_valued g ss) :: group_flags gs' (skipn (List.length g) ss)
  end.

Fixpoint ready (t : ty) (v : val) {struct t} : Prop :=
  match t, v with
  | TInt c, _ => bounded_ext c
  | TBits c, _ | TOcts c, _ => bounded_ext c /\ fixed_small c
  | TSeqOf c t', VSeqOf vs => bounded_ext c /\ all_of (map (ready t') vs)
  | TChoice _ root adds groups, VChoice (Some (i, v')) =>
      match nth_error (att ready root ++ att ready adds ++ List.concat (map (att ready) groups)) i with
      | Some ca => snd ca v'
      | None => False
      end
  | TSeq ext root adds groups, VSeq slots =>
      let ss := slots_list (ncomps root adds groups) slots in
      let s2 := skipn (List.length root) ss in
      let s3 := skipn (List.length root + List.length adds) ss in
      Z.of_nat (optional_count root) < 65536 /\
      zlen adds + zlen groups <= 64 /\ Forall (fun g => g <> []) groups /\
      all_of (zipw ready_root (att ready root) ss) /\
      all_of (zipw ready_add (att ready adds) s2) /\
      ready_groups (map (att ready) groups) s3 /\
      no_gap (zipw comp_flag adds s2) /\ no_gap (group_flags groups s3)
  | _, _ => True
  end.

(** * Simple types *)

Lemma chain_total c n : bounded_ext c -> cext c = true ->
  chain_le (clo c) n (chi c) = Ok (inside c n).
Proof.
  intros B X. destruct (B X) as (B1 & B2). unfold chain_le, inside.
  destruct (clo c) as [l|]; [|congruence]. destruct (chi c) as [h|]; [|congruence].
  cbn [need bind]. destruct (l <=? n); reflexivity.
Qed.

Lemma int_total c z : int_ok c z -> bounded_ext c -> exists fs, encode_integer c z = Ok fs.
Proof.
  intros (Ht & H) B. unfold encode_integer.
  assert (S : forall x : Z, sfits 255 x -> Z.of_nat (toct x) < 256).
  { intros x Hx. apply toct_sfits in Hx; lia. }
  destruct (cext c) eqn:X.
  - rewrite chain_total by auto. cbn [bind]. destruct (B X) as (B1 & B2). unfold inside in *.
    destruct (clo c) as [l|]; [|congruence]. destruct (chi c) as [h|]; [|congruence].
    destruct ((l <=? z) && (z <=? h)) eqn:I.
    + rewrite cwn_fields_ok by (clear H; lia). cbn [bind]. eauto.
    + destruct H as (_ & H). rewrite unconstrained_ok by auto. cbn [bind]. eauto.
  - unfold inside in H. destruct (clo c) as [l|].
    + destruct (chi c) as [h|].
      * destruct ((l <=? z) && (z <=? h)) eqn:I; [|destruct H; discriminate].
        rewrite cwn_fields_ok by (clear H; lia). eauto.
      * pose proof (ufits_nonneg _ _ H) as Hnn. apply noct_ufits in H; [|clear H; lia..].
        unfold encode_semi_constrained_whole_number. rewrite min_octets_ok by lia. cbn [bind fbits].
        rewrite octets_of_to_bits, length_unconstrained_ok by lia. cbn [bind]. eauto.
    + destruct H as (_ & H). rewrite unconstrained_ok by auto. destruct (chi c); eauto.
Qed.

Lemma enum_total ext root adds z : enum_ok ext root adds z ->
  exists fs, encode_enumerated ext root adds z = Ok fs.
Proof.
  intros (N & Hin & Hroot & Hne & Hadd). destruct (numbered_in _ _ _ N Hin) as (Hz & Hr).
  unfold encode_enumerated. destruct ext; cbn [negb].
  - destruct (existsb (Z.eqb z) root) eqn:I.
    + apply existsb_Zeqb in I. apply Hr in I. rewrite cwn_fields_ok by (clear Hadd; lia). cbn [bind]. eauto.
    + assert (NI : ~ In z root) by (intros K; apply existsb_Zeqb in K; congruence).
      assert (IA : In z adds) by (apply in_app_or in Hin; tauto).
      rewrite (zindex_numbered root adds) by auto. cbn [bind].
      assert (zlen root <= z) by (destruct (Z.le_gt_cases (zlen root) z); [auto|exfalso; apply NI, Hr; auto]).
      assert (U : ufits 16383 (z - zlen root)).
      { eapply ufits_le; [|exact Hadd]. unfold zlen in Hz. rewrite app_length in Hz. unfold zlen.
        clear Hadd. unfold zlen in *. lia. }
      clear Hadd. apply noct_ufits in U; [|clear U; lia..].
      rewrite normally_small_ok by lia. cbn [bind]. eauto.
  - rewrite cwn_fields_ok by (clear Hadd; lia). eauto.
Qed.

Lemma bits_after_total c s :
  (match clo c, chi c with
   | _, Some 0 => True
   | Some l, Some h => s <> [] /\ 0 <= l <= zlen s /\ zlen s <= h /\ (65536 <= h -> zlen s < 16384)
   | None, Some h => s <> [] /\ zlen s <= h /\ 65536 <= h /\ zlen s < 16384
   | _, None => s <> [] /\ zlen s < 16384
   end) -> fixed_small c -> exists o, bits_after c s = Ok o.
Proof.
  intros H FS. unfold bits_after. cbv zeta. unfold fixed_small in FS.
  destruct (chi c) as [h|] eqn:Ch.
  - cbn [opt_is truthy lt65536]. destruct (Z.eqb_spec h 0) as [->|Hh]; [eauto|]. cbn [negb andb].
    destruct (clo c) as [l|] eqn:Cl; cbn [some_eq].
    + assert (H' : s <> [] /\ 0 <= l <= zlen s /\ zlen s <= h /\ (65536 <= h -> zlen s < 16384))
        by (destruct h; auto; lia).
      clear H. destruct H' as (Hn & H1 & H2 & H3). destruct (Z.eqb_spec l h) as [->|].
      * specialize (FS h eq_refl eq_refl). destruct (Z.leb_spec (zlen s) 16); [eauto|].
        replace ((16 <? zlen s) && (zlen s <? 65536)) with true by lia. eauto.
      * destruct (Z.ltb_spec h 65536).
        -- rewrite length_constrained_ok by lia. cbn [bind]. eauto.
        -- rewrite length_unconstrained_ok by lia. cbn [bind]. eauto.
    + assert (H' : s <> [] /\ zlen s <= h /\ 65536 <= h /\ zlen s < 16384) by (destruct h; auto; lia).
      destruct H' as (Hn & H1 & H2 & H3). pose proof (zlen_pos s Hn).
      replace (h <? 65536) with false by lia. cbn [andb].
      rewrite length_unconstrained_ok by lia. cbn [bind]. eauto.
  - assert (H' : s <> [] /\ zlen s < 16384) by (destruct (clo c); auto). destruct H' as (Hn & H1).
    pose proof (zlen_pos s Hn). cbn [opt_is truthy andb].
    replace (some_eq (clo c) None) with false by (destruct (clo c); reflexivity).
    rewrite length_unconstrained_ok by lia. cbn [bind]. eauto.
Qed.

Lemma bits_total c s : bits_ok c s -> bounded_ext c -> fixed_small c ->
  exists fs, fill (encode_bitstring c s) = Ok fs.
Proof.
  unfold bits_ok. cbv zeta. intros (Ht & H) B FS. rewrite encode_bits_eq. cbv zeta.
  destruct (cext c) eqn:X; cbn [andb] in H.
  - assert (Hn : s <> []).
    { destruct (inside c (zlen s)); cbn [negb] in H; [|tauto].
      destruct (clo c), (chi c) as [[| |]|]; try tauto; destruct H; discriminate. }
    rewrite as_binary_id by auto. rewrite chain_total by auto. cbn [bind].
    destruct (inside c (zlen s)) eqn:I; cbn [negb] in H.
    + destruct (bits_after_total c s) as (o & Eo); auto.
      { destruct (clo c), (chi c) as [[| |]|]; auto. }
      rewrite Eo. cbn [bind]. unfold fill. destruct o; cbn [bind]; eauto.
    + destruct H as (_ & Hl & _). pose proof (zlen_pos s Hn).
      rewrite length_unconstrained_ok by lia. cbn [bind fill]. eauto.
  - destruct (opt_is (chi c) 0) eqn:Z0.
    + unfold bits_after. rewrite Z0. cbn [fill bind]. eauto.
    + assert (Hn : s <> []).
      { destruct (clo c), (chi c) as [[| |]|]; try tauto; discriminate. }
      rewrite as_binary_id by auto.
      destruct (bits_after_total c s) as (o & Eo); auto.
      { destruct (clo c), (chi c) as [[| |]|]; auto. }
      rewrite Eo. unfold fill. cbn [bind]. eauto.
Qed.

Lemma octs_after_total c bs :
  (match clo c, chi c with
    | _, Some 0 => True
    | Some l, Some h => 0 <= l <= zlen bs /\ zlen bs <= h
    | None, Some _ => False
    | _, None => 1 <= zlen bs < 16384
    end) -> fixed_small c -> exists o, octs_after c bs = Ok o.
Proof.
  intros H FS. unfold octs_after. cbv zeta. unfold fixed_small in FS.
  destruct (chi c) as [h|] eqn:Ch.
  - cbn [opt_is truthy]. destruct (Z.eqb_spec h 0) as [->|Hh]; [eauto|]. cbn [negb].
    destruct (clo c) as [l|] eqn:Cl; cbn [some_eq]; [|destruct h; [lia|contradiction..]].
    assert (H' : 0 <= l <= zlen bs /\ zlen bs <= h) by (destruct h; auto; lia).
    clear H. destruct (Z.eqb_spec l h) as [->|].
    + specialize (FS h eq_refl eq_refl). destruct (Z.leb_spec (zlen bs) 2); [eauto|].
      replace ((2 <? zlen bs) && (zlen bs <? 65536)) with true by lia. eauto.
    + rewrite length_constrained_ok by lia. cbn [bind]. eauto.
  - assert (H' : 1 <= zlen bs < 16384) by (destruct (clo c); auto).
    cbn [opt_is truthy andb].
    replace (some_eq (clo c) None) with false by (destruct (clo c); reflexivity).
    rewrite length_unconstrained_ok by lia. cbn [bind]. eauto.
Qed.

Lemma octs_total c bs : octs_sent c bs -> bounded_ext c -> fixed_small c ->
  exists fs, fill (encode_octetstring c bs) = Ok fs.
Proof.
  unfold octs_sent. cbv zeta. intros (Ho & Ht & H) B FS. fold octet in Ho. rewrite encode_octs_eq by auto.
  destruct (cext c) eqn:X; cbn [andb] in H.
  - rewrite chain_total by auto. cbn [bind].
    destruct (inside c (zlen bs)) eqn:I; cbn [negb] in H.
    + destruct (octs_after_total c bs) as (o & Eo); auto.
      rewrite Eo. unfold fill. destruct o; cbn [bind]; eauto.
    + assert (0 <= zlen bs) by (unfold zlen; lia).
      rewrite length_unconstrained_ok by lia. cbn [bind fill]. eauto.
  - destruct (octs_after_total c bs) as (o & Eo); auto.
    rewrite Eo. unfold fill. cbn [bind]. eauto.
Qed.

Lemma octs_ok_sent c bs : octs_ok c bs -> octs_sent c bs.
Proof.
  unfold octs_ok, octs_sent. cbv zeta. destruct (cext c && negb (inside c (zlen bs))); [auto|].
  destruct (clo c), (chi c) as [[| |]|]; tauto.
Qed.

(** * Constructed types *)

Section Total.
Context {k : constr -> list Z -> Prop} (KS : forall c bs, k c bs -> octs_sent c bs).
Local Notation supported := (supported_by k).

Definition total (t : ty) : Prop :=
  forall v, supported t v -> ready t v -> exists fs, enc t v = Ok fs.

Lemma same_kind_raw d v : same_kind d v -> exists b, raw_ne d v = Ok b.
Proof. destruct d, v; cbn; try contradiction; eauto. Qed.

Lemma root_total look cs ss : Forall (fun c => total (cty c)) cs -> Forall2 (looks look) cs ss ->
  all_of (zipw supp_root (att supported cs) ss) -> all_of (zipw ready_root (att ready cs) ss) ->
  exists (bm : bits) fs, enc_root enc look cs = Ok (bm, fs) /\ len bm = optional_count cs.
Proof.
  intros T H. revert T. induction H as [|c s cs ss Hl H IH]; intros T S R; [exists [], []; auto|].
  inversion T as [|? ? T1 T2]; subst. cbn [att map zipw] in S, R.
  apply all_of_cons in S as (S1 & S). apply all_of_cons in R as (R1 & R).
  destruct (IH T2 S R) as (bm & fs & E & L). cbn [enc_root]. rewrite Hl. cbn [bind].
  rewrite optional_count_cons. unfold isopt, is_optional, is_defaulted.
  unfold supp_root in S1. unfold ready_root in R1. cbn [fst snd] in S1, R1. cbv zeta in S1, R1.
  destruct (cpres c) as [| |d].
  - destruct (T1 _ S1 R1) as (f & Ef). rewrite Ef. cbn [bind]. rewrite E. cbn [bind fst snd app orb].
    eexists _, _. split; [reflexivity|]. exact L.
  - rewrite <- present_eq. destruct (present (cty c) (slot_get c s)) eqn:V.
    + destruct (S1 eq_refl) as (C & S2).
      destruct (T1 _ S2 (R1 eq_refl)) as (f & Ef). rewrite Ef. cbn [bind]. rewrite E. cbn [bind fst snd app].
      eexists _, _. split; [reflexivity|]. cbn [List.length orb]. lia.
    + cbn [bind]. rewrite E. cbn [bind fst snd app]. eexists _, _. split; [reflexivity|].
      cbn [List.length orb]. lia.
  - destruct S1 as (SD & SV), R1 as (K & RV). destruct (same_kind_raw _ _ K) as (b & Eb). rewrite Eb.
    cbn [bind]. pose proof (default_decided _ _ _ SD Eb) as DD. destruct b.
    + assert (N : slot_get c s <> d) by (intros X; apply DD in X; discriminate).
      destruct (T1 _ (SV N) (RV N)) as (f & Ef). rewrite Ef. cbn [bind]. rewrite E. cbn [bind fst snd app].
      eexists _, _. split; [reflexivity|]. cbn [List.length orb]. lia.
    + cbn [bind]. rewrite E. cbn [bind fst snd app]. eexists _, _. split; [reflexivity|].
      cbn [List.length orb]. lia.
Qed.

Lemma root_fields_total (bm : bits) fs n : len bm = n -> Z.of_nat n < 65536 -> exists rf, root_fields (bm, fs) = Ok rf.
Proof.
  intros L H. unfold root_fields. cbn [fst snd]. destruct bm as [|b bm]; [eauto|].
  unfold zlen. rewrite L. replace (Z.of_nat n <? 65536) with true by lia. eauto.
Qed.

Lemma open_total fs : zlen (octs_of (produce_complete_encoding fs)) < 16384 ->
  exists o, encode_open_type_field fs = Ok o.
Proof.
  intros H. unfold encode_open_type_field.
  assert (E : octets_of (produce_complete_encoding fs) = zlen (octs_of (produce_complete_encoding fs))).
  { rewrite <- (octets_of_obits (octs_of _)), octs_of_obits by apply produce_mod8. reflexivity. }
  rewrite E, length_unconstrained_ok by (unfold zlen in *; lia). cbn [bind]. eauto.
Qed.

Lemma no_gap_head o p r : no_gap ((o, p) :: r) -> existsb snd r = true -> o = true.
Proof.
  intros (H & _) E. apply existsb_exists in E as (x & Hx & Px). apply H. eauto.
Qed.

(** A hole just before is not followed by anything. *)
Definition prev_fine (p : option prev_comp) (l : list (bool * bool)) : Prop :=
  existsb snd l = true -> prev_missing p = None.

Lemma adds_total look cs ss prev : Forall (fun c => total (cty c)) cs -> Forall2 (looks look) cs ss ->
  all_of (zipw supp_add (att supported cs) ss) -> all_of (zipw ready_add (att ready cs) ss) ->
  no_gap (zipw comp_flag cs ss) -> prev_fine prev (zipw comp_flag cs ss) ->
  exists (bm : bits) fs, enc_adds enc look prev cs = Ok (bm, fs) /\ len bm = len cs.
Proof.
  intros T H. revert T prev. induction H as [|c s cs ss Hl H IH]; intros T prev S R G P; [exists [], []; auto|].
  inversion T as [|? ? T1 T2]; subst. cbn [att map zipw] in S, R, G, P.
  apply all_of_cons in S as (S1 & S). apply all_of_cons in R as (R1 & R).
  cbn [enc_adds]. rewrite Hl. cbn [bind].
  destruct S1 as (_ & S1). unfold ready_add in R1. cbn [fst snd] in *. cbv zeta in *.
  unfold comp_flag at 1 in G. unfold comp_flag at 1 in P. pose proof (no_gap_head _ _ _ G) as G1. destruct G as (_ & G).
  destruct (present (cty c) (slot_get c s)) eqn:V.
  - rewrite present_eq in V. apply andb_true_iff in V as (V & V2). rewrite V in *. rewrite V2.
    unfold prev_fine in P. cbn [existsb snd orb] in P. rewrite (P eq_refl).
    destruct (S1 eq_refl) as (C & S2 & O).
    destruct (T1 _ S2 (R1 eq_refl)) as (f & Ef). rewrite Ef. cbn [bind].
    destruct (open_total f (open_small_enc _ _ _ O Ef)) as (o & Eo). rewrite Eo. cbn [bind fst snd].
    destruct (IH T2 (Some (Prev (cname c) true (is_optional c))) S R G) as (bm & fs & E & L).
    { intros _. reflexivity. }
    fold (enc_adds enc look). rewrite E. cbn [bind fst snd]. eexists _, _. split; [reflexivity|].
    cbn [List.length]. lia.
  - match goal with |- exists bm fs, bind ?x _ = _ /\ _ => assert (X : x = Ok (false, [])) end.
    { rewrite present_eq in V. destruct (is_value (cty c) (slot_get c s)) eqn:V1; [|reflexivity].
      unfold prev_fine in P. cbn [existsb snd orb] in P. rewrite (P eq_refl).
      cbn [andb] in V. rewrite V. reflexivity. }
    rewrite X. clear X. cbn [bind fst snd].
    destruct (IH T2 (Some (Prev (cname c) false (is_optional c))) S R G) as (bm & fs & E & L).
    { intros X. specialize (G1 X). rewrite orb_false_r in G1. unfold prev_missing. cbn [ppresent poptional].
      rewrite G1. reflexivity. }
    fold (enc_adds enc look). rewrite E. cbn [bind fst snd]. eexists _, _. split; [reflexivity|].
    cbn [List.length]. lia.
Qed.

Lemma scan_total look cs ss prev : Forall2 (looks look) cs ss ->
  no_gap (zipw comp_flag cs ss) -> prev_fine prev (zipw comp_flag cs ss) ->
  exists ps, group_scan look prev cs = Ok ps /\
    existsb (fun p => ppresent p || poptional p) ps = existsb is_optional cs || group_valued cs ss /\
    len ps = len cs.
Proof.
  intros H. revert prev. induction H as [|c s cs ss Hl H IH]; intros prev G P; [exists []; auto|].
  cbn [zipw] in G, P.
  cbn [group_scan]. rewrite Hl. cbn [bind].
  unfold comp_flag at 1 in G. unfold comp_flag at 1 in P. pose proof (no_gap_head _ _ _ G) as G1. destruct G as (_ & G).
  unfold group_valued. cbn [zipw existsb]. fold (group_valued cs ss).
  match goal with |- exists ps, bind ?x _ = _ /\ _ => assert (X : x = Ok (present (cty c) (slot_get c s))) end.
  { rewrite present_eq. destruct (is_value (cty c) (slot_get c s)) eqn:V1; [|reflexivity].
    unfold prev_fine in P. cbn [existsb snd orb] in P. rewrite (P eq_refl). reflexivity. }
  rewrite X. clear X. cbn [bind].
  destruct (IH (Some (Prev (cname c) (present (cty c) (slot_get c s)) (is_optional c)))) as (ps & E & X & L); auto.
  { intros X. specialize (G1 X). unfold prev_missing. cbn [ppresent poptional].
    destruct (present (cty c) (slot_get c s)), (is_optional c); (reflexivity || discriminate). }
  fold (group_scan look). rewrite E. cbn [bind]. eexists. split; [reflexivity|].
  cbn [existsb ppresent poptional List.length]. rewrite X. split; [|lia].
  destruct (present (cty c) (slot_get c s)), (is_optional c), (existsb is_optional cs); reflexivity.
Qed.

Definition prevg_fine (p : option (list prev_comp)) (l : list (bool * bool)) : Prop :=
  existsb snd l = true ->
  match p with None => True | Some ps => existsb (fun p => ppresent p || poptional p) ps = true end.

Lemma groups_total look gs : Forall (Forall (fun c => total (cty c))) gs -> forall ss prevg,
  NoDup (map cname (List.concat gs)) ->
  Forall2 (looks look) (List.concat gs) ss ->
  supp_groups (map (att supported) gs) ss -> ready_groups (map (att ready) gs) ss ->
  no_gap (group_flags gs ss) -> prevg_fine prevg (group_flags gs ss) ->
  exists (bm : bits) fs, enc_groups enc look prevg gs = Ok (bm, fs) /\ len bm = len gs.
Proof.
  induction 1 as [|g gs Tg T IH]; intros ss prevg ND HL S R G P; [exists [], []; auto|].
  cbn [List.concat] in HL, ND. rewrite map_app in ND.
  apply Forall2_app_inv_l in HL as (s1 & s2 & HL1 & HL2 & ->).
  pose proof (Forall2_length _ _ _ HL1) as L1.
  cbn [map supp_groups ready_groups group_flags] in S, R, G, P.
  rewrite att_length, skipn_len_app in S, R by auto. rewrite skipn_len_app in G, P by auto.
  destruct S as (S1 & S), R as (R1 & R).
  unfold supp_group in S1. unfold ready_group in R1.
  rewrite att_fst, group_valued_app, !zipw_app_r, firstn_len_app in S1 by (rewrite ?att_length; lia).
  rewrite att_fst, group_valued_app, !zipw_app_r in R1 by (rewrite ?att_length; lia).
  rewrite group_valued_app in G, P by lia.
  destruct S1 as (_ & S1). pose proof (no_gap_head _ _ _ G) as G1. destruct G as (_ & G).
  cbn [enc_groups].
  destruct R1 as (RG & R1).
  destruct (scan_total look g s1 None HL1 RG ltac:(intros _; reflexivity)) as (ps & Eps & X & Lp).
  rewrite Eps. cbn [bind].
  destruct (group_valued g s1) eqn:V.
  - destruct (S1 eq_refl) as (SR & SC & SO). destruct (R1 eq_refl) as (RO & RR).
    apply Forall2_all_of in SC; auto.
    rewrite (group_scan_present look g s1 None ps), (group_valued_sent g s1) by auto.
    assert (PF : match prevg with None => True | Some ps => existsb (fun p => ppresent p || poptional p) ps = true end).
    { apply P. reflexivity. }
    assert (PO : match prevg with
              | None => Ok tt
              | Some pps =>
                  if existsb (fun p => ppresent p || poptional p) pps then Ok tt
                  else match pps with
                       | [] => Err PyIndexError
                       | p :: _ => Err (MandatoryExtensionFieldNotPresent (pname p))
                       end
              end = Ok tt) by (destruct prevg; [rewrite PF|]; reflexivity).
    rewrite PO. cbn [bind].
    destruct (root_total look g s1 Tg HL1 SR RR) as (rb & rfs & Er & Lr). rewrite Er. cbn [bind].
    destruct (root_fields_total rb rfs _ Lr RO) as (rf & Erf). rewrite Erf. cbn [bind].
    pose proof (group_open look g s1 rb rfs rf (NoDup_app_l _ _ ND) HL1 Er Erf SO) as GO.
    destruct (open_total rf GO) as (o & Eo). rewrite Eo. cbn [bind fst snd].
    destruct (IH s2 (Some ps)) as (bm & fs & E & L); auto.
    { now apply NoDup_app_r in ND. }
    { intros _. rewrite X, orb_true_r. reflexivity. }
    fold (enc_groups enc look). rewrite E. cbn [bind fst snd]. eexists _, _. split; [reflexivity|].
    cbn [List.length]. lia.
  - rewrite (group_scan_present look g s1 None ps) by auto.
    destruct (group_sent g s1) eqn:GS; [apply group_sent_some in GS; congruence|]. cbn [bind fst snd].
    destruct (IH s2 (Some ps)) as (bm & fs & E & L); auto.
    { now apply NoDup_app_r in ND. }
    { intros Y. specialize (G1 Y). now rewrite X. }
    fold (enc_groups enc look). rewrite E. cbn [bind fst snd]. eexists _, _. split; [reflexivity|].
    cbn [List.length]. lia.
Qed.

Lemma seq_total ext root adds groups :
  Forall (fun c => total (cty c)) root -> Forall (fun c => total (cty c)) adds ->
  Forall (Forall (fun c => total (cty c))) groups -> total (TSeq ext root adds groups).
Proof.
  intros Tr Ta Tg v S R. destruct v as [| | | | | |slots| |]; try contradiction.
  cbn [supported_by] in S. cbv zeta in S. destruct S as (ND & L & Hext & SR & SA & SG).
  cbn [ready] in R. cbv zeta in R. destruct R as (RO & RN & _ & RR & RA & RG & GA & GG).
  cbn [enc]. unfold encode_sequence. cbv zeta.
  pose proof (looks_all _ slots ND L) as HL. fold (ncomps root adds groups) in HL.
  set (ss := slots_list (ncomps root adds groups) slots) in *.
  set (look := get_by_name (all_comps root adds groups) slots) in *.
  unfold all_comps in HL. apply Forall2_app_inv_l in HL as (s1 & s23 & HL1 & HL & Es).
  apply Forall2_app_inv_l in HL as (s2 & s3 & HL2 & HL3 & ->).
  pose proof (Forall2_length _ _ _ HL1) as L1. pose proof (Forall2_length _ _ _ HL2) as L2.
  assert (K1 : skipn (len root) ss = s2 ++ s3) by (rewrite Es; apply skipn_len_app; auto).
  assert (K2 : skipn (len root + len adds) ss = s3).
  { rewrite Es, app_assoc. apply skipn_len_app. rewrite app_length. lia. }
  rewrite K1 in SA, RA, GA. rewrite K2 in SG, RG, GG.
  rewrite Es, zipw_app_r in SR, RR by (rewrite att_length; lia).
  rewrite zipw_app_r in SA, RA by (rewrite att_length; lia). rewrite zipw_app_r in GA by lia.
  destruct (root_total look root s1 Tr HL1 SR RR) as (rb & rfs & Er & Lr). rewrite Er. cbn [bind].
  destruct (root_fields_total rb rfs _ Lr RO) as (rf & Erf). rewrite Erf. cbn [bind].
  destruct ext; [|eauto]. destruct (isnil adds && isnil groups); [eauto|].
  destruct (adds_total look adds s2 None Ta HL2 SA RA GA ltac:(intros _; reflexivity)) as (ab & af & Ea & La).
  rewrite Ea. cbn [bind].
  destruct (groups_total look groups Tg s3 None) as (gb & gf & Eg & Lg); auto.
  { unfold all_comps in ND. rewrite !map_app in ND. now apply NoDup_app_r, NoDup_app_r in ND. }
  { intros _. exact I. }
  rewrite Eg. cbn [bind fst snd].
  destruct (0 <? bval (ab ++ gb)) eqn:NZ; [|eauto].
  assert (1 <= zlen (ab ++ gb)) by (apply zlen_pos; intros X; rewrite X in NZ; discriminate).
  assert (zlen (ab ++ gb) = zlen adds + zlen groups) by (unfold zlen; rewrite app_length; lia).
  rewrite length_normally_small_ok by lia. cbn [bind]. eauto.
Qed.

Lemma seqof_total c t : total t -> total (TSeqOf c t).
Proof.
  intros T v S R. destruct v as [| | | | | | |vs|]; try contradiction.
  cbn [supported_by] in S. destruct S as (SC & SV). cbn [ready] in R. destruct R as (B & RV). cbn [enc].
  assert (EB : exists body, enc_list (enc t) vs = Ok body).
  { clear SC. induction vs as [|v vs IH]; [eexists; reflexivity|].
    cbn [map] in SV, RV. apply all_of_cons in SV as (S1 & SV). apply all_of_cons in RV as (R1 & RV).
    destruct (T v S1 R1) as (f & Ef). destruct (IH SV RV) as (b & Eb).
    cbn [enc_list]. rewrite Ef. cbn [bind]. rewrite Eb. cbn [bind]. eauto. }
  destruct EB as (body & EB). rewrite EB. cbn [bind].
  unfold encode_sequence_of. unfold count_ok in SC. assert (N0 : 0 <= zlen vs) by (unfold zlen; lia).
  destruct (cext c) eqn:X.
  - rewrite chain_total by auto. cbn [bind]. destruct (inside c (zlen vs)) eqn:I.
    + unfold inside in I. destruct (clo c) as [l|], (chi c) as [h|]; try contradiction.
      rewrite length_constrained_ok by lia. cbn [bind]. eauto.
    + rewrite length_unconstrained_ok by lia. cbn [bind]. eauto.
  - destruct (clo c) as [l|]; [|contradiction]. cbn [need bind].
    destruct (chi c) as [h|].
    + replace (zlen vs <? l) with false by lia. cbn [le_opt_r truthy opt_is].
      replace (zlen vs <=? h) with true by lia. cbn [negb]. rewrite andb_false_r.
      destruct (Z.eqb_spec h l) as [->|]; cbn [andb].
      * replace (l <? 65536) with true by lia. eauto.
      * destruct (Z.eqb_spec h 0); cbn [negb]; [lia|]. rewrite length_constrained_ok by lia. cbn [bind]. eauto.
    + replace (zlen vs <? l) with false by lia. cbn [le_opt_r truthy opt_is andb].
      rewrite length_unconstrained_ok by lia. cbn [bind]. eauto.
Qed.

Lemma choice_total ext root adds groups :
  Forall (fun c => total (cty c)) root -> Forall (fun c => total (cty c)) adds ->
  Forall (Forall (fun c => total (cty c))) groups -> total (TChoice ext root adds groups).
Proof.
  intros Tr Ta Tg v S R. destruct v as [| | | | | | | |[[i v']|]]; try contradiction.
  cbn [supported_by] in S. destruct S as (ND & Hext & Hn & S). rewrite all_att, nth_error_att in S.
  cbn [ready] in R. rewrite all_att, nth_error_att in R. cbn [enc].
  assert (EM : map (fun c0 : comp ty => (cname c0, enc (cty c0))) root ++
               map (fun c0 => (cname c0, enc (cty c0))) adds ++
               List.concat (map (map (fun c0 => (cname c0, enc (cty c0)))) groups) =
               map (fun c0 => (cname c0, enc (cty c0))) (all_comps root adds groups)).
  { unfold all_comps. rewrite !map_app, concat_map. reflexivity. }
  rewrite EM, nth_error_map. clear EM.
  destruct (nth_error (all_comps root adds groups) i) as [c|] eqn:EC; [|contradiction].
  cbn [fst snd option_map] in *. destruct S as (Sv & SX).
  assert (T : total (cty c)).
  { pose proof (nth_error_In _ _ EC) as IN.
    assert (F : Forall (fun c => total (cty c)) (all_comps root adds groups)).
    { unfold all_comps. apply Forall_app. split; auto. apply Forall_app. split; auto. now apply Forall_concat. }
    rewrite Forall_forall in F. now apply F. }
  destruct (T v' Sv R) as (body & EB). rewrite EB. cbn [bind]. clear Hn.
  unfold encode_choice. cbv zeta.
  destruct (Nat.lt_ge_cases i (len root)) as [Hi|Hi].
  - assert (NR : nth_error root i = Some c) by (unfold all_comps in EC; rewrite nth_error_app1 in EC by auto; auto).
    assert (IR : index_of (cname c) root = Some i).
    { apply index_of_nth; auto. unfold all_comps in ND. rewrite map_app in ND. now apply NoDup_app_l in ND. }
    rewrite IR.
    assert (W : create_field_list_for_constrained_whole_number (Z.of_nat i) (Some 0) (Some (zlen root - 1)) =
                Ok (cwn_fields (Z.of_nat i) 0 (zlen root - 1))) by (apply cwn_fields_ok; unfold zlen; lia).
    rewrite W. destruct ext; cbn [negb]; destruct (Nat.eqb (len root) 1); cbn [fill bind]; eauto.
  - destruct (SX Hi) as (U & O). clear SX.
    destruct ext; [|destruct (Hext eq_refl) as (-> & ->); unfold all_comps in EC;
      cbn [List.concat app] in EC; rewrite app_nil_r in EC;
      assert (i < len root)%nat by (apply nth_error_Some; congruence); clear U; lia].
    cbn [negb]. unfold all_comps in EC, ND.
    assert (NE : nth_error (adds ++ List.concat groups) (i - len root) = Some c)
      by (rewrite nth_error_app2 in EC by auto; auto).
    assert (NI : index_of (cname c) root = None).
    { apply index_of_none. intros IN. rewrite map_app in ND.
      apply nth_error_In in NE. apply (in_map cname) in NE.
      revert ND IN NE. clear. generalize (map cname root) (map cname (adds ++ List.concat groups)) (cname c).
      intros l m x ND I1 I2. induction l as [|a l IH]; [contradiction|]. inversion ND; subst.
      destruct I1 as [->|I1]; [|auto]. apply H1, in_or_app. auto. }
    rewrite NI.
    assert (IE : index_of (cname c) (adds ++ List.concat groups) = Some (i - len root)%nat).
    { apply index_of_nth; auto. rewrite map_app in ND. now apply NoDup_app_r in ND. }
    rewrite IE. destruct (isnil adds && isnil groups) eqn:Nil.
    { destruct adds; [|discriminate]. destruct groups; [|discriminate].
      cbn [List.concat app] in NE. destruct (i - len root)%nat; discriminate. }
    assert (U' : ufits 16383 (Z.of_nat (i - len root))) by (eapply ufits_le; [|exact U]; clear U; lia).
    clear U. apply noct_ufits in U'; [|clear U'; lia..].
    rewrite normally_small_ok by lia. cbn [bind].
    destruct (open_total body (open_small_enc _ _ _ O EB)) as (o & Eo). rewrite Eo. cbn [bind fill]. eauto.
Qed.

Theorem total_all t : total t.
Proof.
  induction t using ty_rect'.
  - intros v S R. destruct v; try contradiction. cbn [enc]. eauto.
  - intros v S R. destruct v; try contradiction. cbn [enc]. now apply int_total.
  - intros v S R. destruct v; try contradiction. cbn [enc]. now apply enum_total.
  - intros v S R. destruct v; try contradiction. cbn [enc]. destruct R. now apply bits_total.
  - intros v S R. destruct v; try contradiction. cbn [enc]. destruct R. apply octs_total; auto.
  - now apply seq_total.
  - now apply seqof_total.
  - now apply choice_total.
Qed.

Theorem encode_total_by t v : supported t v -> ready t v -> exists bs, encode t v = Ok bs.
Proof. intros S R. destruct (total_all t v S R) as (fs & E). rewrite encode_spec, E. eauto. Qed.
End Total.

Theorem encode_total t v : supported t v -> ready t v -> exists bs, encode t v = Ok bs.
Proof. apply encode_total_by. exact octs_ok_sent. Qed.
