(** C23-C24: sender and receiver with different versions of an extensible
    SEQUENCE. *)
From Coq Require Import ZArith List String Bool Lia ZifyBool ZifyNat ZifyN.
Import ListNotations.
From Verif Require Import PyBase Schema Encoder Decoder BitFacts Stream Prims Spec SimpleTypes RoundTrip
  Reading Totality Layout Sequences Defaults.
Open Scope string_scope.
Open Scope list_scope.
Open Scope Z_scope.
Ltac Zify.zify_post_hook ::= Z.div_mod_to_equations.

(** * C23 *)

(** What the receiver's type can say about the sender's message. *)
Definition known_slots (k : nat) (slots : option (list (option val))) : option (list (option val)) :=
  match slots with Some l => Some (firstn k l) | None => None end.

Lemma enc_adds_app look a b : forall prev bm fs, enc_adds enc look prev (a ++ b) = Ok (bm, fs) ->
  exists bm1 fs1 bm2 fs2, enc_adds enc look prev a = Ok (bm1, fs1) /\ len bm1 = len a /\
    len bm2 = len b /\ bm = bm1 ++ bm2 /\ fs = fs1 ++ fs2.
Proof.
  induction a as [|c a IH]; intros prev bm fs E.
  - cbn [app] in E. exists [], [], bm, fs. split; [reflexivity|]. split; [reflexivity|].
    split; [|split; reflexivity].
    clear - E. revert prev bm fs E. induction b as [|c b IH]; intros prev bm fs E.
    + injection E as <- <-. reflexivity.
    + cbn [enc_adds] in E. destruct (look (cname c)) as [v|]; [|discriminate]. cbn [bind] in E.
      match type of E with bind ?x _ = _ => destruct x as [bf|]; [|discriminate] end. cbn [bind] in E.
      destruct (enc_adds enc look _ b) as [[b2 f2]|] eqn:E2; [|discriminate]. injection E as <- <-.
      cbn [List.length fst]. f_equal. eauto.
  - cbn [app enc_adds] in E |- *. destruct (look (cname c)) as [v|]; [|discriminate]. cbn [bind] in E |- *.
    match type of E with bind ?x _ = _ => destruct x as [bf|]; [|discriminate] end. cbn [bind] in E |- *.
    destruct (enc_adds enc look _ (a ++ b)) as [[b2 f2]|] eqn:E2; [|discriminate]. injection E as <- <-.
    destruct (IH _ _ _ E2) as (bm1 & fs1 & bm2 & fs2 & -> & L1 & L2 & -> & ->). cbn [bind].
    exists (fst bf :: bm1), (snd bf ++ fs1), bm2, fs2. split; [reflexivity|].
    cbn [fst snd List.length app]. rewrite app_assoc. repeat split; auto.
Qed.

Lemma enc_adds_ext look look' cs ss prev : Forall2 (looks look) cs ss -> Forall2 (looks look') cs ss ->
  enc_adds enc look prev cs = enc_adds enc look' prev cs.
Proof.
  intros H. revert prev. induction H as [|c s cs ss Hl H IH]; intros prev H'; [reflexivity|].
  inversion H' as [|? ? ? ? Hl' H'']; subst. cbn [enc_adds]. rewrite Hl, Hl'. cbn [bind].
  match goal with |- bind ?x _ = _ => destruct x; [|reflexivity] end. cbn [bind].
  rewrite (IH _ H''). reflexivity.
Qed.

Lemma bin_zfill_lead s n : (n <= len (true :: s))%nat ->
  bin_zfill (bval (true :: s)) (Z.of_nat n) = Ok (true :: s).
Proof.
  intros H. pose proof (bval_range (true :: s)) as R. unfold bin_zfill. rewrite py_bin_ok by lia.
  assert (L : bin_len (bval (true :: s)) = len (true :: s)).
  { pose proof (bin_len_lt (bval (true :: s)) (len (true :: s)) ltac:(lia) ltac:(cbn; lia)) as U.
    assert (P : 2 ^ Z.of_nat (len s) <= bval (true :: s)).
    { rewrite bval_cons. cbn [Z.b2z]. pose proof (bval_range s). lia. }
    destruct (Nat.le_gt_cases (bin_len (bval (true :: s))) (len s)) as [K|K].
    - destruct (len s) as [|m] eqn:M.
      + pose proof (bin_len_pos (bval (true :: s))). lia.
      + apply bin_len_lt in K; lia.
    - cbn [List.length] in *. lia. }
  rewrite L, to_bits_bval. cbn [bind]. unfold zfill. rewrite Nat2Z.id.
  replace (n - len (true :: s))%nat with 0%nat by lia. reflexivity.
Qed.

Lemma zipw_prefix {A B C} (f : A -> B -> C) l1 l2 m : exists r, zipw f (l1 ++ l2) m = zipw f l1 m ++ r.
Proof.
  revert m. induction l1 as [|a l1 IH]; intros m; cbn [app zipw]; [eauto|].
  destruct m as [|b m]; [exists []; reflexivity|]. destruct (IH m) as (r & ->). exists r. reflexivity.
Qed.

Lemma all_of_app_l l m : all_of (l ++ m) -> all_of l.
Proof. intros H p Hp. apply H, in_or_app. now left. Qed.

Lemma skipn_firstn_pref {A} (l : list A) n m : skipn n (firstn (n + m) l) = firstn m (skipn n l).
Proof. revert l. induction n as [|n IH]; intros [|a l]; cbn; auto. now destruct m. Qed.

(** Sender: { root, ..., adds, more, [[mgroups]] }; receiver: { root, ..., adds }.
    Holds when the receiver knows no addition, or the first addition is sent, or
    none is. *)
Definition aligned_versions (root adds more : list (comp ty)) (mgroups : list (list (comp ty)))
    (slots : option (list (option val))) : Prop :=
  adds = [] \/ addition_sent root (adds ++ more) slots 0 \/ ~ addition_set root (adds ++ more) mgroups slots.

Lemma old_supported root adds more mgroups slots :
  supported (TSeq true root (adds ++ more) mgroups) (VSeq slots) ->
  supported (TSeq true root adds []) (VSeq (known_slots (len root + len adds) slots)).
Proof.
  intros S. cbn [supported_by] in S |- *. cbv zeta in *. destruct S as (N & L & _ & SR & SA & _).
  set (ss := slots_list (ncomps root (adds ++ more) mgroups) slots) in *.
  assert (SS : slots_list (ncomps root adds []) (known_slots (len root + len adds) slots) =
               firstn (len root + len adds) ss).
  { unfold ss, ncomps, all_comps. cbn [List.concat]. rewrite app_nil_r, !app_length.
    destruct slots as [l|]; cbn [known_slots slots_list]; [reflexivity|].
    replace (len root + (len adds + len more + len (List.concat mgroups)))%nat
      with ((len root + len adds) + (len more + len (List.concat mgroups)))%nat by lia.
    rewrite (repeat_app _ (len root + len adds)). symmetry. apply firstn_len_app. now rewrite repeat_length. }
  rewrite SS. unfold ncomps, all_comps in *. cbn [List.concat] in *. rewrite ?app_nil_r in *.
  rewrite !app_length in L.
  split; [|split; [|split; [|split; [|split]]]].
  - rewrite !map_app in N. rewrite map_app. rewrite <- !app_assoc, app_assoc in N. eapply NoDup_app_l; eauto.
  - rewrite firstn_length, app_length. lia.
  - discriminate.
  - rewrite <- (firstn_skipn (len root + len adds) ss) in SR.
    rewrite zipw_app_r in SR; auto. rewrite att_length, firstn_length. lia.
  - rewrite skipn_firstn_pref. rewrite <- (att_length supported adds), zipw_firstn.
    unfold att in SA. rewrite map_app in SA.
    destruct (zipw_prefix supp_add (att supported adds) (att supported more) (skipn (len root) ss)) as (r & E).
    unfold att in E. rewrite E in SA. apply all_of_app_l in SA. exact SA.
  - exact I.
Qed.

Lemma old_reads root adds more mgroups slots fs :
  supported (TSeq true root (adds ++ more) mgroups) (VSeq slots) ->
  enc (TSeq true root (adds ++ more) mgroups) (VSeq slots) = Ok fs ->
  aligned_versions root adds more mgroups slots ->
  let old := VSeq (known_slots (len root + len adds) slots) in
  (exists fs', enc (TSeq true root adds []) old = Ok fs') /\
  exists w rest, render 0 fs = w ++ rest /\
    reads (dec (TSeq true root adds [])) 0 w (DVal (canon (TSeq true root adds []) old)).
Proof.
  intros S E AV old.
  assert (W : well_formed root (adds ++ more) mgroups slots).
  { cbn [supported_by] in S. cbv zeta in S. destruct S as (N & L & _). split; [exact N|]. destruct slots; auto. }
  pose proof (old_supported _ _ _ _ _ S) as SO. fold old in SO.
  assert (WO : well_formed root adds [] (known_slots (len root + len adds) slots)).
  { unfold old in SO. cbn [supported_by] in SO. cbv zeta in SO. destruct SO as (N & L & _). split; [exact N|].
    destruct slots; [exact L|exact I]. }
  pose proof (wf_looks _ _ _ _ W) as LK. pose proof (wf_looks _ _ _ _ WO) as LO. cbv zeta in LK, LO.
  set (ss := slots_list (len (all_comps root (adds ++ more) mgroups)) slots) in *.
  assert (SS : slots_list (len (all_comps root adds [])) (known_slots (len root + len adds) slots) =
               firstn (len root + len adds) ss).
  { unfold ss, all_comps. cbn [List.concat]. rewrite app_nil_r, !app_length.
    destruct slots as [l|]; cbn [known_slots slots_list]; [reflexivity|].
    replace (len root + (len adds + len more + len (List.concat mgroups)))%nat
      with ((len root + len adds) + (len more + len (List.concat mgroups)))%nat by lia.
    rewrite (repeat_app _ (len root + len adds)). symmetry. apply firstn_len_app. now rewrite repeat_length. }
  rewrite SS in LO.
  set (look := get_by_name (all_comps root (adds ++ more) mgroups) slots) in *.
  set (looko := get_by_name (all_comps root adds []) (known_slots (len root + len adds) slots)) in *.
  unfold all_comps in LK, LO. cbn [List.concat] in LO. rewrite app_nil_r in LO.
  apply Forall2_app_l in LK as (LK1 & LK). apply Forall2_app_l in LK as (LK2 & LK3).
  apply Forall2_app_l in LK2 as (LK2 & LK2').
  apply Forall2_app_l in LO as (LO1 & LO2).
  rewrite firstn_firstn in LO1. replace (Nat.min (len root) (len root + len adds)) with (len root) in LO1 by lia.
  rewrite skipn_firstn_pref in LO2.
  rewrite firstn_firstn in LK2. rewrite app_length in LK2.
  replace (Nat.min (len adds) (len adds + len more)) with (len adds) in LK2 by lia.
  (* the object *)
  unfold old in SO. cbn [supported_by] in SO. cbv zeta in SO. unfold ncomps in SO. rewrite SS in SO.
  destruct SO as (NO & LN & _ & SR & SA & _).
  rewrite skipn_firstn_pref in SA.
  assert (SR' : all_of (zipw supp_root (att supported root) (firstn (len root) ss))).
  { rewrite <- (att_length supported root) at 1. rewrite zipw_firstn.
    rewrite <- (firstn_skipn (len root + len adds) ss). rewrite zipw_app_r; auto.
    rewrite att_length. rewrite LN. unfold all_comps. rewrite app_length. lia. }
  assert (CN : canon (TSeq true root adds []) old =
     VSeq (slots_of (zipw canon_root (att canon root) (firstn (len root) ss) ++
                     zipw canon_add (att canon adds) (firstn (len adds) (skipn (len root) ss))))).
  { unfold old. cbn [canon_by]. cbv zeta. unfold ncomps. rewrite SS. cbn [map canon_groups]. rewrite app_nil_r.
    rewrite skipn_firstn_pref. f_equal. f_equal. f_equal.
    rewrite <- (zipw_firstn canon_root (att canon root) (firstn _ ss)). rewrite att_length, firstn_firstn.
    f_equal. f_equal. lia. }
  rewrite CN.
  set (s1 := firstn (len root) ss) in *. set (s2 := firstn (len adds) (skipn (len root) ss)) in *.
  set (o1 := zipw canon_root (att canon root) s1) in *.
  set (o2 := zipw canon_add (att canon adds) s2) in *.
  pose proof (Forall2_length _ _ _ LK1) as L1. pose proof (Forall2_length _ _ _ LK2) as L2.
  assert (LO1' : len root = len o1) by (unfold o1; rewrite zipw_length; rewrite att_length; auto).
  assert (LO2' : len adds = len o2) by (unfold o2; rewrite zipw_length; rewrite att_length; auto).
  assert (AS : assign_all (all_comps root adds []) None (assigns root o1 ++ assigns adds o2) =
               Ok (slots_of (o1 ++ o2))).
  { rewrite <- assigns_app by auto. unfold all_comps. cbn [List.concat]. rewrite app_nil_r.
    apply (assign_all_ok [] (root ++ adds) [] (o1 ++ o2)); auto.
    - unfold all_comps in NO. cbn [List.concat] in NO. rewrite app_nil_r in NO. exact NO.
    - rewrite !app_length. lia. }
  (* the encoding *)
  pose proof (seq_parts _ _ _ _ _ _ W E) as (bm0 & rfs0 & rf0 & ER & EF & b & tail & Efs & BB & BT).
  fold look in ER.
  pose proof (root_part_rt look root s1 bm0 rfs0 rf0 (proj2 (Forall_forall _ root) (fun c _ => rt_all (cty c)))
                LK1 SR' ER EF) as RR.
  assert (ERO : enc_root enc looko root = Ok (bm0, rfs0)).
  { rewrite <- ER. symmetry. eapply enc_root_ext; eauto. }
  (* the additions of the receiver, in the sender *)
  destruct (seq_adds_ok _ _ _ _ _ W E) as (_ & _ & (ab & af & EA) & (gb & gf & EG)). cbv zeta in EA, EG.
  fold look in EA, EG.
  destruct (enc_adds_app _ _ _ _ _ _ EA) as (b1 & f1 & b2 & f2 & EA1 & LB1 & LB2 & -> & ->).
  assert (EAO : enc_adds enc looko None adds = Ok (b1, f1)).
  { rewrite <- EA1. symmetry. eapply enc_adds_ext; [exact LK2|exact LO2]. }
  destruct (adds_rt look adds (proj2 (Forall_forall _ adds) (fun c _ => rt_all (cty c))) s2 None b1 f1 LK2 SA EA1)
    as (B2 & A2 & N2 & R2). fold o2 in R2.
  assert (DO : exists fs', enc (TSeq true root adds []) old = Ok fs' \/ (64 < zlen b1 /\ 0 < bval b1)).
  { unfold old. cbn [enc]. unfold encode_sequence. fold looko. rewrite ERO. cbn [bind]. rewrite EF. cbn [bind].
    destruct (isnil adds && isnil []); [eauto|]. rewrite EAO. cbn [bind enc_groups fst snd]. rewrite app_nil_r.
    destruct (Z.ltb_spec 0 (bval b1)) as [P|]; [|eauto].
    destruct (Z.leb_spec (zlen b1) 64) as [Q|Q].
    - assert (b1 <> []) by (intros X; rewrite X in P; cbn in P; lia).
      rewrite length_normally_small_ok by (pose proof (zlen_pos b1 H); lia). cbn [bind]. eauto.
    - exists []. right. lia. }
  assert (L64 : b = true -> 1 <= zlen ((b1 ++ b2) ++ gb) <= 64 /\ 
     tail = nsl_fields (zlen ((b1 ++ b2) ++ gb)) ++ F false ((b1 ++ b2) ++ gb) :: (f1 ++ f2) ++ gf /\
     (f1 ++ f2) ++ gf <> [] /\ starts_aligned ((f1 ++ f2) ++ gf)).
  { intros ->. pose proof E as E'. cbn [enc] in E'. unfold encode_sequence in E'. fold look in E'.
    rewrite ER in E'. cbn [bind] in E'. rewrite EF in E'. cbn [bind] in E'.
    destruct (isnil (adds ++ more) && isnil mgroups) eqn:NIL.
    { rewrite Efs in E'. discriminate. }
    rewrite EA in E'. cbn [bind] in E'. rewrite EG in E'. cbn [bind fst snd] in E'.
    destruct (Z.ltb_spec 0 (bval ((b1 ++ b2) ++ gb))) as [P|]; [|rewrite Efs in E'; discriminate].
    destruct (length_normally_small (zlen ((b1 ++ b2) ++ gb))) as [det|] eqn:Ed; [|discriminate].
    cbn [bind] in E'. rewrite Efs in E'. injection E' as E'. apply app_inv_head in E'.
    assert (NN : (b1 ++ b2) ++ gb <> []) by (intros X; rewrite X in P; cbn in P; lia).
    pose proof (length_normally_small_inv _ _ Ed) as K64. pose proof (zlen_pos _ NN) as LP.
    rewrite length_normally_small_ok in Ed by lia. injection Ed as <-.
    split; [lia|]. split; [symmetry; exact E'|].
    cbn [supported_by] in S. cbv zeta in S. destruct S as (ND & LS & _ & _ & SAS & SGS).
    unfold ncomps in *. fold ss in SAS, SGS.
    assert (LA : Forall2 (looks look) (adds ++ more) (firstn (len (adds ++ more)) (skipn (len root) ss))).
    { pose proof (wf_looks _ _ _ _ W) as LL. cbv zeta in LL. fold ss look in LL. unfold all_comps in LL.
      apply Forall2_app_l in LL as (_ & LL). apply Forall2_app_l in LL as (LL & _). exact LL. }
    assert (SAS' : all_of (zipw supp_add (att supported (adds ++ more)) (firstn (len (adds ++ more)) (skipn (len root) ss)))).
    { rewrite <- (att_length supported (adds ++ more)), zipw_firstn. exact SAS. }
    destruct (adds_rt look (adds ++ more) (proj2 (Forall_forall (fun c => rt (cty c)) (adds ++ more)) (fun c _ => rt_all (cty c)))
       (firstn (len (adds ++ more)) (skipn (len root) ss)) None (b1 ++ b2) (f1 ++ f2) LA SAS' EA) as (BA & AA & NA & _).
    destruct (groups_rt look mgroups
       (proj2 (Forall_forall (Forall (fun c => rt (cty c))) mgroups)
              (fun g _ => proj2 (Forall_forall (fun c => rt (cty c)) g) (fun c _ => rt_all (cty c))))
       (skipn (len (adds ++ more)) (skipn (len root) ss)) None gb gf) as (BG & AG & NG & _); auto.
    { unfold all_comps in ND. rewrite !map_app in ND. eapply NoDup_app_r, NoDup_app_r; eauto. }
    { replace (skipn (len (adds ++ more)) (skipn (len root) ss)) with (skipn (len root + len (adds ++ more)) ss); auto.
      clear. generalize ss (len root) (len (adds ++ more)). intros l n m. revert l.
      induction n as [|n IH]; intros [|a l]; cbn; auto. now rewrite skipn_nil. }
    split; [|apply app_aligned; auto].
    intros X. apply app_eq_nil in X as (X1 & X2). apply bval_pos in P. apply in_app_or in P as [P|P].
    - apply bval_pos in P. exact (NA P X1).
    - apply bval_pos in P. exact (NG P X2). }
  split.
  { destruct DO as (fs' & [DO|(D1 & D2)]); [eauto|]. exfalso.
    destruct b.
    - destruct (L64 eq_refl) as (K & _). unfold zlen in *. rewrite !app_length in K. lia.
    - assert (X : addition_set root (adds ++ more) mgroups slots).
      { apply bval_pos in D2. apply In_nth_error in D2 as (i & Hi).
        pose proof (enc_adds_flags _ _ _ _ _ _ LK2 EA1) as (Hb & _). rewrite Hb in Hi.
        rewrite nth_error_zipw in Hi. destruct (nth_error adds i) as [c|] eqn:Hc; [|discriminate].
        destruct (nth_error s2 i) as [s|] eqn:Hs; [|discriminate]. injection Hi as Hi.
        assert (Hc' : nth_error ((adds ++ more) ++ List.concat mgroups) i = Some c).
        { assert (i < len adds)%nat by (apply nth_error_Some; congruence).
          rewrite !nth_error_app1; auto. rewrite app_length. lia. }
        exists i, c. split; auto.
        destruct (nth_ss root (adds ++ more) mgroups slots i c W Hc') as (s' & S1 & S2).
        unfold ncomps in S1. fold ss in S1. rewrite <- S2.
        assert (s' = s).
        { assert (i < len adds)%nat by (apply nth_error_Some; congruence).
          rewrite <- (firstn_skipn (len adds) (skipn (len root) ss)) in S1. fold s2 in S1.
          rewrite nth_error_app1 in S1 by lia. congruence. }
        subst s'. now apply sent_add_content. }
      apply BB in X. discriminate. }
  (* decoding *)
  rewrite Efs. destruct b.
  - destruct (L64 eq_refl) as (K64 & -> & FN & FA).
    set (bmap := (b1 ++ b2) ++ gb) in *.
    assert (BZ : exists bm', bin_zfill (bval bmap) (zlen adds) = Ok bm' /\ firstn (len adds) bm' = b1).
    { destruct AV as [->|[AV|AV]].
      - unfold bin_zfill. rewrite py_bin_ok by apply bval_range. cbn [bind]. eexists. split; [reflexivity|].
        cbn [List.length firstn]. destruct b1; [reflexivity|discriminate].
      - destruct AV as (c & Hc & HV).
        destruct adds as [|c0 adds'].
        + unfold bin_zfill. rewrite py_bin_ok by apply bval_range. cbn [bind]. eexists. split; [reflexivity|].
          cbn [List.length firstn]. destruct b1; [reflexivity|discriminate].
        + destruct b1 as [|x b1]; [discriminate|].
          assert (x = true).
          { cbn [app nth_error] in Hc. injection Hc as <-. rewrite Nat.add_0_r in HV.
            pose proof (enc_adds_flags _ _ _ _ _ _ LK2 EA1) as (Hb & _).
            pose proof (nth_ss root ((c0 :: adds') ++ more) mgroups slots 0 c0 W eq_refl) as (s' & S1 & S2).
            unfold ncomps in S1. fold ss in S1. rewrite Nat.add_0_r in S2.
            unfold s2 in Hb. cbn [List.length] in Hb.
            destruct (skipn (len root) ss) as [|y r]; [discriminate|]. cbn [nth_error] in S1. injection S1 as ->.
            cbn [firstn zipw] in Hb. injection Hb as Hb _. rewrite Hb, S2. now apply sent_add_content. }
          subst x. exists bmap. unfold bmap. cbn [app]. split.
          * apply bin_zfill_lead. cbn [List.length] in *. rewrite !app_length. lia.
          * rewrite <- app_assoc. change (true :: b1 ++ b2 ++ gb) with ((true :: b1) ++ b2 ++ gb).
            now apply firstn_len_app.
      - destruct AV. now apply BB. }
    destruct BZ as (bm' & BZ1 & BZ2).
    cbn [dec]. unfold decode_sequence.
    (* what is read: up to the last addition known *)
    rewrite render_bit. rewrite render_app, render_app, render_plain.
    set (q := (0 + 1 + len (render (0 + 1) rf0) +
               len (render (0 + 1 + len (render (0 + 1) rf0)) (nsl_fields (zlen bmap))) + len bmap)%nat).
    exists ([true] ++ render (0 + 1) rf0 ++ render (0 + 1 + len (render (0 + 1) rf0)) (nsl_fields (zlen bmap)) ++
            bmap ++ padding q ++ render (up8 q) f1).
    exists (render (up8 q + len (render (up8 q) f1)) (f2 ++ gf)).
    split.
    { rewrite <- !app_assoc. do 4 f_equal.
      destruct ((f1 ++ f2) ++ gf) as [|x r] eqn:EX; [congruence|]. cbn [starts_aligned] in FA.
      fold q. rewrite app_assoc, EX. rewrite render_aligned by auto. rewrite <- EX, <- app_assoc, render_app. reflexivity. }
    eapply reads_bind; [apply reads_bit|]. cbn [Z.b2z Z.eqb negb List.length].
    eapply reads_bind; [apply RR|].
    eapply reads_bind_r with (a := assigns adds o2).
    + eapply reads_bind; [apply reads_nsl; lia|].
      eapply reads_bind. { apply reads_next_bits; unfold zlen in *; lia. }
      eapply reads_bind0.
      { apply reads_lift. change (zlen (@nil (list (comp ty)))) with 0. rewrite Z.add_0_r. exact BZ1. }
      rewrite BZ2. eapply reads_bind; [apply reads_align|]. rewrite up8_pad.
      eapply reads_bind_r; [apply R2|].
      replace (dec_groups dec [] (skipn (len adds) bm')) with (@ret (list assign) [])
        by (cbn [dec_groups]; destruct (skipn (len adds) bm'); reflexivity).
      eapply reads_bind0; [apply reads_ret|]. rewrite app_nil_r. apply reads_ret.
    + eapply reads_bind0; [apply reads_lift, AS|]. apply reads_ret.
  - rewrite (BT eq_refl), app_nil_r. rewrite render_bit. exists ([false] ++ render (0 + 1) rf0), [].
    split; [now rewrite app_nil_r|]. cbn [dec]. unfold decode_sequence.
    eapply reads_bind; [apply reads_bit|]. cbn [Z.b2z Z.eqb negb List.length].
    eapply reads_bind_r; [apply RR|]. eapply reads_bind0; [apply reads_ret|].
    assert (Q : assigns adds o2 = []).
    { assert (NS : forall i c s, nth_error adds i = Some c -> nth_error s2 i = Some s -> sent_add c (slot_get c s) = false).
      { intros i c s Hc Hs. destruct (sent_add c (slot_get c s)) eqn:X; auto. exfalso.
        assert (Hc' : nth_error ((adds ++ more) ++ List.concat mgroups) i = Some c).
        { assert (i < len adds)%nat by (apply nth_error_Some; congruence).
          rewrite !nth_error_app1; auto. rewrite app_length. lia. }
        destruct (nth_ss root (adds ++ more) mgroups slots i c W Hc') as (s' & S1 & S2).
        unfold ncomps in S1. fold ss in S1.
        assert (s' = s).
        { assert (i < len adds)%nat by (apply nth_error_Some; congruence).
          rewrite <- (firstn_skipn (len adds) (skipn (len root) ss)) in S1. fold s2 in S1.
          rewrite nth_error_app1 in S1 by lia. congruence. }
        subst s'. assert (Y : addition_set root (adds ++ more) mgroups slots).
        { exists i, c. split; auto. rewrite <- S2. now apply sent_add_content. }
        apply BB in Y. discriminate. }
      unfold o2, assigns. clear - NS. revert NS. generalize s2. induction adds as [|c l IH]; intros [|s m] NS; auto.
      cbn [att map zipw]. unfold canon_add at 1. cbn [fst snd]. cbv zeta.
      rewrite (NS 0%nat c s eq_refl eq_refl). cbn [assign1 List.concat app]. apply IH.
      intros i c' s' A B. exact (NS (S i) c' s' A B). }
    rewrite Q in AS. eapply reads_bind0; [apply reads_lift, AS|]. apply reads_ret.
Qed.

(** Missing: messages in which the first addition is not sent but another one is
    (the bitmap is read as a number and loses its leading zeros), and parts that
    follow the SEQUENCE (the unknown additions are not skipped). *)
Theorem C23_old_decoder_partial : forall root adds more mgroups slots bs,
  supported (TSeq true root (adds ++ more) mgroups) (VSeq slots) ->
  encode (TSeq true root (adds ++ more) mgroups) (VSeq slots) = Ok bs ->
  aligned_versions root adds more mgroups slots ->
  exists v', decode bs (TSeq true root adds []) = Ok v' /\
    reading (TSeq true root adds []) v' =
    reading (TSeq true root adds []) (VSeq (known_slots (List.length root + List.length adds) slots)).
Proof.
  intros root adds more mgroups slots bs S E AV.
  apply encode_inv in E as (fs & E & Hbs & Hob & Hoct & Hne).
  destruct (old_reads _ _ _ _ _ _ S E AV) as ((fs' & E') & w & rest & Hr & R). cbv zeta in *.
  set (old := VSeq (known_slots (len root + len adds) slots)) in *.
  exists (canon (TSeq true root adds []) old). split.
  - unfold decode, decode_pos. destruct (per_init_ok bs) as (p & Ep & Ap); auto.
    rewrite Ep. cbn [bind]. destruct (produce_spec fs) as (k & Ek & _).
    rewrite Hob, Ek, Hr, <- app_assoc in Ap.
    destruct (R p [] (rest ++ repeat false k)) as (p' & Ed & _); auto.
    rewrite Ed. cbn [bind fst snd]. unfold old. cbn [canon_by]. reflexivity.
  - eapply same_reading_all; [|exact E']. apply old_supported in S. exact S.
Qed.

Definition C23_new : ty :=
  TSeq true [Comp "r" Mand TBool] [Comp "a" Opt TBool; Comp "b" Opt (TInt CNone)] [].
Definition C23_old : ty := TSeq true [Comp "r" Mand TBool] [Comp "a" Opt TBool] [].
Definition C23_val : val := VSeq (Some [Some (VBool true); Some (VBool true); Some (VInt 7)]).

Example C23_case :
  supported C23_new C23_val /\
  aligned_versions [Comp "r" Mand TBool] [Comp "a" Opt TBool] [Comp "b" Opt (TInt CNone)] []
    (Some [Some (VBool true); Some (VBool true); Some (VInt 7)]) /\
  encode C23_new C23_val = Ok [192; 224; 1; 128; 2; 1; 7] /\
  decode [192; 224; 1; 128; 2; 1; 7] C23_old = Ok (VSeq (Some [Some (VBool true); Some (VBool true)])).
Proof.
  split; [|split; [|split; vm_compute; reflexivity]].
  - unfold C23_new, C23_val. cbn [supported_by]. cbv zeta. split; [|split; [reflexivity|]].
    { repeat constructor; cbn; intuition discriminate. }
    split; [discriminate|]. split; [|split; [|exact I]].
    + intros p [<-|[]]. exact I.
    + intros p [<-|[<-|[]]]; unfold supp_add; cbn; (split; [discriminate|]); intros _; (split; [exact I|]).
      * split; [exact I|]. intros bs [= <-]. reflexivity.
      * split.
        -- split; [reflexivity|]. cbn. split; [reflexivity|]. unfold sfits. split; [|].
           ++ apply (Z.le_trans _ 0); [|lia]. assert (0 < 2 ^ (8 * 255 - 1)) by (apply Z.pow_pos_nonneg; lia). lia.
           ++ apply (Z.lt_le_trans _ (2 ^ 3)); [reflexivity|]. apply Z.pow_le_mono_r; lia.
        -- intros bs E. vm_compute in E. injection E as <-. reflexivity.
  - right. left. exists (Comp "a" Opt TBool). split; [reflexivity|]. split; [reflexivity|split; discriminate].
Qed.

(** { r, ..., a BOOLEAN OPTIONAL, b BOOLEAN OPTIONAL } with only b set: a receiver
    that knows a only takes b for a. *)
Theorem C23_old_decoder_refuted : exists root adds more slots bs,
  encode (TSeq true root (adds ++ more) []) (VSeq (Some slots)) = Ok bs /\
  nth_error slots 1 = Some None /\
  decode bs (TSeq true root adds []) = Ok (VSeq (Some [Some (VBool true); Some (VBool true)])).
Proof.
  exists [Comp "r" Mand TBool], [Comp "a" Opt TBool], [Comp "b" Opt TBool].
  exists [Some (VBool true); None; Some (VBool true)], [192; 160; 1; 128].
  repeat split; vm_compute; reflexivity.
Qed.

(** The component after the SEQUENCE is read from the unknown addition. *)
Theorem C23_continue_refuted : exists inner_new inner_old bs,
  inner_new = TSeq true [Comp "r" Mand TBool] [Comp "a" Mand TBool; Comp "b" Mand TBool] [] /\
  inner_old = TSeq true [Comp "r" Mand TBool] [Comp "a" Mand TBool] [] /\
  encode (TSeq false [Comp "s" Mand inner_new; Comp "z" Mand TBool] [] [])
    (VSeq (Some [Some (VSeq (Some [Some (VBool true); Some (VBool true); Some (VBool true)])); Some (VBool true)])) = Ok bs /\
  decode bs (TSeq false [Comp "s" Mand inner_old; Comp "z" Mand TBool] [] []) =
    Ok (VSeq (Some [Some (VSeq (Some [Some (VBool true); Some (VBool true)])); Some (VBool false)])).
Proof.
  eexists _, _, [192; 224; 1; 128; 1; 128; 128]. repeat split; vm_compute; reflexivity.
Qed.

(** * C24 *)

Definition not_defaulted (c : comp ty) : Prop := forall d, cpres c <> Dflt d.

Lemma no_addition_set root adds groups slots :
  no_addition root adds groups slots <-> ~ addition_set root adds groups slots.
Proof.
  split.
  - intros N (i & c & H & V). exact (N i c H V).
  - intros N i c H V. apply N. exists i, c. auto.
Qed.

(** A receiver with any additions reads a message that has none. *)
Lemma new_reads root nadds ngroups sl fs :
  supported (TSeq true root [] []) (VSeq sl) -> enc (TSeq true root [] []) (VSeq sl) = Ok fs ->
  NoDup (map cname (root ++ nadds ++ List.concat ngroups)) ->
  reads (dec (TSeq true root nadds ngroups)) 0 (render 0 fs)
    (DVal (VSeq (slots_of (zipw canon_root (att canon root) (slots_list (len root) sl)
                           ++ map (fun _ => None) (nadds ++ List.concat ngroups))))).
Proof.
  intros S E ND. cbn [supported_by] in S. cbv zeta in S.
  assert (NC : ncomps root [] [] = len root).
  { unfold ncomps, all_comps. cbn [List.concat]. now rewrite app_nil_r. }
  rewrite NC in S. destruct S as (N1 & L & _ & SR & _).
  pose proof (looks_all _ sl N1) as HL. fold (ncomps root [] []) in HL. rewrite NC in HL. specialize (HL L).
  set (s1 := slots_list (len root) sl) in *.
  cbn [enc] in E. unfold encode_sequence in E. cbv zeta in E.
  set (look := get_by_name (all_comps root [] []) sl) in *.
  unfold all_comps in HL. cbn [List.concat] in HL. rewrite !app_nil_r in HL.
  destruct (enc_root enc look root) as [[rb rfs]|] eqn:Er; [|discriminate]. cbn [bind] in E.
  destruct (root_fields (rb, rfs)) as [rf|] eqn:Erf; [|discriminate]. cbn [bind isnil andb] in E.
  injection E as <-.
  pose proof (root_part_rt look root s1 rb rfs rf (proj2 (Forall_forall _ root) (fun c _ => rt_all (cty c)))
                HL SR Er Erf) as RR.
  set (o1 := zipw canon_root (att canon root) s1) in *.
  assert (LO1 : len root = len o1) by (unfold o1; rewrite zipw_length; rewrite att_length; auto).
  cbn [dec]. unfold decode_sequence.
  rewrite render_bit. eapply reads_bind; [apply reads_bit|]. cbn [Z.b2z Z.eqb negb].
  eapply reads_bind_r; [apply RR|]. eapply reads_bind0; [apply reads_ret|].
  eapply reads_bind0; [|apply reads_ret]. apply reads_lift. rewrite app_nil_r.
  rewrite <- (app_nil_r (assigns root o1)), <- (assigns_none (nadds ++ List.concat ngroups)), <- assigns_app by auto.
  apply (assign_all_ok [] (all_comps root nadds ngroups) []); auto.
  unfold all_comps. rewrite !app_length, map_length, !app_length. lia.
Qed.

(** Missing: messages in which some addition is sent (refuted below: the receiver
    pads the bitmap on the wrong side).  Without additions every receiver with
    the same root reads the root components and reports its own additions as
    absent. *)
Theorem C24_new_decoder_partial : forall root adds groups nadds ngroups slots bs rl,
  well_formed root adds groups slots -> ~ addition_set root adds groups slots ->
  supported (TSeq true root [] []) (VSeq (root_slots root slots)) ->
  NoDup (map cname (root ++ nadds ++ List.concat ngroups)) ->
  Forall not_defaulted (nadds ++ List.concat ngroups) ->
  encode (TSeq true root adds groups) (VSeq slots) = Ok bs ->
  reading (TSeq true root [] []) (VSeq (root_slots root slots)) = ASeq rl ->
  exists v', decode bs (TSeq true root nadds ngroups) = Ok v' /\
    reading (TSeq true root nadds ngroups) v' =
    ASeq (rl ++ map (fun _ => None) (nadds ++ List.concat ngroups)).
Proof.
  intros root adds groups nadds ngroups slots bs rl W N S ND DF E RL.
  apply (C22_nothing_to_send_partial root adds groups slots bs W N) in E.
  set (rs0 := slots_list (len root) (root_slots root slots)).
  assert (NC : ncomps root [] [] = len root).
  { unfold ncomps, all_comps. cbn [List.concat]. now rewrite app_nil_r. }
  assert (LR0 : len rs0 = len root).
  { unfold rs0. pose proof S as S'. cbn [supported_by] in S'. cbv zeta in S'. rewrite NC in S'. tauto. }
  apply encode_inv in E as (fs & E & Hbs & Hob & Hoct & Hne).
  pose proof (new_reads _ nadds ngroups _ _ S E ND) as R. fold rs0 in R.
  set (rs := zipw canon_root (att canon root) rs0) in *.
  assert (LR : len rs = len root) by (unfold rs; rewrite zipw_length; rewrite att_length; auto).
  assert (RM : map (fun _ : comp ty => @None val) (nadds ++ List.concat ngroups) =
               repeat None (len (nadds ++ List.concat ngroups))).
  { generalize (nadds ++ List.concat ngroups). induction l; cbn [map List.length repeat]; congruence. }
  rewrite RM in R.
  set (ns := rs ++ repeat None (len (nadds ++ List.concat ngroups))) in *.
  exists (VSeq (slots_of ns)). split.
  { unfold decode, decode_pos. destruct (per_init_ok bs) as (p & Ep & Ap); auto.
    rewrite Ep. cbn [bind]. destruct (produce_spec fs) as (k & Ek & _).
    rewrite Hob, Ek in Ap.
    destruct (R p [] (repeat false k)) as (p' & Ed & _); auto.
    rewrite Ed. reflexivity. }
  pose proof (same_reading_all _ _ _ S E) as SM. rewrite RL in SM.
  cbn [canon_by reading att map zipw canon_groups read_groups] in SM. cbv zeta in SM. rewrite NC in SM. fold rs0 in SM.
  cbn [map att zipw canon_groups read_groups] in SM. rewrite !app_nil_r in SM. fold rs in SM.
  rewrite slots_list_of in SM by auto. injection SM as RL'.
  cbn [reading]. cbv zeta. rewrite slots_list_of.
  2:{ unfold ns, ncomps, all_comps. rewrite !app_length, repeat_length. lia. }
  f_equal. rewrite map_app. f_equal; [|f_equal].
  - rewrite <- RL'. unfold ns. apply zipw_app_r. rewrite att_length. lia.
  - unfold ns. rewrite skipn_len_app by auto. rewrite app_length, repeat_app.
    rewrite zipw_app_r by (rewrite att_length, repeat_length; lia).
    apply Forall_app in DF as (DF & _). clear - DF. induction DF as [|c l Hc H IH]; cbn [List.length repeat att map zipw]; auto.
    f_equal; [|exact IH]. unfold read_ext. cbn [fst snd]. cbv zeta. unfold slot_get.
    unfold not_defaulted in Hc. destruct (cpres c) as [| |d]; [| |destruct (Hc d eq_refl)];
      rewrite fresh_absent; reflexivity.
  - unfold ns. rewrite <- LR.
    replace (skipn (len rs + len nadds) (rs ++ repeat None (len (nadds ++ List.concat ngroups))))
      with (@repeat (option val) None (len (List.concat ngroups))).
    2:{ rewrite app_length, repeat_app, app_assoc. symmetry. apply skipn_len_app.
        rewrite app_length, repeat_length. reflexivity. }
    apply Forall_app in DF as (_ & DF). clear - DF. induction ngroups as [|g gs IH]; [reflexivity|].
    cbn [List.concat] in *. apply Forall_app in DF as (D1 & D2). cbn [map read_groups].
    rewrite att_length, app_length, repeat_app, map_app. f_equal.
    + unfold read_group. rewrite att_fst.
      assert (GV : forall r, group_valued g (repeat None (len g) ++ r) = false).
      { intros r. rewrite group_valued_app by (rewrite repeat_length; lia). unfold group_valued.
        clear - D1. induction D1 as [|c l Hc H IHl]; cbn [List.length repeat zipw existsb]; auto.
        rewrite IHl. unfold slot_get. unfold not_defaulted in Hc.
        destruct (cpres c) as [| |d]; [| |destruct (Hc d eq_refl)]; rewrite fresh_absent; reflexivity. }
      rewrite GV. unfold att. rewrite map_map. reflexivity.
    + rewrite skipn_len_app by (now rewrite repeat_length). auto.
Qed.

Example C24_case :
  let root := [Comp "r" Mand TBool] in
  let slots := Some [Some (VBool true); None] in
  let old := TSeq true root [Comp "a" Opt TBool] [] in
  let new := TSeq true root [Comp "a" Opt TBool; Comp "b" Mand TBool] [[Comp "g" Opt (TInt CNone)]] in
  well_formed root [Comp "a" Opt TBool] [] slots /\ ~ addition_set root [Comp "a" Opt TBool] [] slots /\
  supported (TSeq true root [] []) (VSeq (root_slots root slots)) /\
  encode old (VSeq slots) = Ok [64] /\
  decode [64] new = Ok (VSeq (Some [Some (VBool true); None; None; None])).
Proof.
  cbv zeta. split; [|split; [|split; [|split; vm_compute; reflexivity]]].
  - split; [|reflexivity]. repeat constructor; cbn; intuition discriminate.
  - intros ([|[|i]] & c & H & V & _); try discriminate. injection H as <-. discriminate.
  - cbn [supported_by root_slots]. cbv zeta. split; [repeat constructor; cbn; tauto|].
    split; [reflexivity|]. split; [auto|]. split; [|split; [|exact I]].
    + intros p [<-|[]]. exact I.
    + intros p [].
Qed.

(** The older sender sends a; the newer receiver reports b instead. *)
Theorem C24_new_decoder_refuted : exists root a b bs,
  encode (TSeq true root [a] []) (VSeq (Some [Some (VBool true); Some (VBool true)])) = Ok bs /\
  decode bs (TSeq true root [a; b] []) = Ok (VSeq (Some [Some (VBool true); None; Some (VBool true)])).
Proof.
  exists [Comp "r" Mand TBool], (Comp "a" Opt TBool), (Comp "b" Opt TBool), [192; 64; 1; 128].
  repeat split; vm_compute; reflexivity.
Qed.
