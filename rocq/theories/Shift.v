(** C23, C24: what always goes wrong when sender and receiver have different
    versions of an extensible SEQUENCE and additions are sent. *)
From Coq Require Import ZArith List String Bool Lia ZifyBool ZifyNat ZifyN.
Import ListNotations.
From Verif Require Import PyBase Schema Encoder Decoder BitFacts Stream Prims Spec SimpleTypes RoundTrip
  Reading Totality Layout Sequences Defaults Versions Robust Valid.
Open Scope string_scope.
Open Scope list_scope.
Open Scope Z_scope.
Ltac Zify.zify_post_hook ::= Z.div_mod_to_equations.

(** The component was assigned. *)
Definition assigned (slots : option (list (option val))) (i : nat) : Prop :=
  exists l v, slots = Some l /\ nth_error l i = Some (Some v).

(** * Assignments *)

Lemma index_of_inv {T} nm (cs : list (comp T)) : forall i, index_of nm cs = Some i ->
  exists c, nth_error cs i = Some c /\ cname c = nm.
Proof.
  induction cs as [|c cs IH]; intros i E; cbn [index_of] in E; [discriminate|].
  destruct (String.eqb_spec (cname c) nm) as [Q|Q].
  - injection E as <-. exists c. auto.
  - destruct (index_of nm cs) as [j|]; [|discriminate]. injection E as <-. cbn [nth_error]. auto.
Qed.

Definition room (cs : list (comp ty)) (s : option (list (option val))) : Prop :=
  match s with Some l => len l = len cs | None => True end.

Lemma assign_all_slots cs i c : NoDup (map cname cs) -> nth_error cs i = Some c -> forall l s s', room cs s ->
  assign_all cs s l = Ok s' -> (assigned s' i <-> assigned s i \/ In (cname c) (map fst l)).
Proof.
  intros ND Hc. induction l as [|[nm v] l IH]; intros s s' RM E; cbn [assign_all] in E.
  - injection E as <-. cbn [map In]. tauto.
  - destruct (index_of nm cs) as [j|] eqn:J; [|discriminate].
    assert (RM' : room cs (slot_set (len cs) s j v)).
    { unfold slot_set, room. rewrite update_len. destruct s; [exact RM|apply repeat_length]. }
    rewrite (IH _ _ RM' E). cbn [map In fst].
    assert (X : assigned (slot_set (len cs) s j v) i <-> assigned s i \/ nm = cname c); [|tauto].
    destruct (index_of_inv _ _ _ J) as (c' & Hc' & N').
    unfold slot_set. destruct (Nat.eq_dec j i) as [->|D].
    + assert (c' = c) by congruence. subst c'. split; [auto|]. intros _.
      eexists _, v. split; [reflexivity|]. apply nth_update_same.
      assert (K : (i < len cs)%nat) by (apply nth_error_Some; congruence).
      unfold room in RM. destruct s as [l0|]; [now rewrite RM|now rewrite repeat_length].
    + assert (NN : nm <> cname c).
      { intros ->. rewrite (index_of_nth cs i c ND Hc) in J. congruence. }
      split.
      * intros (l0 & v0 & [= <-] & E0). rewrite nth_update_other in E0 by auto.
        destruct s as [l1|]; [left; now exists l1, v0|].
        apply nth_error_In, repeat_spec in E0. discriminate.
      * intros [(l0 & v0 & -> & E0)|]; [|congruence]. eexists _, v0. split; [reflexivity|].
        now rewrite nth_update_other.
Qed.

(** * What is assigned *)

Lemma dec_adds_names cs : NoDup (map cname cs) -> forall bm p x p', dec_adds dec cs bm p = Ok (x, p') ->
  (forall n, In n (map fst x) -> In n (map cname cs)) /\
  forall i c, nth_error cs i = Some c -> (In (cname c) (map fst x) <-> nth_error bm i = Some true).
Proof.
  induction cs as [|c0 cs IH]; intros ND bm p x p' E; cbn [dec_adds] in E.
  - injection E as <- <-. split; [intros n []|]. intros [|i] c H; discriminate.
  - destruct bm as [|b bm].
    { injection E as <- <-. split; [intros n []|]. intros [|i] c H; cbn; split; (discriminate || contradiction). }
    cbn [map] in ND. apply NoDup_cons_iff in ND as (N1 & ND).
    apply dbind_inv in E as (a & p1 & E1 & E). apply dbind_inv in E as (r & p2 & E2 & E). injection E as <- <-.
    destruct (IH ND _ _ _ _ E2) as (I1 & I2).
    assert (A : if b then exists v, a = [(cname c0, v)] else a = []).
    { destruct b; [|now injection E1].
      apply dbind_inv in E1 as (d & q1 & _ & E1). apply dbind_inv in E1 as (v & q2 & _ & E1). injection E1 as <- _. eauto. }
    split.
    + intros n. rewrite map_app, in_app_iff. cbn [map In]. intros [Q|Q]; [|right; auto].
      destruct b; [|subst a; destruct Q]. destruct A as (v & ->). cbn [map In fst] in Q. tauto.
    + intros i c H. rewrite map_app, in_app_iff. destruct i as [|i]; cbn [nth_error] in *.
      * injection H as <-. destruct b.
        -- destruct A as (v & ->). cbn [map In fst]. tauto.
        -- subst a. split; [|discriminate]. intros [[]|Q]. apply I1 in Q. contradiction.
      * rewrite <- (I2 i c H). split; [|auto]. intros [Q|Q]; [|exact Q]. exfalso. apply N1.
        destruct b; [|subst a; destruct Q]. destruct A as (v & ->). cbn [map In fst] in Q. destruct Q as [->|[]].
        apply nth_error_In in H. now apply in_map.
Qed.

Lemma dec_root_names cs : forall bm p x p', dec_root dec cs bm p = Ok (x, p') ->
  forall n, In n (map fst x) -> In n (map cname cs).
Proof.
  induction cs as [|c cs IH]; intros bm p x p' E n; cbn [dec_root] in E.
  - injection E as <- <-. intros [].
  - assert (T : forall q a q', (do d <- dec (cty c); do v <- lift (cast (cty c) d); ret [(cname c, v)]) q = Ok (a, q') ->
                 exists v, a = [(cname c, v)]).
    { intros q a q' T. apply dbind_inv in T as (d & q1 & _ & T). apply dbind_inv in T as (v & q2 & _ & T). injection T as <- _. eauto. }
    cbn [map In]. destruct (is_mandatory c).
    + apply dbind_inv in E as (a & p1 & E1 & E). apply dbind_inv in E as (r & p2 & E2 & E). injection E as <- <-.
      destruct (T _ _ _ E1) as (v & ->). cbn [app map In fst]. intros [Q|Q]; eauto.
    + destruct bm as [|b bm]; [discriminate|].
      apply dbind_inv in E as (a & p1 & E1 & E). apply dbind_inv in E as (r & p2 & E2 & E). injection E as <- <-.
      rewrite map_app, in_app_iff. intros [Q|Q]; [|eauto]. destruct b.
      * destruct (T _ _ _ E1) as (v & ->). destruct Q as [Q|[]]; auto.
      * injection E1 as <- _. destruct Q.
Qed.

Lemma dec_groups_names gs : forall bm p x p', dec_groups dec gs bm p = Ok (x, p') ->
  forall n, In n (map fst x) -> In n (map cname (List.concat gs)).
Proof.
  induction gs as [|g gs IH]; intros bm p x p' E n; cbn [dec_groups] in E.
  - injection E as <- <-. intros [].
  - destruct bm as [|b bm]; [injection E as <- <-; intros []|].
    apply dbind_inv in E as (a & p1 & E1 & E). apply dbind_inv in E as (r & p2 & E2 & E). injection E as <- <-.
    cbn [List.concat]. rewrite !map_app, !in_app_iff. intros [Q|Q]; [|eauto]. left. destruct b; [|injection E1 as <- _; destruct Q].
    unfold decode_open_type_field in E1. apply dbind_inv in E1 as (k & q1 & _ & E1).
    apply dbind_inv in E1 as (? & ? & _ & E1). apply dbind_inv in E1 as (? & ? & _ & E1). apply dbind_inv in E1 as (pb & ? & _ & E1).
    cbv beta in E1. destruct (dec_root_part dec g pb) as [[a0 q0]|] eqn:EI; [|discriminate].
    injection E1 as <- _. unfold dec_root_part in EI. destruct (Nat.eqb _ 0); [eapply dec_root_names; eauto|].
    destruct (_ <? _); [|discriminate].
    apply dbind_inv in EI as (v & q3 & _ & EI). apply dbind_inv in EI as (bm1 & q4 & _ & EI). eapply dec_root_names; eauto.
Qed.

(** * The receiver's bitmap *)

Lemma bin_zfill_any s n : bin_zfill (bval (true :: s)) (Z.of_nat n) = Ok (repeat false (n - len (true :: s)) ++ true :: s).
Proof.
  destruct (Nat.le_gt_cases n (len (true :: s))) as [L|L].
  - rewrite bin_zfill_lead by auto. replace (n - len (true :: s))%nat with 0%nat by lia. reflexivity.
  - rewrite <- (bval_zeros_app (n - len (true :: s)) (true :: s)).
    set (w := repeat false (n - len (true :: s)) ++ true :: s).
    replace (Z.of_nat n) with (zlen w); [apply bin_zfill_bits|].
    + intros Q. apply (f_equal (@List.length _)) in Q. unfold w in Q. rewrite app_length in Q. cbn [List.length] in Q. lia.
    + unfold w, zlen. rewrite app_length, repeat_length. lia.
Qed.

Lemma first_true (s : bits) : In true s -> exists k r, s = repeat false k ++ true :: r.
Proof.
  induction s as [|b s IH]; [intros []|]. intros Q. destruct b; [exists 0%nat, s; reflexivity|].
  destruct Q as [Q|Q]; [discriminate|]. destruct (IH Q) as (k & r & ->). exists (S k), r. reflexivity.
Qed.

Lemma reads_det {A} (d : D A) pos w a p pre rest b p' : reads d pos w a -> len pre = pos ->
  at_ p (pre ++ w ++ rest) pos -> d p = Ok (b, p') -> b = a /\ at_ p' (pre ++ w ++ rest) (pos + len w).
Proof. intros R L P E. destruct (R p pre rest L P) as (q & E' & P'). rewrite E in E'. injection E' as -> ->. auto. Qed.

Lemma dec_root_part_names cs p x p' : dec_root_part dec cs p = Ok (x, p') -> forall n, In n (map fst x) -> In n (map cname cs).
Proof.
  intros EI. unfold dec_root_part in EI. destruct (Nat.eqb _ 0); [eapply dec_root_names; eauto|].
  destruct (_ <? _); [|discriminate].
  apply dbind_inv in EI as (v & q3 & _ & EI). apply dbind_inv in EI as (bm1 & q4 & _ & EI). eapply dec_root_names; eauto.
Qed.

Lemma enc_groups_len look gs : forall prev bm fs, enc_groups enc look prev gs = Ok (bm, fs) -> len bm = len gs.
Proof.
  induction gs as [|g gs IH]; intros prev bm fs E; cbn [enc_groups] in E; [injection E as <- _; reflexivity|].
  destruct (group_scan look None g) as [ps|]; [|discriminate]. cbn [bind] in E.
  match type of E with bind ?x _ = _ => destruct x as [bf|]; [|discriminate] end. cbn [bind] in E.
  destruct (enc_groups enc look (Some ps) gs) as [[b f]|] eqn:Eg; [|discriminate]. injection E as <- _.
  cbn [List.length fst]. f_equal. eauto.
Qed.

(** A message with additions, read by a receiver with any additions and groups. *)
Lemma received root adds groups nadds ngroups slots bs v' :
  supported (TSeq true root adds groups) (VSeq slots) -> encode (TSeq true root adds groups) (VSeq slots) = Ok bs ->
  addition_set root adds groups slots -> NoDup (map cname (root ++ nadds ++ List.concat ngroups)) ->
  decode bs (TSeq true root nadds ngroups) = Ok v' ->
  exists bmap bm' slots', v' = VSeq slots' /\ len bmap = (len adds + len groups)%nat /\ In true bmap /\
    (forall i, (i < len adds)%nat -> (nth_error bmap i = Some true <-> addition_sent root adds slots i)) /\
    bin_zfill (bval bmap) (zlen nadds + zlen ngroups) = Ok bm' /\
    (forall i, (i < len nadds)%nat -> (assigned slots' (len root + i) <-> nth_error bm' i = Some true)).
Proof.
  intros S EB AS ND DB. apply encode_inv in EB as (fs & E & Hbs & Hob & Hoct & Hne).
  assert (W : well_formed root adds groups slots).
  { cbn [supported_by] in S. cbv zeta in S. destruct S as (N & L & _). split; [exact N|]. destruct slots; auto. }
  pose proof (wf_looks _ _ _ _ W) as LK. cbv zeta in LK.
  set (ss := slots_list (len (all_comps root adds groups)) slots) in *.
  set (look := get_by_name (all_comps root adds groups) slots) in *.
  unfold all_comps in LK. apply Forall2_app_l in LK as (LK1 & LK). apply Forall2_app_l in LK as (LK2 & LK3).
  pose proof S as S'. cbn [supported_by] in S'. cbv zeta in S'. destruct S' as (_ & LS & _ & SR & _ & _). unfold ncomps in SR, LS. fold ss in SR, LS.
  set (s1 := firstn (len root) ss) in *. set (s2 := firstn (len adds) (skipn (len root) ss)) in *.
  assert (SR' : all_of (zipw supp_root (att supported root) s1)).
  { unfold s1. rewrite <- (att_length supported root) at 1. rewrite zipw_firstn. exact SR. }
  pose proof (seq_parts _ _ _ _ _ _ W E) as (bm0 & rfs0 & rf0 & ER & EF & b & tail & Efs & BB & _). fold look in ER.
  assert (b = true) by (now apply BB). subst b.
  pose proof (root_part_rt look root s1 bm0 rfs0 rf0 (proj2 (Forall_forall _ root) (fun c _ => rt_all (cty c)))
                LK1 SR' ER EF) as RR.
  destruct (seq_adds_ok _ _ _ _ _ W E) as (_ & _ & (ab & af & EA) & (gb & gf & EG)). cbv zeta in EA, EG. fold look in EA, EG.
  pose proof (enc_adds_flags _ _ _ _ _ _ LK2 EA) as (Hb & _).
  pose proof (Forall2_length _ _ _ LK2) as L2.
  assert (Lab : len ab = len adds) by (rewrite Hb, zipw_length; auto).
  assert (Lgb : len gb = len groups).
  { exact (enc_groups_len _ _ _ _ _ EG). }
  set (bmap := ab ++ gb).
  assert (L64 : In true bmap /\ 1 <= zlen bmap <= 64 /\ exists r, tail = nsl_fields (zlen bmap) ++ F false bmap :: r).
  { pose proof E as E'. cbn [enc] in E'. unfold encode_sequence in E'. fold look in E'.
    rewrite ER in E'. cbn [bind] in E'. rewrite EF in E'. cbn [bind] in E'.
    destruct (isnil adds && isnil groups) eqn:NIL.
    { rewrite Efs in E'. discriminate. }
    rewrite EA in E'. cbn [bind] in E'. rewrite EG in E'. cbn [bind fst snd] in E'. fold bmap in E'.
    destruct (Z.ltb_spec 0 (bval bmap)) as [P|]; [|rewrite Efs in E'; discriminate].
    destruct (length_normally_small (zlen bmap)) as [det|] eqn:Ed; [|discriminate].
    cbn [bind] in E'. rewrite Efs in E'. injection E' as E'. apply app_inv_head in E'.
    assert (NN : bmap <> []) by (intros X; rewrite X in P; cbn in P; lia).
    pose proof (length_normally_small_inv _ _ Ed) as K64. pose proof (zlen_pos _ NN) as LP.
    rewrite length_normally_small_ok in Ed by lia. injection Ed as <-.
    split; [now apply bval_pos|]. split; [lia|]. eexists. symmetry. exact E'. }
  destruct L64 as (IT & K64 & r & ->).
  (* decoding *)
  unfold decode, decode_pos in DB. destruct (per_init_ok bs) as (p & Ep & Ap); auto. rewrite Ep in DB. cbn [bind] in DB.
  destruct (dec (TSeq true root nadds ngroups) p) as [[dv p9]|] eqn:DD; [|discriminate]. cbn [bind] in DB.
  destruct (produce_spec fs) as (k & Ek & _). rewrite Hob, Ek, Efs in Ap. rewrite render_bit, render_app, render_app, render_plain in Ap.
  cbn [dec] in DD. unfold decode_sequence in DD.
  apply dbind_inv in DD as (e & p1 & D1 & DD). apply dbind_inv in DD as (a & p2 & D2 & DD).
  set (w1 := render (0 + 1) rf0) in *. set (w2 := render (0 + 1 + len w1) (nsl_fields (zlen bmap))) in *.
  rewrite <- !app_assoc in Ap.
  match type of Ap with at_ p ((true :: ?x) ++ ?y) _ => change ((true :: x) ++ y) with ([true] ++ y) in Ap end.
  match type of Ap with at_ p ([true] ++ w1 ++ w2 ++ bmap ++ ?z) _ => set (z0 := z) in * end.
  destruct (reads_det _ 0 [true] _ p [] (w1 ++ w2 ++ bmap ++ z0) _ _ (reads_bit true 0) eq_refl Ap D1) as (-> & A1).
  change (negb (Z.b2z true =? 0)) with true in DD. cbv iota in DD.
  destruct (reads_det _ (0 + 1) w1 _ p1 [true] (w2 ++ bmap ++ z0) _ _ (RR (0 + 1)%nat) eq_refl A1 D2) as (Ea & A2).
  apply dbind_inv in DD as (b & p3 & D3 & DD).
  apply dbind_inv in D3 as (n & p4 & D4 & D3). apply dbind_inv in D3 as (v & p5 & D5 & D3).
  apply dbind_inv in D3 as (bm' & p6 & D6 & D3). apply dbind_inv in D3 as (u & p7 & _ & D3).
  apply dbind_inv in D3 as (x & p8 & D8 & D3). apply dbind_inv in D3 as (y & p10 & D10 & D3). injection D3 as <- <-.
  pose proof (reads_det _ _ w2 _ p2 ([true] ++ w1) (bmap ++ z0) n p4 (reads_nsl (zlen bmap) (0 + 1 + len w1) K64)) as Q4.
  rewrite <- app_assoc in Q4. destruct Q4 as (-> & A4); [rewrite app_length; reflexivity|exact A2|exact D4|].
  pose proof (reads_det _ _ bmap _ p4 ([true] ++ w1 ++ w2) z0 v p5
    (reads_next_bits (Z.to_nat (zlen bmap)) (0 + 1 + len w1 + len w2) bmap ltac:(unfold zlen in *; lia) ltac:(unfold zlen in *; lia))) as Q5.
  rewrite <- !app_assoc in Q5. destruct Q5 as (-> & _); [rewrite !app_length; cbn [List.length]; lia|exact A4|exact D5|].
  assert (D6' : bin_zfill (bval bmap) (zlen nadds + zlen ngroups) = Ok bm').
  { unfold lift in D6. destruct (bin_zfill _ _); [|discriminate]. now injection D6 as -> _. }
  apply dbind_inv in DD as (slots' & p11 & D11 & DD). injection DD as <- <-.
  assert (AL : assign_all (all_comps root nadds ngroups) None (a ++ x ++ y) = Ok slots').
  { unfold lift in D11. destruct (assign_all _ _ _); [|discriminate]. now injection D11 as -> _. }
  exists bmap, bm', slots'. split; [cbn in DB; congruence|]. split; [unfold bmap; rewrite app_length; lia|].
  split; [exact IT|]. split; [|split; [exact D6'|]].
  - intros i Hi. unfold bmap. rewrite nth_error_app1 by lia. rewrite Hb, nth_error_zipw.
    destruct (nth_error adds i) as [c|] eqn:Hc; [|apply nth_error_None in Hc; lia].
    assert (Hc' : nth_error (adds ++ List.concat groups) i = Some c) by (rewrite nth_error_app1; auto).
    destruct (nth_ss root adds groups slots i c W Hc') as (s & N1 & N2). unfold ncomps in N1. fold ss in N1.
    assert (Hs : nth_error s2 i = Some s).
    { rewrite <- (firstn_skipn (len adds) (skipn (len root) ss)) in N1. fold s2 in N1. rewrite nth_error_app1 in N1 by lia. exact N1. }
    rewrite Hs, N2. unfold addition_sent. split.
    + intros Q. exists c. split; [auto|]. apply sent_add_content. congruence.
    + intros (c' & E1 & E2). assert (c' = c) by congruence. subst c'. f_equal. now apply sent_add_content.
  - intros i Hi. destruct (nth_error nadds i) as [c|] eqn:Hc; [|apply nth_error_None in Hc; lia].
    assert (HA : nth_error (all_comps root nadds ngroups) (len root + i) = Some c).
    { unfold all_comps. rewrite nth_error_app2 by lia. replace (len root + i - len root)%nat with i by lia.
      now rewrite nth_error_app1 by lia. }
    rewrite (assign_all_slots _ _ _ ND HA _ None _ Logic.I AL). rewrite !map_app in ND.
    assert (NR : ~ In (cname c) (map cname root)).
    { intros Q. eapply NoDup_app_disjoint; [exact ND|exact Q|]. apply in_or_app. left. apply nth_error_In in Hc. now apply in_map. }
    apply NoDup_app_r in ND.
    assert (NG : ~ In (cname c) (map cname (List.concat ngroups))).
    { intros Q. eapply NoDup_app_disjoint; [exact ND| |exact Q]. apply nth_error_In in Hc. now apply in_map. }
    destruct (dec_adds_names nadds (NoDup_app_l _ _ ND) _ _ _ _ D8) as (_ & NX). specialize (NX i c Hc).
    rewrite !map_app, !in_app_iff.
    assert (NF : nth_error (firstn (len nadds) bm') i = nth_error bm' i).
    { rewrite <- (firstn_skipn (len nadds) bm') at 2. destruct (Nat.lt_ge_cases i (len (firstn (len nadds) bm'))) as [K|K].
      - now rewrite nth_error_app1.
      - rewrite firstn_length in K. rewrite (proj2 (nth_error_None _ _)) by (rewrite firstn_length; lia).
        symmetry. apply nth_error_None. rewrite app_length, firstn_length, skipn_length. lia. }
    rewrite NF in NX. rewrite <- NX. split; [|auto].
    intros [(l & v0 & Q & _)|[Q|[Q|Q]]]; [discriminate| |exact Q|].
    + destruct NR. eapply dec_root_part_names; eauto.
    + destruct NG. eapply dec_groups_names; eauto.
Qed.

(** * C24 *)

(** The receiver has more additions (or groups) than the sender: the first
    addition sent never arrives. *)
Theorem C24_first_lost : forall root adds more mgroups slots bs v' k,
  supported (TSeq true root adds []) (VSeq slots) -> encode (TSeq true root adds []) (VSeq slots) = Ok bs ->
  NoDup (map cname (root ++ (adds ++ more) ++ List.concat mgroups)) -> more <> [] \/ mgroups <> [] ->
  addition_sent root adds slots k -> (forall j, (j < k)%nat -> ~ addition_sent root adds slots j) ->
  decode bs (TSeq true root (adds ++ more) mgroups) = Ok v' ->
  exists slots', v' = VSeq slots' /\ ~ assigned slots' (len root + k).
Proof.
  intros root adds more mgroups slots bs v' k S E ND M K1 K2 DB.
  assert (AS : addition_set root adds [] slots).
  { destruct K1 as (c & Hc & V). exists k, c. split; [|exact V]. cbn [List.concat]. now rewrite app_nil_r. }
  assert (Hk : (k < len adds)%nat) by (destruct K1 as (c & Hc & _); apply nth_error_Some; congruence).
  destruct (received _ _ _ _ _ _ _ _ S E AS ND DB) as (bmap & bm' & slots' & -> & L & IT & FL & BZ & AG).
  exists slots'. split; [reflexivity|]. rewrite AG by (rewrite app_length; lia).
  destruct (first_true _ IT) as (k' & r & ->). rewrite app_length, repeat_length in L. cbn [List.length] in L.
  assert (k' = k).
  { destruct (Nat.lt_trichotomy k' k) as [Q|[Q|Q]]; [exfalso|exact Q|exfalso].
    - apply (K2 _ Q), FL; [lia|]. rewrite nth_error_app2 by (rewrite repeat_length; lia). rewrite repeat_length, Nat.sub_diag. reflexivity.
    - apply FL in K1; [|exact Hk]. rewrite nth_error_app1 in K1 by (rewrite repeat_length; lia).
      apply nth_error_In, repeat_spec in K1. discriminate. }
  subst k'. rewrite bval_zeros_app in BZ. unfold zlen in BZ. rewrite <- Nat2Z.inj_add, bin_zfill_any in BZ. injection BZ as <-.
  assert (P : (1 <= len more + len mgroups)%nat).
  { destruct M as [M|M]; [destruct more|destruct mgroups]; try congruence; cbn [List.length]; lia. }
  rewrite nth_error_app1 by (rewrite repeat_length, app_length; cbn [List.length]; lia).
  intros Q. apply nth_error_In, repeat_spec in Q. discriminate.
Qed.

(** * C23 *)

(** The receiver has fewer additions than the sender: if the first addition is
    not sent but another one is, something arrives that was not sent. *)
Theorem C23_first_invented : forall root adds more mgroups slots bs v',
  supported (TSeq true root (adds ++ more) mgroups) (VSeq slots) ->
  encode (TSeq true root (adds ++ more) mgroups) (VSeq slots) = Ok bs ->
  adds <> [] -> more <> [] \/ mgroups <> [] ->
  addition_set root (adds ++ more) mgroups slots -> ~ addition_sent root (adds ++ more) slots 0 ->
  decode bs (TSeq true root adds []) = Ok v' ->
  exists slots' i, v' = VSeq slots' /\ (i < len adds)%nat /\ assigned slots' (len root + i) /\
    ~ addition_sent root (adds ++ more) slots i.
Proof.
  intros root adds more mgroups slots bs v' S E NA M AS N0 DB.
  assert (ND : NoDup (map cname (root ++ adds ++ List.concat []))).
  { cbn [supported_by] in S. destruct S as (N & _). unfold all_comps in N. cbn [List.concat]. rewrite app_nil_r.
    rewrite <- !app_assoc, app_assoc, map_app in N. now apply NoDup_app_l in N. }
  destruct (received _ _ _ _ _ _ _ _ S E AS ND DB) as (bmap & bm' & slots' & -> & L & IT & FL & BZ & AG).
  destruct (first_true _ IT) as (k & r & ->). rewrite app_length, repeat_length, app_length in L. cbn [List.length] in L.
  assert (Ln : (1 <= len adds)%nat) by (destruct adds; [congruence|cbn [List.length]; lia]).
  assert (P : (1 <= len more + len mgroups)%nat).
  { destruct M as [M|M]; [destruct more|destruct mgroups]; try congruence; cbn [List.length]; lia. }
  assert (K : (1 <= k)%nat).
  { destruct k; [|lia]. exfalso. apply N0, FL; [rewrite app_length; lia|]. reflexivity. }
  rewrite bval_zeros_app in BZ. unfold zlen in BZ. rewrite <- Nat2Z.inj_add, bin_zfill_any in BZ. injection BZ as <-.
  set (i := (len adds + len (@nil (list (comp ty))) - len (true :: r))%nat) in *.
  assert (Ei : i = (len adds - Datatypes.S (len r))%nat) by (unfold i; cbn [List.length]; lia).
  exists slots', i. split; [reflexivity|]. split; [lia|]. split.
  - apply AG; [lia|]. rewrite nth_error_app2 by (rewrite repeat_length; lia). rewrite repeat_length, Nat.sub_diag. reflexivity.
  - intros Q. apply FL in Q; [|rewrite app_length; lia]. rewrite nth_error_app1 in Q by (rewrite repeat_length; lia).
    apply nth_error_In, repeat_spec in Q. discriminate.
Qed.

(** * Cases *)

Definition shift_root : list (comp ty) := [Comp "r" Mand TBool].
Definition shift_adds : list (comp ty) := [Comp "a" Opt TBool; Comp "b" Opt TBool].
Definition shift_more : list (comp ty) := [Comp "c" Opt TBool].
Definition shift_old : ty := TSeq true shift_root shift_adds [].
Definition shift_new : ty := TSeq true shift_root (shift_adds ++ shift_more) [].

Lemma shift_sent slots adds i c v : nth_error adds i = Some c -> found slots (1 + i) c = v -> present (cty c) v = true ->
  addition_sent shift_root adds slots i.
Proof. intros A B C. exists c. split; [exact A|]. change (len shift_root) with 1%nat. rewrite B. now apply has_content_iff. Qed.

(** The older sender sends b; the newer receiver takes it for c. *)
Example C24_lost_case :
  let slots := Some [Some (VBool true); None; Some (VBool true)] in
  supported shift_old (VSeq slots) /\ encode shift_old (VSeq slots) = Ok [192; 160; 1; 128] /\
  addition_sent shift_root shift_adds slots 1 /\ ~ addition_sent shift_root shift_adds slots 0 /\
  decode [192; 160; 1; 128] shift_new = Ok (VSeq (Some [Some (VBool true); None; None; Some (VBool true)])).
Proof.
  cbv zeta. split; [|split; [vm_compute; reflexivity|split; [|split; [|vm_compute; reflexivity]]]].
  - cbn [supported_by shift_old]. cbv zeta. split; [repeat constructor; cbn; intuition discriminate|].
    split; [reflexivity|]. split; [discriminate|]. split; [|split; [|exact Logic.I]].
    + intros p [<-|[]]. exact Logic.I.
    + cbn [att map shift_adds shift_root skipn List.length slots_list zipw].
      intros p [<-|[<-|[]]]; unfold supp_add; cbn [fst snd]; (split; [discriminate|]); [discriminate|].
      intros _. split; [exact Logic.I|]. split; [exact Logic.I|]. intros bs Q. vm_compute in Q. injection Q as <-. reflexivity.
  - eapply shift_sent; reflexivity.
  - intros (c & [= <-] & Q). apply has_content_iff in Q. discriminate Q.
Qed.

(** The newer sender sends b and not a; the older receiver takes it for a. *)
Example C23_invented_case :
  let slots := Some [Some (VBool true); None; Some (VBool true)] in
  let old := TSeq true shift_root [Comp "a" Opt TBool] [] in
  supported shift_old (VSeq slots) /\ encode shift_old (VSeq slots) = Ok [192; 160; 1; 128] /\
  ~ addition_sent shift_root shift_adds slots 0 /\ addition_set shift_root shift_adds [] slots /\
  decode [192; 160; 1; 128] old = Ok (VSeq (Some [Some (VBool true); Some (VBool true)])).
Proof.
  destruct C24_lost_case as (A & B & C & D0 & _). cbv zeta. split; [exact A|]. split; [exact B|]. split; [exact D0|].
  split; [|vm_compute; reflexivity]. destruct C as (c & Hc & V). exists 1%nat, c. split; [exact Hc|exact V].
Qed.
