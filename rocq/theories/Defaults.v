(** C20 (DEFAULT), C21-C22 (extension additions), C25 (SIZE of SEQUENCE OF) and
    C26 (holes). *)
From Coq Require Import ZArith List String Bool Lia ZifyBool ZifyNat ZifyN.
Import ListNotations.
From Verif Require Import PyBase Schema Encoder Decoder BitFacts Stream Prims Spec SimpleTypes RoundTrip
  Reading Totality Layout Sequences.
Open Scope string_scope.
Open Scope list_scope.
Open Scope Z_scope.
Ltac Zify.zify_post_hook ::= Z.div_mod_to_equations.

(** * C20 *)

(** Two BIT STRINGs of different length are told apart by the numbers they
    spell. *)
Definition told_apart (d v : val) : Prop :=
  forall a b, d = VBits a -> v = VBits b -> a <> b -> bval a <> bval b.

Lemma raw_ne_exact d v b : told_apart d v -> raw_ne d v = Ok b -> (b = false <-> v = d).
Proof.
  intros T E. split.
  - intros ->. destruct d, v; cbn [raw_ne] in E; try discriminate; injection E as E; apply negb_false_iff in E.
    + apply Bool.eqb_prop in E. congruence.
    + apply Z.eqb_eq in E. congruence.
    + apply Z.eqb_eq in E. congruence.
    + apply Z.eqb_eq in E. destruct (list_eq_dec Bool.bool_dec s s0) as [->|N]; auto.
      destruct (T s s0 eq_refl eq_refl N E).
    + destruct (list_eq_dec Z.eq_dec bs bs0); congruence.
  - intros ->. eapply raw_ne_refl; eauto.
Qed.

(** A DEFAULT root component has no part in the encoding exactly when the object
    found equals the default.  Missing: BIT STRINGs that spell the same number
    with different lengths, and DEFAULT components among the extension
    additions (both refuted below). *)
Theorem C20_default_not_sent_partial : forall ext root adds groups slots fs,
  well_formed root adds groups slots ->
  enc (TSeq ext root adds groups) (VSeq slots) = Ok fs ->
  exists parts first tail,
    List.length parts = List.length root /\
    fs = first ++ match presence_bits root parts with [] => [] | bm => [F false bm] end
               ++ List.concat (map sent_fields parts) ++ tail /\
    (ext = false -> first = [] /\ tail = []) /\ (ext = true -> exists b, first = [F false [b]]) /\
    forall i c d o, nth_error root i = Some c -> nth_error parts i = Some o -> cpres c = Dflt d ->
      told_apart d (found slots i c) ->
      (o = None <-> found slots i c = d) /\
      (forall ff, o = Some ff -> enc (cty c) (found slots i c) = Ok ff).
Proof.
  intros ext root adds groups slots fs W E.
  destruct (seq_decomposed _ _ _ _ _ _ W E) as (parts & first & presence & tail & A & B & C & D & P).
  exists parts, first, tail. split; [exact A|]. split; [rewrite <- P; exact C|]. split; [|split].
  - intros ->. exact D.
  - intros ->. destruct D as (b & D & _). eauto.
  - intros i c d o Hc Ho Hd T. destruct (B i c o Hc Ho) as (K1 & K2). unfold part_ok, part_why in *.
    rewrite Hd in K2. pose proof (raw_ne_exact _ _ _ T K2) as X. split.
    + rewrite <- X. destruct o; split; congruence.
    + intros ff ->. exact K1.
Qed.

Lemma found_slots_of os i c : found (slots_of os) i c = slot_get c (nth i os None).
Proof.
  unfold slots_of. destruct (forallb is_none os) eqn:N; cbn [found]; [|reflexivity].
  apply forallb_none_repeat in N. rewrite N, nth_repeat_none. reflexivity.
Qed.

Lemma canon_found ext root adds groups slots i c :
  well_formed root adds groups slots -> nth_error root i = Some c ->
  exists slots', canon (TSeq ext root adds groups) (VSeq slots) = VSeq slots' /\
    found slots' i c = slot_get c (if sent_root c (found slots i c) then Some (canon (cty c) (found slots i c)) else None).
Proof.
  intros W Hc. cbn [canon_by]. cbv zeta. eexists. split; [reflexivity|].
  rewrite found_slots_of. f_equal. rewrite (found_slot _ _ _ (ncomps root adds groups)).
  set (ss := slots_list (ncomps root adds groups) slots).
  assert (L : len ss = ncomps root adds groups).
  { apply wf_looks, Forall2_length in W. auto. }
  unfold ncomps, all_comps in L. rewrite app_length in L.
  assert (Hi : (i < len root)%nat) by (apply nth_error_Some; congruence).
  destruct (nth_error ss i) as [s|] eqn:S; [|apply nth_error_None in S; lia].
  rewrite (nth_error_nth' _ _ _ None S).
  assert (Z : nth_error (zipw canon_root (att canon root) ss) i = Some (canon_root (c, canon (cty c)) s)).
  { rewrite nth_error_zipw, S. unfold att. rewrite nth_error_map, Hc. reflexivity. }
  apply nth_error_nth'. rewrite nth_error_app1; [exact Z|]. apply nth_error_Some. congruence.
Qed.

(** After the wire the component is the original value, sent or not. *)
Theorem C20_default_restored_partial : forall ext root adds groups slots bs i c d,
  supported (TSeq ext root adds groups) (VSeq slots) ->
  encode (TSeq ext root adds groups) (VSeq slots) = Ok bs ->
  nth_error root i = Some c -> cpres c = Dflt d ->
  exists slots', decode bs (TSeq ext root adds groups) = Ok (VSeq slots') /\
                 found slots' i c = found slots i c.
Proof.
  intros ext root adds groups slots bs i c d S E Hc Hd.
  assert (W : well_formed root adds groups slots).
  { cbn [supported_by] in S. cbv zeta in S. destruct S as (N & L & _). split; [exact N|].
    destruct slots; auto. }
  pose proof (decode_encode_canon _ _ bs [] S ltac:(exact I) E ltac:(constructor)) as D.
  rewrite app_nil_r in D. apply encode_inv in E as (fs & E & _).
  destruct (canon_found ext root adds groups slots i c W Hc) as (slots' & C & Fd).
  rewrite C in D. exists slots'. split; [exact D|]. rewrite Fd. clear Fd C D.
  destruct (seq_decomposed _ _ _ _ _ _ W E) as (parts & first & presence & tail & A & B & _).
  destruct (nth_error parts i) as [o|] eqn:Ho.
  2:{ apply nth_error_None in Ho. assert (i < len root)%nat by (apply nth_error_Some; congruence). lia. }
  destruct (B i c o Hc Ho) as (_ & K). unfold part_why in K. rewrite Hd in K.
  unfold sent_root. rewrite Hd, K.
  assert (DO : default_ok d (found slots i c)).
  { cbn [supported_by] in S. cbv zeta in S. destruct S as (_ & L & _ & SR & _).
    assert (Hi : (i < len root)%nat) by (apply nth_error_Some; congruence).
    rewrite (found_slot _ _ _ (ncomps root adds groups)).
    set (ss := slots_list (ncomps root adds groups) slots) in *.
    unfold ncomps, all_comps in L. rewrite app_length in L.
    destruct (nth_error ss i) as [s|] eqn:Hs; [|apply nth_error_None in Hs; lia].
    rewrite (nth_error_nth' _ _ _ None Hs).
    assert (X : supp_root (c, supported (cty c)) s).
    { apply SR. apply (nth_error_In _ i). rewrite nth_error_zipw, Hs. unfold att.
      rewrite nth_error_map, Hc. reflexivity. }
    unfold supp_root in X. cbn [fst snd] in X. cbv zeta in X. rewrite Hd in X. tauto. }
  pose proof (default_decided _ _ _ DO K) as X.
  destruct o.
  - cbn [slot_get]. destruct (found slots i c), d; try discriminate; destruct (cty c); reflexivity.
  - cbn [slot_get]. rewrite Hd. symmetry. now apply X.
Qed.

Definition C20_ty : ty :=
  TSeq false [Comp "a" (Dflt (VInt 5)) (TInt (CRange false (Some 0) (Some 7)))] [] [].

(** Left alone, set to the default, set to another value. *)
Example C20_case :
  encode C20_ty (VSeq None) = Ok [0] /\ decode [0] C20_ty = Ok (VSeq None) /\
  encode C20_ty (VSeq (Some [Some (VInt 5)])) = Ok [0] /\
  encode C20_ty (VSeq (Some [Some (VInt 6)])) = Ok [224] /\
  decode [224] C20_ty = Ok (VSeq (Some [Some (VInt 6)])).
Proof. repeat split; vm_compute; reflexivity. Qed.

(** BIT STRING DEFAULT '1'B set to '0001'B: not sent, and read back as '1'B. *)
Theorem C20_default_refuted : exists c d v bs slots',
  let t := TSeq false [Comp "a" (Dflt d) (TBits c)] [] [] in
  v <> d /\ encode t (VSeq (Some [Some v])) = Ok bs /\ bs = [0] /\
  decode bs t = Ok (VSeq slots') /\ found slots' 0 (Comp "a" (Dflt d) (TBits c)) = d.
Proof.
  exists (CRange false (Some 0) (Some 8)), (VBits [true]), (VBits [false; false; false; true]), [0], None.
  cbv zeta. split; [discriminate|]. repeat split; vm_compute; reflexivity.
Qed.

(** A DEFAULT extension addition is sent though it equals its default and was
    never touched. *)
Theorem C20_addition_refuted : exists root adds bs,
  (exists c d, nth_error adds 0 = Some c /\ cpres c = Dflt d /\ found (Some [Some (VBool true); None]) 1 c = d) /\
  encode (TSeq true root adds []) (VSeq (Some [Some (VBool true); None])) = Ok bs /\ bs = [192; 64; 2; 1; 5].
Proof.
  exists [Comp "r" Mand TBool], [Comp "a" (Dflt (VInt 5)) (TInt CNone)], [192; 64; 2; 1; 5].
  split; [eexists _, _; repeat split|]. split; vm_compute; reflexivity.
Qed.

(** * C21 *)

Lemma seq_adds_ok root adds groups slots fs : well_formed root adds groups slots ->
  enc (TSeq true root adds groups) (VSeq slots) = Ok fs ->
  let ss := slots_list (ncomps root adds groups) slots in
  let look := get_by_name (all_comps root adds groups) slots in
  let s2 := firstn (len adds) (skipn (len root) ss) in
  let s3 := skipn (len adds) (skipn (len root) ss) in
  Forall2 (looks look) adds s2 /\ Forall2 (looks look) (List.concat groups) s3 /\
  (exists ab af, enc_adds enc look None adds = Ok (ab, af)) /\
  (exists gb gf, enc_groups enc look None groups = Ok (gb, gf)).
Proof.
  intros W E. cbv zeta. pose proof (wf_looks _ _ _ _ W) as L. cbv zeta in L. unfold all_comps at 2 in L.
  apply Forall2_app_l in L as (_ & L). apply Forall2_app_l in L as (L1 & L2).
  split; [exact L1|]. split; [exact L2|].
  cbn [enc] in E. unfold encode_sequence in E.
  destruct (enc_root enc _ root) as [rr|]; [|discriminate]. cbn [bind] in E.
  destruct (root_fields rr) as [rf|]; [|discriminate]. cbn [bind] in E.
  destruct (isnil adds && isnil groups) eqn:N.
  - apply andb_true_iff in N as (N1 & N2). destruct adds; [|discriminate]. destruct groups; [|discriminate].
    split; exists [], []; reflexivity.
  - destruct (enc_adds enc _ None adds) as [[ab af]|]; [|discriminate]. cbn [bind] in E.
    destruct (enc_groups enc _ None groups) as [[gb gf]|]; [|discriminate]. split; eauto.
Qed.

Lemma chained_next l : forall p i v o q fl, chained p l -> nth_error l i = Some (v, (o, q)) ->
  nth_error l (S i) = Some (true, fl) -> q = true \/ o = true.
Proof.
  induction l as [|[v0 fl0] l IH]; intros p i v o q fl C A B; [destruct i; discriminate|].
  cbn [chained] in C. destruct C as (C1 & C2). destruct i as [|i].
  - cbn in A, B. injection A as -> ->. destruct l as [|[v1 fl1] l]; [discriminate|].
    injection B as -> ->. cbn [chained] in C2. now apply C2.
  - cbn in A, B. eapply IH; eauto.
Qed.

(** The addition is sent. *)
Definition addition_sent (root adds : list (comp ty)) (slots : option (list (option val))) (i : nat) : Prop :=
  exists c, nth_error adds i = Some c /\ has_content (cty c) (found slots (List.length root + i) c).

Lemma nth_ss root adds groups slots i c : well_formed root adds groups slots ->
  let ss := slots_list (ncomps root adds groups) slots in
  nth_error (adds ++ List.concat groups) i = Some c ->
  exists s, nth_error (skipn (len root) ss) i = Some s /\ slot_get c s = found slots (len root + i) c.
Proof.
  intros W ss Hc. rewrite (found_slot _ _ _ (ncomps root adds groups)). fold ss.
  assert (L : len ss = ncomps root adds groups).
  { apply wf_looks, Forall2_length in W. auto. }
  unfold ncomps, all_comps in L. rewrite app_length in L.
  assert (Hi : (i < len (adds ++ List.concat groups))%nat) by (apply nth_error_Some; congruence).
  destruct (nth_error ss (len root + i)) as [s|] eqn:S; [|apply nth_error_None in S; lia].
  exists s. rewrite nth_error_skipn. split; auto. now rewrite (nth_error_nth' _ _ _ None S).
Qed.

(** The library compares each addition with its immediate predecessor. *)
Lemma addition_previous root adds groups slots fs i c c' :
  well_formed root adds groups slots ->
  enc (TSeq true root adds groups) (VSeq slots) = Ok fs ->
  nth_error adds i = Some c -> nth_error adds (S i) = Some c' ->
  has_content (cty c') (found slots (List.length root + S i) c') ->
  has_content (cty c) (found slots (List.length root + i) c) \/ cpres c = Opt.
Proof.
  intros W E A A' H. destruct (seq_adds_ok _ _ _ _ _ W E) as (L & _ & (ab & af & EA) & _). cbv zeta in *.
  destruct (enc_adds_flags _ _ _ _ _ _ L EA) as (_ & C). rewrite zipw_firstn in C.
  destruct (nth_ss root adds groups slots i c W) as (s & S1 & S2).
  { rewrite nth_error_app1; auto. apply nth_error_Some. congruence. }
  destruct (nth_ss root adds groups slots (S i) c' W) as (s' & S1' & S2').
  { rewrite nth_error_app1; auto. apply nth_error_Some. congruence. }
  set (l := zipw add_entry adds (skipn (len root) (slots_list (ncomps root adds groups) slots))) in *.
  assert (N1 : nth_error l i = Some (add_entry c s)) by (unfold l; now rewrite nth_error_zipw, A, S1).
  assert (N2 : nth_error l (S i) = Some (add_entry c' s')) by (unfold l; now rewrite nth_error_zipw, A', S1').
  unfold add_entry in N1, N2. rewrite S2 in N1. rewrite S2' in N2. destruct H as (H & _). rewrite H in N2.
  destruct (chained_next _ _ _ _ _ _ _ C N1 N2) as [X|X].
  - left. now apply sent_add_content in X.
  - right. unfold is_optional in X. destruct (cpres c); congruence.
Qed.

(** Missing: OPTIONAL additions in between, and the additions in front of an
    addition group (both refuted below).  An addition that is sent implies every
    earlier one that is not OPTIONAL, back to the nearest OPTIONAL one. *)
Theorem C21_mandatory_additions_partial : forall root adds groups slots fs i j c,
  well_formed root adds groups slots ->
  enc (TSeq true root adds groups) (VSeq slots) = Ok fs ->
  (i < j)%nat -> addition_sent root adds slots j ->
  nth_error adds i = Some c -> cpres c <> Opt ->
  (forall k c', (i < k < j)%nat -> nth_error adds k = Some c' -> cpres c' <> Opt) ->
  addition_sent root adds slots i.
Proof.
  intros root adds groups slots fs i j c W E Hij Hj Hc Ho Hb.
  assert (G : forall m k, (m + k = j)%nat -> (i <= k)%nat -> addition_sent root adds slots k).
  { induction m as [|m IH]; intros k Hk Hik; [now replace k with j by lia|].
    destruct (IH (S k) ltac:(lia) ltac:(lia)) as (c2 & A2 & H2).
    destruct (nth_error adds k) as [c1|] eqn:A1.
    2:{ apply nth_error_None in A1. assert (S k < len adds)%nat by (apply nth_error_Some; congruence). lia. }
    exists c1. split; auto.
    destruct (addition_previous _ _ _ _ _ k c1 c2 W E A1 A2 H2) as [X|X]; auto.
    exfalso. destruct (Nat.eq_dec k i) as [->|].
    - congruence.
    - apply (Hb k c1); auto. lia. }
  apply (G (j - i)%nat i); lia.
Qed.

(** Where no addition is OPTIONAL, the ones that are sent are a prefix. *)
Corollary C21_prefix_partial : forall root adds groups slots fs i j,
  well_formed root adds groups slots ->
  enc (TSeq true root adds groups) (VSeq slots) = Ok fs ->
  Forall (fun c => cpres c <> Opt) adds ->
  (i <= j)%nat -> addition_sent root adds slots j -> addition_sent root adds slots i.
Proof.
  intros root adds groups slots fs i j W E H Hij Hj.
  destruct (Nat.eq_dec i j) as [->|]; auto.
  rewrite Forall_forall in H.
  destruct (nth_error adds i) as [c|] eqn:A.
  - apply (C21_mandatory_additions_partial root adds groups slots fs i j c); auto; try lia.
    + apply H. eapply nth_error_In; eauto.
    + intros k c' _ K. apply H. eapply nth_error_In; eauto.
  - destruct Hj as (c & B & _). apply nth_error_None in A.
    assert (j < len adds)%nat by (apply nth_error_Some; congruence). lia.
Qed.

(** Equivalently: with such a gap encode raises. *)
Corollary C21_gap_raises_partial : forall root adds groups slots i j c,
  well_formed root adds groups slots ->
  (i < j)%nat -> addition_sent root adds slots j ->
  nth_error adds i = Some c -> cpres c <> Opt -> ~ addition_sent root adds slots i ->
  (forall k c', (i < k < j)%nat -> nth_error adds k = Some c' -> cpres c' <> Opt) ->
  exists e, encode (TSeq true root adds groups) (VSeq slots) = Err e.
Proof.
  intros root adds groups slots i j c W Hij Hj Hc Ho Hn Hb. rewrite encode_spec.
  destruct (enc (TSeq true root adds groups) (VSeq slots)) as [fs|e] eqn:E; eauto.
  destruct Hn. eapply C21_mandatory_additions_partial; eauto.
Qed.

(** Addition groups: a group follows a group that is sent or that has an OPTIONAL
    component; in a group that is sent the same rule holds between neighbours. *)
Definition group_start (adds : list (comp ty)) (groups : list (list (comp ty))) (k : nat) : nat :=
  (List.length adds + List.length (List.concat (firstn k groups)))%nat.

Definition group_is_sent (root adds : list (comp ty)) (groups : list (list (comp ty)))
    (slots : option (list (option val))) (k : nat) : Prop :=
  exists g j c, nth_error groups k = Some g /\ nth_error g j = Some c /\
    has_content (cty c) (found slots (List.length root + (group_start adds groups k + j)) c).

Lemma enc_groups_chain look gs : forall ss prevg bm fs, Forall2 (looks look) (List.concat gs) ss ->
  enc_groups enc look prevg gs = Ok (bm, fs) ->
  (forall k g, nth_error gs k = Some g ->
     chained None (zipw add_entry g (skipn (len (List.concat (firstn k gs))) ss)) /\
     (group_sent g (skipn (len (List.concat (firstn k gs))) ss) = true ->
      (exists r rf, enc_root enc look g = Ok r /\ root_fields r = Ok rf) /\
      match k with
      | O => match prevg with Some pps => existsb (fun p => ppresent p || poptional p) pps = true | None => True end
      | S k' => exists g', nth_error gs k' = Some g' /\
                 (group_sent g' (skipn (len (List.concat (firstn k' gs))) ss) = true \/ existsb is_optional g' = true)
      end)).
Proof.
  induction gs as [|g gs IH]; intros ss prevg bm fs L E k g0 Hk; [destruct k; discriminate|].
  cbn [List.concat] in L. apply Forall2_app_l in L as (L1 & L2). cbn [enc_groups] in E.
  destruct (group_scan look None g) as [ps|] eqn:E0; [|discriminate]. cbn [bind] in E.
  pose proof (group_scan_present look g _ None ps L1 E0) as P. rewrite group_sent_firstn in P.
  destruct (group_scan_flags look g _ None ps L1 E0) as (PS & CH).
  match type of E with bind ?x _ = _ => destruct x as [[b1 f1]|] eqn:E1; [|discriminate] end.
  cbn [bind fst snd] in E.
  destruct (enc_groups enc look (Some ps) gs) as [[b2 f2]|] eqn:E2; [|discriminate]. clear E.
  specialize (IH _ _ _ _ L2 E2).
  destruct k as [|k].
  - injection Hk as <-. cbn [firstn List.concat List.length skipn]. split.
    + rewrite <- zipw_firstn. exact CH.
    + intros G. rewrite <- P in G. rewrite G in E1. split.
      * match type of E1 with bind ?x _ = _ => destruct x; [|discriminate] end. cbn [bind] in E1.
        destruct (enc_root enc look g) as [r|]; [|discriminate]. cbn [bind] in E1.
        destruct (root_fields r) as [rf|] eqn:ER; [|discriminate]. exists r, rf. auto.
      * destruct prevg as [pps|]; auto. destruct (existsb _ pps); auto. destruct pps; discriminate.
  - cbn [nth_error] in Hk. destruct (IH k g0 Hk) as (C1 & C2).
    cbn [firstn List.concat]. rewrite app_length.
    assert (SK : forall n, skipn n (skipn (len g) ss) = skipn (len g + n) ss).
    { intros n. rewrite <- (firstn_skipn (len g) ss) at 2.
      pose proof (Forall2_length _ _ _ L1) as LL. rewrite skipn_app.
      rewrite (skipn_all2 (firstn (len g) ss)) by lia. rewrite <- LL.
      replace (len g + n - len g)%nat with n by lia. reflexivity. }
    rewrite <- SK. split; [exact C1|]. intros G. specialize (C2 G). destruct C2 as (C2 & C3).
    split; [exact C2|]. destruct k as [|k].
    + exists g. split; [reflexivity|]. cbn [firstn List.concat List.length skipn].
      rewrite <- P. clear - C3 PS. revert C3. rewrite PS. clear PS. 
      generalize (firstn (len g) ss). induction g as [|c g IH]; intros [|s l]; cbn [zipw existsb]; auto; try discriminate.
      cbn [ppresent poptional]. intros X. apply orb_true_iff in X as [X|X].
      * apply orb_true_iff in X as [X|X]; rewrite X; auto.
      * destruct (IH _ X) as [Y|Y]; rewrite Y, orb_true_r; auto.
    + destruct C3 as (g' & A & B). exists g'. split; [exact A|]. cbn [firstn List.concat]. rewrite app_length, <- SK.
      exact B.
Qed.

Lemma group_sent_iff root adds groups slots k g : well_formed root adds groups slots ->
  nth_error groups k = Some g ->
  let ss := slots_list (ncomps root adds groups) slots in
  group_sent g (skipn (len (List.concat (firstn k groups))) (skipn (len adds) (skipn (len root) ss))) = true <->
  group_is_sent root adds groups slots k.
Proof.
  intros W Hg ss.
  assert (LC : List.concat groups = List.concat (firstn k groups) ++ g ++ List.concat (skipn (S k) groups)).
  { rewrite <- (firstn_skipn k groups) at 1. rewrite concat_app. f_equal.
    clear - Hg. revert k Hg. induction groups as [|g' gs IH]; intros [|k] Hg; try discriminate.
    - injection Hg as ->. reflexivity.
    - cbn [skipn]. exact (IH k Hg). }
  assert (NS : forall j c, nth_error g j = Some c ->
    nth_error (adds ++ List.concat groups) (group_start adds groups k + j) = Some c).
  { intros j c Hj. assert (j < len g)%nat by (apply nth_error_Some; congruence).
    unfold group_start. rewrite nth_error_app2 by lia. rewrite LC.
    rewrite nth_error_app2 by lia. rewrite nth_error_app1 by lia. rewrite <- Hj. f_equal. lia. }
  unfold group_sent, group_is_sent. rewrite existsb_exists. split.
  - intros (b & Hin & ->). apply In_nth_error in Hin as (j & Hj). rewrite nth_error_zipw in Hj.
    destruct (nth_error g j) as [c|] eqn:G; [|discriminate].
    destruct (nth_ss root adds groups slots _ c W (NS j c G)) as (s & S1 & S2). fold ss in S1.
    unfold group_start in S1. rewrite <- Nat.add_assoc in S1. rewrite !nth_error_skipn in Hj.
    rewrite nth_error_skipn in S1. rewrite S1 in Hj. injection Hj as Hj. rewrite S2 in Hj.
    apply sent_add_content in Hj. exists g, j, c. auto.
  - intros (g' & j & c & G' & Hj & H). assert (g' = g) by congruence. subst g'. exists true. split; auto.
    destruct (nth_ss root adds groups slots _ c W (NS j c Hj)) as (s & S1 & S2). fold ss in S1.
    unfold group_start in S1. rewrite <- Nat.add_assoc in S1. rewrite nth_error_skipn in S1.
    apply (nth_error_In _ j). rewrite nth_error_zipw, Hj, !nth_error_skipn, S1, S2.
    f_equal. now apply sent_add_content.
Qed.

Theorem C21_groups_partial : forall root adds groups slots fs k,
  well_formed root adds groups slots ->
  enc (TSeq true root adds groups) (VSeq slots) = Ok fs ->
  group_is_sent root adds groups slots (S k) ->
  group_is_sent root adds groups slots k \/
  (exists g c, nth_error groups k = Some g /\ In c g /\ cpres c = Opt).
Proof.
  intros root adds groups slots fs k W E G.
  destruct (seq_adds_ok _ _ _ _ _ W E) as (_ & L & _ & (gb & gf & EG)). cbv zeta in *.
  pose proof G as (g & _ & _ & Hg & _). apply (group_sent_iff _ _ _ _ _ g W Hg) in G. cbv zeta in G.
  destruct (enc_groups_chain _ _ _ _ _ _ L EG (S k) g Hg) as (_ & C). destruct (C G) as (_ & g' & A & [B|B]).
  - left. apply (group_sent_iff _ _ _ _ _ g' W A). exact B.
  - right. apply existsb_exists in B as (c & B1 & B2). exists g', c. repeat split; auto.
    unfold is_optional in B2. destruct (cpres c); congruence.
Qed.

(** Inside a group that is sent every mandatory component is encoded: one that
    cannot be (a simple component that was not set) makes encode raise. *)
Theorem C21_group_mandatory : forall root adds groups slots fs k g j c,
  well_formed root adds groups slots ->
  enc (TSeq true root adds groups) (VSeq slots) = Ok fs ->
  group_is_sent root adds groups slots k ->
  nth_error groups k = Some g -> nth_error g j = Some c -> cpres c = Mand ->
  exists ff, enc (cty c) (found slots (List.length root + (group_start adds groups k + j)) c) = Ok ff.
Proof.
  intros root adds groups slots fs k g j c W E G Hg Hj Hm.
  destruct (seq_adds_ok _ _ _ _ _ W E) as (_ & L & _ & (gb & gf & EG)). cbv zeta in *.
  apply (group_sent_iff _ _ _ _ _ g W Hg) in G. cbv zeta in G.
  destruct (enc_groups_chain _ _ _ _ _ _ L EG k g Hg) as (_ & C). destruct (C G) as (([bm rfs] & rf & ER & _) & _).
  set (ss := slots_list (ncomps root adds groups) slots) in *.
  assert (LC : List.concat groups = List.concat (firstn k groups) ++ g ++ List.concat (skipn (S k) groups)).
  { rewrite <- (firstn_skipn k groups) at 1. rewrite concat_app. f_equal.
    clear - Hg. revert k Hg. induction groups as [|g' gs IH]; intros [|k] Hg; try discriminate.
    - injection Hg as ->. reflexivity.
    - cbn [skipn]. exact (IH k Hg). }
  rewrite LC in L. apply Forall2_app_l in L as (_ & L). apply Forall2_app_l in L as (L & _).
  destruct (enc_root_parts _ _ _ _ _ L ER) as (parts & P & _ & _).
  assert (NS : nth_error (adds ++ List.concat groups) (group_start adds groups k + j) = Some c).
  { assert (j < len g)%nat by (apply nth_error_Some; congruence).
    unfold group_start. rewrite nth_error_app2 by lia. rewrite LC.
    rewrite nth_error_app2 by lia. rewrite nth_error_app1 by lia. rewrite <- Hj. f_equal. lia. }
  destruct (nth_ss root adds groups slots _ c W NS) as (s & S1 & S2). fold ss in S1.
  unfold group_start in S1. rewrite <- Nat.add_assoc, nth_error_skipn in S1.
  set (l := firstn (len g) (skipn (len (List.concat (firstn k groups))) (skipn (len adds) (skipn (len root) ss)))) in *.
  assert (Sl : nth_error l j = Some s).
  { assert (j < len g)%nat by (apply nth_error_Some; congruence).
    assert (X : nth_error (skipn (len (List.concat (firstn k groups))) (skipn (len adds) (skipn (len root) ss))) j = Some s)
      by (rewrite !nth_error_skipn; exact S1).
    match type of X with nth_error ?m j = _ => rewrite <- (firstn_skipn (len g) m) in X end. rewrite nth_error_app1 in X; [exact X|].
    pose proof (Forall2_length _ _ _ L) as LL. fold l in LL. fold l. lia. }
  assert (Z : nth_error (zipw (fun c s => (c, slot_get c s)) g l) j = Some (c, slot_get c s)).
  { now rewrite nth_error_zipw, Hj, Sl. }
  destruct (nth_error parts j) as [o|] eqn:Ho.
  2:{ apply Forall2_length in P. apply nth_error_None in Ho.
      assert (j < len (zipw (fun c s => (c, slot_get c s)) g l))%nat by (apply nth_error_Some; congruence). lia. }
  destruct (Forall2_nth _ _ _ _ _ _ P Z Ho) as (K1 & K2). cbn [fst snd] in *. rewrite S2 in *.
  unfold part_ok, part_why in *. rewrite Hm in *. destruct o as [ff|]; [eauto|congruence].
Qed.

Example C21_case :
  let adds := [Comp "m" Mand TBool; Comp "n" Mand TBool] in
  let t := TSeq true [Comp "r" Mand TBool] adds [] in
  addition_sent [Comp "r" Mand TBool] adds (Some [Some (VBool true); Some (VBool true); Some (VBool false)]) 1 /\
  encode t (VSeq (Some [Some (VBool true); Some (VBool true); Some (VBool false)])) = Ok [192; 224; 1; 128; 1; 0] /\
  encode t (VSeq (Some [Some (VBool true); None; Some (VBool false)])) = Err (MandatoryExtensionFieldNotPresent "m").
Proof.
  cbv zeta. split; [|split; vm_compute; reflexivity].
  exists (Comp "n" Mand TBool). split; [reflexivity|]. split; [reflexivity|split; discriminate].
Qed.

(** { r BOOLEAN, ..., m BOOLEAN, o BOOLEAN OPTIONAL, x BOOLEAN } with only x set
    is sent without m. *)
Theorem C21_mandatory_additions_refuted : exists root adds slots bs,
  addition_sent root adds slots 2 /\
  (exists c, nth_error adds 0 = Some c /\ cpres c = Mand) /\ ~ addition_sent root adds slots 0 /\
  encode (TSeq true root adds []) (VSeq slots) = Ok bs.
Proof.
  exists [Comp "r" Mand TBool], [Comp "m" Mand TBool; Comp "o" Opt TBool; Comp "x" Mand TBool].
  exists (Some [Some (VBool true); None; None; Some (VBool true)]). exists [193; 16; 1; 128].
  split; [|split; [|split]].
  - exists (Comp "x" Mand TBool). split; [reflexivity|]. split; [reflexivity|split; discriminate].
  - eexists. split; reflexivity.
  - intros (c & [= <-] & H & _). discriminate.
  - vm_compute. reflexivity.
Qed.

(** { r BOOLEAN, ..., m BOOLEAN, [[ g BOOLEAN ]] } with only g set is sent without
    m. *)
Theorem C21_groups_refuted : exists root adds groups slots bs,
  group_is_sent root adds groups slots 0 /\
  (exists c, nth_error adds 0 = Some c /\ cpres c = Mand) /\ ~ addition_sent root adds slots 0 /\
  encode (TSeq true root adds groups) (VSeq slots) = Ok bs.
Proof.
  exists [Comp "r" Mand TBool], [Comp "m" Mand TBool], [[Comp "g" Mand TBool]].
  exists (Some [Some (VBool true); None; Some (VBool true)]). exists [192; 160; 1; 128].
  split; [|split; [|split]].
  - exists [Comp "g" Mand TBool], 0%nat, (Comp "g" Mand TBool). repeat split; discriminate.
  - eexists. split; reflexivity.
  - intros (c & [= <-] & H & _). discriminate.
  - vm_compute. reflexivity.
Qed.

(** * C22 *)

(** Nothing is set in the additions: no component of theirs has anything to send. *)
Definition no_addition (root adds : list (comp ty)) (groups : list (list (comp ty)))
    (slots : option (list (option val))) : Prop :=
  forall i c, nth_error (adds ++ List.concat groups) i = Some c ->
              ~ has_content (cty c) (found slots (List.length root + i) c).

(** An untouched SEQUENCE whose components may all be absent passes for a value:
    it does not follow a component that is required. *)
Definition no_false_alarm (root adds : list (comp ty)) (groups : list (list (comp ty)))
    (slots : option (list (option val))) : Prop :=
  forall i c' c, nth_error (adds ++ List.concat groups) i = Some c' ->
                 nth_error (adds ++ List.concat groups) (S i) = Some c ->
                 is_value (cty c) (found slots (List.length root + S i) c) = true -> cpres c' = Opt.

Fixpoint calm (prev : bool) (cs : list (comp ty)) (ss : list (option val)) : Prop :=
  match cs, ss with
  | c :: cs', s :: ss' =>
      (is_value (cty c) (slot_get c s) = true -> prev = true) /\ calm (is_optional c) cs' ss'
  | _, _ => True
  end.

Lemma calm_true p cs ss : calm p cs ss -> calm true cs ss.
Proof. destruct cs, ss; cbn [calm]; tauto. Qed.

Lemma calm_app c1 c2 ss p : (len c1 <= len ss)%nat -> calm p (c1 ++ c2) ss ->
  calm p c1 (firstn (len c1) ss) /\ calm true c2 (skipn (len c1) ss).
Proof.
  revert ss p. induction c1 as [|c c1 IH]; intros ss p L H.
  - cbn [app List.length firstn skipn] in *. split; [exact I|]. eapply calm_true; eauto.
  - destruct ss as [|s ss]; cbn [List.length] in L; [lia|]. cbn [app calm] in H. destruct H as (H1 & H).
    apply IH in H; [|lia]. cbn [List.length firstn skipn calm]. tauto.
Qed.

Definition prev_calm (p : option prev_comp) (b : bool) : Prop := b = true -> prev_missing p = None.

Lemma prev_calm_next (c : comp ty) : prev_calm (Some (Prev (cname c) false (is_optional c))) (is_optional c).
Proof. intros H. cbn [prev_missing ppresent poptional]. rewrite H. reflexivity. Qed.

Lemma adds_quiet look cs : forall ss prev b, Forall2 (looks look) cs ss ->
  Forall2 (fun c s => present (cty c) (slot_get c s) = false) cs ss -> calm b cs ss -> prev_calm prev b ->
  enc_adds enc look prev cs = Ok (repeat false (len cs), []).
Proof.
  induction cs as [|c cs IH]; intros ss prev b L Q C P; inversion L as [|? s ? ss' L1 L2]; subst; inversion Q as [|? ? ? ? Q1 Q2]; subst.
  - reflexivity.
  - cbn [calm] in C. destruct C as (C1 & C). cbn [enc_adds]. rewrite L1. cbn [bind]. rewrite present_eq in Q1.
    match goal with |- bind ?x _ = _ => assert (X : x = Ok (false, [])) end.
    { destruct (is_value (cty c) (slot_get c s)); [|reflexivity]. rewrite (P (C1 eq_refl)).
      cbn [andb] in Q1. rewrite Q1. reflexivity. }
    rewrite X. cbn [bind fst snd]. rewrite (IH ss' _ (is_optional c)); auto. apply prev_calm_next.
Qed.

Lemma group_scan_quiet look cs : forall ss prev b, Forall2 (looks look) cs ss ->
  Forall2 (fun c s => present (cty c) (slot_get c s) = false) cs ss -> calm b cs ss -> prev_calm prev b ->
  exists ps, group_scan look prev cs = Ok ps /\ existsb ppresent ps = false.
Proof.
  induction cs as [|c cs IH]; intros ss prev b L Q C P; inversion L as [|? s ? ss' L1 L2]; subst; inversion Q as [|? ? ? ? Q1 Q2]; subst.
  - exists []. auto.
  - cbn [calm] in C. destruct C as (C1 & C). cbn [group_scan]. rewrite L1. cbn [bind]. rewrite present_eq in Q1.
    match goal with |- exists ps, bind ?x _ = _ /\ _ => assert (X : x = Ok false) end.
    { destruct (is_value (cty c) (slot_get c s)); [|reflexivity]. rewrite (P (C1 eq_refl)).
      cbn [andb] in Q1. rewrite Q1. reflexivity. }
    rewrite X. cbn [bind].
    destruct (IH ss' (Some (Prev (cname c) false (is_optional c))) (is_optional c) L2 Q2 C (prev_calm_next c)) as (ps & -> & Y). cbn [bind].
    eexists. split; [reflexivity|]. cbn [existsb ppresent orb]. exact Y.
Qed.

Lemma groups_quiet look gs : forall ss prevg, Forall2 (looks look) (List.concat gs) ss ->
  Forall2 (fun c s => present (cty c) (slot_get c s) = false) (List.concat gs) ss -> calm true (List.concat gs) ss ->
  enc_groups enc look prevg gs = Ok (repeat false (len gs), []).
Proof.
  induction gs as [|g gs IH]; intros ss prevg L Q C; [reflexivity|].
  cbn [List.concat] in L, Q, C. pose proof (Forall2_length _ _ _ L) as LL. rewrite app_length in LL.
  apply calm_app in C as (C1 & C2); [|lia].
  apply Forall2_app_l in L as (L1 & L2). apply Forall2_app_l in Q as (Q1 & Q2).
  cbn [enc_groups]. destruct (group_scan_quiet look g _ None true L1 Q1 C1 ltac:(intros _; reflexivity)) as (ps & -> & X). cbn [bind].
  rewrite X. cbn [bind fst snd]. rewrite (IH _ (Some ps) L2 Q2 C2). reflexivity.
Qed.

Lemma no_addition_slots root adds groups slots : well_formed root adds groups slots ->
  no_addition root adds groups slots -> no_false_alarm root adds groups slots ->
  let ss := slots_list (ncomps root adds groups) slots in
  Forall2 (fun c s => present (cty c) (slot_get c s) = false) (adds ++ List.concat groups) (skipn (len root) ss) /\
  calm true (adds ++ List.concat groups) (skipn (len root) ss).
Proof.
  intros W N A ss.
  assert (L : len (adds ++ List.concat groups) = len (skipn (len root) ss)).
  { pose proof (wf_looks _ _ _ _ W) as L. cbv zeta in L. unfold all_comps at 2 in L.
    apply Forall2_app_l in L as (_ & L). now apply Forall2_length in L. }
  assert (G : forall i c, nth_error (adds ++ List.concat groups) i = Some c ->
    exists s, nth_error (skipn (len root) ss) i = Some s /\ present (cty c) (slot_get c s) = false).
  { intros i c Hc. destruct (nth_ss root adds groups slots i c W Hc) as (s & S1 & S2).
    exists s. split; auto. rewrite S2. apply not_true_iff_false. rewrite <- has_content_iff. now apply N. }
  assert (H : forall i c' c, nth_error (adds ++ List.concat groups) i = Some c' ->
                 nth_error (adds ++ List.concat groups) (S i) = Some c ->
    exists s, nth_error (skipn (len root) ss) (S i) = Some s /\ (is_value (cty c) (slot_get c s) = true -> is_optional c' = true)).
  { intros i c' c Hc' Hc. destruct (nth_ss root adds groups slots (S i) c W Hc) as (s & S1 & S2).
    exists s. split; auto. rewrite S2. intros V. unfold is_optional. now rewrite (A i c' c Hc' Hc V). }
  clear W N A. revert L G H. generalize (adds ++ List.concat groups) (skipn (len root) ss). intros l m L G H. split.
  - clear H. revert m L G. induction l as [|c l IH]; intros [|s m] L G; try discriminate; constructor.
    + destruct (G 0%nat c eq_refl) as (s' & [= <-] & H). exact H.
    + apply IH; [cbn in L; lia|]. intros i c' Hc. exact (G (S i) c' Hc).
  - clear G. destruct l as [|c l]; [exact I|]. destruct m as [|s m]; [exact I|]. cbn [calm]. split; auto.
    revert c s m L H. induction l as [|c2 l IH]; intros c s [|s2 m] L H; cbn [calm]; auto. split.
    + destruct (H 0%nat c c2 eq_refl eq_refl) as (s' & [= <-] & X). exact X.
    + apply (IH c2 s2); [cbn in L |- *; lia|]. intros i a b Ha Hb. exact (H (S i) a b Ha Hb).
Qed.

Lemma bval_repeat_false n : bval (repeat false n) = 0.
Proof.
  assert (H : ~ 0 < bval (repeat false n)).
  { rewrite bval_pos. intros H. apply repeat_spec in H. discriminate. }
  pose proof (bval_range (repeat false n)). lia.
Qed.

(** The version 1 object: the root slots. *)
Definition root_slots (root : list (comp ty)) (slots : option (list (option val))) :
  option (list (option val)) :=
  match slots with Some l => Some (firstn (List.length root) l) | None => None end.

Lemma v1_looks root adds groups slots : well_formed root adds groups slots ->
  enc_root enc (get_by_name (all_comps root adds groups) slots) root =
  enc_root enc (get_by_name (all_comps root [] []) (root_slots root slots)) root.
Proof.
  intros W. pose proof (wf_looks _ _ _ _ W) as L. cbv zeta in L. unfold all_comps at 2 in L.
  apply Forall2_app_l in L as (L & _).
  assert (W1 : well_formed root [] [] (root_slots root slots)).
  { destruct W as (N & Ln). split.
    - cbn [List.concat]. rewrite !app_nil_r. rewrite map_app in N. eapply NoDup_app_l; eauto.
    - destruct slots as [l|]; cbn [root_slots]; auto. rewrite firstn_length, Ln. cbn [List.concat].
      rewrite !app_nil_r, app_length. lia. }
  pose proof (wf_looks _ _ _ _ W1) as L1. cbv zeta in L1. unfold all_comps at 2 in L1. cbn [List.concat] in L1.
  rewrite !app_nil_r in L1. eapply enc_root_ext; [exact L|].
  replace (firstn (len root) (slots_list (len (all_comps root adds groups)) slots))
    with (slots_list (len (all_comps root [] [])) (root_slots root slots)); auto.
  unfold all_comps. cbn [List.concat]. rewrite !app_nil_r. destruct slots as [l|]; cbn [root_slots slots_list]; auto.
  rewrite app_length, repeat_app. symmetry. apply firstn_len_app. now rewrite repeat_length.
Qed.

(** The result of encode is the same, errors included.  Missing: DEFAULT
    additions, which have a value even when not set, and the false alarm (both
    refuted below). *)
Theorem C22_like_version_1_partial : forall root adds groups slots,
  well_formed root adds groups slots -> no_addition root adds groups slots ->
  no_false_alarm root adds groups slots ->
  encode (TSeq true root adds groups) (VSeq slots) =
  encode (TSeq true root [] []) (VSeq (root_slots root slots)).
Proof.
  intros root adds groups slots W N A. rewrite !encode_spec.
  assert (E : enc (TSeq true root adds groups) (VSeq slots) =
              enc (TSeq true root [] []) (VSeq (root_slots root slots))); [|now rewrite E].
  cbn [enc]. unfold encode_sequence. rewrite <- (v1_looks root adds groups slots) by auto.
  destruct (enc_root enc _ root) as [rr|]; [|reflexivity]. cbn [bind].
  destruct (root_fields rr) as [rf|]; [|reflexivity]. cbn [bind isnil andb].
  destruct (isnil adds && isnil groups); [reflexivity|].
  pose proof (wf_looks _ _ _ _ W) as L. cbv zeta in L. unfold all_comps at 2 in L.
  apply Forall2_app_l in L as (_ & L). pose proof (no_addition_slots _ _ _ _ W N A) as Q. cbv zeta in Q.
  destruct Q as (Q & C). unfold ncomps in Q, C. pose proof (Forall2_length _ _ _ Q) as LQ. rewrite app_length in LQ.
  apply calm_app in C as (C1 & C2); [|lia].
  apply Forall2_app_l in L as (L1 & L2). apply Forall2_app_l in Q as (Q1 & Q2).
  rewrite (adds_quiet _ _ _ None _ L1 Q1 C1 ltac:(intros _; reflexivity)), (groups_quiet _ _ _ _ L2 Q2 C2). cbn [bind fst snd].
  rewrite <- repeat_app, bval_repeat_false. reflexivity.
Qed.

(** The same from success: nothing to send in the additions. *)
Theorem C22_nothing_to_send_partial : forall root adds groups slots bs,
  well_formed root adds groups slots -> ~ addition_set root adds groups slots ->
  encode (TSeq true root adds groups) (VSeq slots) = Ok bs ->
  encode (TSeq true root [] []) (VSeq (root_slots root slots)) = Ok bs.
Proof.
  intros root adds groups slots bs W N. rewrite !encode_spec.
  destruct (enc (TSeq true root adds groups) (VSeq slots)) as [fs|] eqn:E; [|discriminate].
  destruct (seq_parts _ _ _ _ _ _ W E) as (bm & rfs & rf & ER & EF & b & tail & -> & B & T).
  rewrite v1_looks in ER by auto. cbn [enc]. unfold encode_sequence. rewrite ER. cbn [bind]. rewrite EF.
  cbn [bind isnil andb]. destruct b; [destruct N; now apply B|]. rewrite T, app_nil_r; auto.
Qed.

Example C22_case :
  let inner := TSeq false [Comp "o" Opt TBool] [] [] in
  let root := [Comp "r" Mand TBool] in
  let adds := [Comp "m" Opt TBool; Comp "s" Mand inner] in
  let slots := Some [Some (VBool true); None; None; None] in
  let t2 := TSeq true root adds [[Comp "g" Opt TBool]] in
  no_addition root adds [[Comp "g" Opt TBool]] slots /\ no_false_alarm root adds [[Comp "g" Opt TBool]] slots /\
  encode t2 (VSeq slots) = Ok [64] /\
  encode (TSeq true root [] []) (VSeq (Some [Some (VBool true)])) = Ok [64].
Proof.
  cbv zeta. split; [|split; [|split; vm_compute; reflexivity]].
  - intros [|[|[|[|i]]]] c; cbn; intros H; try discriminate; injection H as <-; intros (H & X & Y);
      try discriminate; now apply Y.
  - intros [|[|[|[|i]]]] c' c; cbn; intros H H'; try discriminate; injection H as <-; injection H' as <-;
      try discriminate; reflexivity.
Qed.

(** { r BOOLEAN, ..., a INTEGER DEFAULT 5 } with a not set. *)
Theorem C22_like_version_1_refuted : exists root adds slots bs bs1,
  nth_error slots 1 = Some None /\ List.length slots = 2%nat /\
  encode (TSeq true root adds []) (VSeq (Some slots)) = Ok bs /\
  encode (TSeq true root [] []) (VSeq (root_slots root (Some slots))) = Ok bs1 /\ bs <> bs1.
Proof.
  exists [Comp "r" Mand TBool], [Comp "a" (Dflt (VInt 5)) (TInt CNone)], [Some (VBool true); None].
  exists [192; 64; 2; 1; 5], [64]. repeat split; try (vm_compute; reflexivity). discriminate.
Qed.

(** { r BOOLEAN, ..., m BOOLEAN, s SEQUENCE { o BOOLEAN OPTIONAL } } with neither
    m nor s set is refused: m is reported missing. *)
Theorem C22_false_alarm_refuted : exists root adds slots bs1,
  nth_error slots 1 = Some None /\ nth_error slots 2 = Some None /\ List.length slots = 3%nat /\
  Forall (fun c => cpres c = Mand) adds /\
  encode (TSeq true root adds []) (VSeq (Some slots)) = Err (MandatoryExtensionFieldNotPresent "m") /\
  encode (TSeq true root [] []) (VSeq (root_slots root (Some slots))) = Ok bs1.
Proof.
  exists [Comp "r" Mand TBool],
    [Comp "m" Mand TBool; Comp "s" Mand (TSeq false [Comp "o" Opt TBool] [] [])], [Some (VBool true); None; None], [64].
  repeat split; try (vm_compute; reflexivity). repeat constructor.
Qed.

(** * C25 *)

Definition size_allowed (c : constr) (n : Z) : Prop :=
  match clo c with Some l => l <= n | None => True end /\
  match chi c with Some h => n <= h | None => True end.

(** Missing: an upper end point 0 (refuted below). *)
Theorem C25_size_refused_partial : forall c t vs,
  cext c = false -> ~ size_allowed c (zlen vs) -> chi c <> Some 0 ->
  exists e, encode (TSeqOf c t) (VSeqOf vs) = Err e.
Proof.
  intros c t vs X N H0. rewrite encode_spec. cbn [enc].
  destruct (enc_list (enc t) vs) as [body|e]; cbn [bind]; [|eauto]. unfold encode_sequence_of. rewrite X.
  unfold size_allowed in N. destruct (clo c) as [l|]; cbn [need bind]; [|eauto].
  destruct (Z.ltb_spec (zlen vs) l); [eauto|].
  destruct (chi c) as [h|]; [|tauto]. cbn [truthy le_opt_r].
  destruct (Z.eqb_spec h 0); [congruence|]. destruct (Z.leb_spec (zlen vs) h); [tauto|]. cbn [negb andb]. eauto.
Qed.

(** The exceptions, for elements that can be encoded. *)
Theorem C25_exceptions_partial : forall c t vs body l,
  cext c = false -> enc_list (enc t) vs = Ok body -> clo c = Some l ->
  (zlen vs < l -> encode (TSeqOf c t) (VSeqOf vs) = Err SizeConstrainViolated) /\
  (l <= zlen vs -> forall h, chi c = Some h -> h <> 0 -> h < zlen vs ->
   encode (TSeqOf c t) (VSeqOf vs) = Err InvalidComponentIndexIntoStructuredType).
Proof.
  intros c t vs body l X B L. rewrite encode_spec. cbn [enc]. rewrite B. cbn [bind].
  unfold encode_sequence_of. rewrite X, L. cbn [need bind]. split.
  - intros H. now destruct (Z.ltb_spec (zlen vs) l); [|lia].
  - intros H h Hh H0 Hn. destruct (Z.ltb_spec (zlen vs) l); [lia|]. rewrite Hh. cbn [truthy le_opt_r].
    destruct (Z.eqb_spec h 0); [congruence|]. now destruct (Z.leb_spec (zlen vs) h); [lia|].
Qed.

Example C25_case :
  let t := TSeqOf (CSeqSize false (Some 1) (Some 2)) TBool in
  encode t (VSeqOf []) = Err SizeConstrainViolated /\
  encode t (VSeqOf [VBool true; VBool true; VBool true]) = Err InvalidComponentIndexIntoStructuredType /\
  encode t (VSeqOf [VBool true; VBool true]) = Ok [224].
Proof. repeat split; vm_compute; reflexivity. Qed.

(** SEQUENCE (SIZE (0)) OF BOOLEAN accepts elements. *)
Theorem C25_size_refused_refuted : exists c t vs bs,
  cext c = false /\ ~ size_allowed c (zlen vs) /\ encode (TSeqOf c t) (VSeqOf vs) = Ok bs.
Proof.
  exists (CSeqSize false (Some 0) (Some 0)), TBool, [VBool true], [128]. split; [reflexivity|]. split.
  - intros (_ & H). cbn in H. lia.
  - vm_compute. reflexivity.
Qed.

(** * C26 *)

(** A message with a hole at a place the encoder visits. *)
Inductive hole : ty -> val -> Prop :=
| hole_unset t : is_simple t = true -> hole t VUnset
| hole_unchosen e r a g : hole (TChoice e r a g) (VChoice None)
| hole_mandatory e root adds groups slots i c :
    well_formed root adds groups slots -> nth_error root i = Some c -> cpres c = Mand ->
    hole (cty c) (found slots i c) -> hole (TSeq e root adds groups) (VSeq slots)
| hole_optional e root adds groups slots i c :
    well_formed root adds groups slots -> nth_error root i = Some c -> cpres c = Opt ->
    has_content (cty c) (found slots i c) ->
    hole (cty c) (found slots i c) -> hole (TSeq e root adds groups) (VSeq slots)
| hole_default e root adds groups slots i c d :
    well_formed root adds groups slots -> nth_error root i = Some c -> cpres c = Dflt d ->
    found slots i c = VUnset -> hole (TSeq e root adds groups) (VSeq slots)
| hole_addition root adds groups slots i c :
    well_formed root adds groups slots -> nth_error adds i = Some c ->
    has_content (cty c) (found slots (List.length root + i) c) ->
    hole (cty c) (found slots (List.length root + i) c) -> hole (TSeq true root adds groups) (VSeq slots)
| hole_group root adds groups slots k g j c :
    well_formed root adds groups slots -> group_is_sent root adds groups slots k ->
    nth_error groups k = Some g -> nth_error g j = Some c -> cpres c = Mand ->
    hole (cty c) (found slots (List.length root + (group_start adds groups k + j)) c) ->
    hole (TSeq true root adds groups) (VSeq slots)
| hole_element c t vs v : In v vs -> hole t v -> hole (TSeqOf c t) (VSeqOf vs)
| hole_chosen e root adds groups i c v :
    nth_error (root ++ adds ++ List.concat groups) i = Some c -> hole (cty c) v ->
    hole (TChoice e root adds groups) (VChoice (Some (i, v))).

Lemma enc_adds_encoded look cs : forall ss prev bm fs i c s, Forall2 (looks look) cs ss ->
  enc_adds enc look prev cs = Ok (bm, fs) ->
  nth_error cs i = Some c -> nth_error ss i = Some s -> sent_add c (slot_get c s) = true ->
  exists ff, enc (cty c) (slot_get c s) = Ok ff.
Proof.
  intros ss prev bm fs i c s L E Hc Hs V. pose proof (enc_adds_inv _ _ _ _ _ _ L E) as I.
  exact (Forall2_nth _ _ _ _ _ _ I Hc Hs V).
Qed.

Lemma enc_list_in t vs body v : enc_list (enc t) vs = Ok body -> In v vs -> exists ff, enc t v = Ok ff.
Proof.
  revert body. induction vs as [|x vs IH]; intros body E H; [destruct H|]. cbn [enc_list] in E.
  destruct (enc t x) as [a|] eqn:A; [|discriminate]. cbn [bind] in E.
  destruct (enc_list (enc t) vs) as [b|] eqn:B; [|discriminate]. destruct H as [->|H]; eauto.
Qed.

Lemma hole_enc t v : hole t v -> forall fs, enc t v <> Ok fs.
Proof.
  induction 1 as [t Ht|e r a g|e root adds groups slots i c W Hc P H IH|e root adds groups slots i c W Hc P V H IH
    |e root adds groups slots i c d W Hc P V|root adds groups slots i c W Hc V H IH
    |root adds groups slots k g j c W G Hg Hj P H IH|c t vs v Hin H IH|e root adds groups i c v Hc H IH]; intros fs E.
  - destruct t; discriminate.
  - discriminate.
  - destruct (seq_decomposed _ _ _ _ _ _ W E) as (parts & _ & _ & _ & A & B & _).
    destruct (nth_error parts i) as [o|] eqn:Ho.
    2:{ apply nth_error_None in Ho. assert (i < len root)%nat by (apply nth_error_Some; congruence). lia. }
    destruct (B i c o Hc Ho) as (K1 & K2). unfold part_ok, part_why in *. rewrite P in *.
    destruct o as [ff|]; [exact (IH ff K1)|congruence].
  - destruct (seq_decomposed _ _ _ _ _ _ W E) as (parts & _ & _ & _ & A & B & _).
    destruct (nth_error parts i) as [o|] eqn:Ho.
    2:{ apply nth_error_None in Ho. assert (i < len root)%nat by (apply nth_error_Some; congruence). lia. }
    destruct (B i c o Hc Ho) as (K1 & K2). unfold part_ok, part_why in *. rewrite P in *.
    destruct o as [ff|]; [exact (IH ff K1)|]. now apply K2.
  - destruct (seq_decomposed _ _ _ _ _ _ W E) as (parts & _ & _ & _ & A & B & _).
    destruct (nth_error parts i) as [o|] eqn:Ho.
    2:{ apply nth_error_None in Ho. assert (i < len root)%nat by (apply nth_error_Some; congruence). lia. }
    destruct (B i c o Hc Ho) as (_ & K). unfold part_why in K. rewrite P, V in K. destruct d; discriminate.
  - destruct (seq_adds_ok _ _ _ _ _ W E) as (L & _ & (ab & af & EA) & _). cbv zeta in *.
    destruct (nth_ss root adds groups slots i c W) as (s & S1 & S2).
    { rewrite nth_error_app1; auto. apply nth_error_Some. congruence. }
    assert (S3 : nth_error (firstn (len adds) (skipn (len root) (slots_list (ncomps root adds groups) slots))) i = Some s).
    { assert (i < len adds)%nat by (apply nth_error_Some; congruence).
      match type of S1 with nth_error ?m i = _ => rewrite <- (firstn_skipn (len adds) m) in S1 end. rewrite nth_error_app1 in S1; [exact S1|].
      pose proof (Forall2_length _ _ _ L) as LL. unfold ncomps in *. lia. }
    destruct (enc_adds_encoded _ _ _ _ _ _ i c s L EA Hc S3) as (ff & F).
    + rewrite S2. now apply sent_add_content.
    + rewrite S2 in F. exact (IH ff F).
  - destruct (C21_group_mandatory _ _ _ _ _ _ _ _ _ W E G Hg Hj P) as (ff & F). exact (IH ff F).
  - cbn [enc] in E. destruct (enc_list (enc t) vs) as [body|] eqn:B; [|discriminate].
    destruct (enc_list_in _ _ _ _ B Hin) as (ff & F). exact (IH ff F).
  - cbn [enc] in E.
    match type of E with match nth_error ?l i with _ => _ end = _ =>
      assert (Q : l = map (fun c => (cname c, enc (cty c))) (root ++ adds ++ List.concat groups)) end.
    { rewrite !map_app, concat_map. reflexivity. }
    rewrite Q, nth_error_map, Hc in E. cbn [option_map] in E.
    destruct (enc (cty c) v) as [ff|] eqn:F; [exact (IH ff eq_refl)|discriminate].
Qed.

Theorem C26_hole_refused : forall t v, hole t v -> exists e, encode t v = Err e.
Proof.
  intros t v H. rewrite encode_spec. destruct (enc t v) as [fs|e] eqn:E; [|eauto].
  destruct (hole_enc t v H fs E).
Qed.

(** Two levels down: a list of SEQUENCEs, the second with an unset mandatory
    component next to a set one. *)
Example C26_case :
  let e := TSeq false [Comp "x" Mand TBool; Comp "y" Mand (TInt CNone)] [] [] in
  let t := TSeq false [Comp "l" Mand (TSeqOf (CSeqSize false (Some 0) None) e)] [] [] in
  let good := VSeq (Some [Some (VBool true); Some (VInt 1)]) in
  let bad := VSeq (Some [Some (VBool true); None]) in
  hole t (VSeq (Some [Some (VSeqOf [good; bad])])) /\
  encode t (VSeq (Some [Some (VSeqOf [good; bad])])) = Err PyAsn1Error /\
  encode t (VSeq (Some [Some (VSeqOf [good; good])])) = Ok [2; 128; 1; 1; 128; 1; 1].
Proof.
  cbv zeta. split; [|split; vm_compute; reflexivity].
  eapply (hole_mandatory _ _ _ _ _ 0); [|reflexivity|reflexivity|].
  - split; [|reflexivity]. repeat constructor; cbn; tauto.
  - cbn [cty found nth]. eapply hole_element; [right; left; reflexivity|].
    eapply (hole_mandatory _ _ _ _ _ 1); [|reflexivity|reflexivity|].
    + split; [|reflexivity]. repeat constructor; cbn; intuition discriminate.
    + apply hole_unset. reflexivity.
Qed.
