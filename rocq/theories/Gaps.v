(** Exactly when an extensible SEQUENCE is refused or encoded like its first
    version (C21, C22), and exactly which DEFAULT values are lost (C20). *)
From Coq Require Import ZArith List String Bool Lia ZifyBool ZifyNat ZifyN.
Import ListNotations.
From Verif Require Import PyBase Schema Encoder Decoder BitFacts Stream Prims Spec SimpleTypes RoundTrip
  Reading Totality Layout Sequences Defaults Versions Valid.
Open Scope string_scope.
Open Scope list_scope.
Open Scope Z_scope.

(** * Neighbours *)

(** The rule between neighbours: a component that isValue follows one that is
    OPTIONAL or has content itself.  [base] is the place of the first one. *)
Definition neighbours_ok (cs : list (comp ty)) (base : nat) (slots : option (list (option val))) : Prop :=
  forall i c' c, nth_error cs i = Some c' -> nth_error cs (S i) = Some c ->
    is_value (cty c) (found slots (base + S i) c) = true ->
    cpres c' = Opt \/ has_content (cty c') (found slots (base + i) c').

Lemma is_optional_iff (c : comp ty) : is_optional c = true <-> cpres c = Opt.
Proof. unfold is_optional. destruct (cpres c); split; congruence. Qed.

Lemma chained_iff cs : forall ss p, len ss = len cs ->
  chained p (zipw add_entry cs ss) <->
  (forall c s, nth_error cs 0 = Some c -> nth_error ss 0 = Some s -> is_value (cty c) (slot_get c s) = true ->
     match p with Some (o, q) => q = true \/ o = true | None => True end) /\
  (forall i c' c s' s, nth_error cs i = Some c' -> nth_error cs (S i) = Some c ->
     nth_error ss i = Some s' -> nth_error ss (S i) = Some s -> is_value (cty c) (slot_get c s) = true ->
     sent_add c' (slot_get c' s') = true \/ is_optional c' = true).
Proof.
  induction cs as [|c cs IH]; intros [|s ss] p L; try discriminate.
  - cbn [zipw chained]. split; auto. intros _. split; intros; [discriminate|destruct i; discriminate].
  - cbn [zipw chained]. unfold add_entry at 1. rewrite IH by (cbn in L; lia). split.
    + intros (A & B1 & B2). split.
      * intros c0 s0 [= <-] [= <-]. exact A.
      * intros [|i] c' c0 s' s0; cbn [nth_error].
        -- intros [= <-] E [= <-] E' V. exact (B1 c0 s0 E E' V).
        -- exact (B2 i c' c0 s' s0).
    + intros (A & B). split; [exact (A c s eq_refl eq_refl)|]. split.
      * intros c0 s0 E E' V. exact (B 0%nat c c0 s s0 eq_refl E eq_refl E' V).
      * intros i. exact (B (S i)).
Qed.

(** The slots of [cs] are those from [base] on. *)
Definition slots_from (cs : list (comp ty)) (base : nat) (slots : option (list (option val))) (ss : list (option val)) : Prop :=
  len ss = len cs /\ forall i c s, nth_error cs i = Some c -> nth_error ss i = Some s -> slot_get c s = found slots (base + i) c.

Lemma chained_neighbours cs base slots ss : slots_from cs base slots ss ->
  chained None (zipw add_entry cs ss) <-> neighbours_ok cs base slots.
Proof.
  intros (L & F). rewrite chained_iff by exact L. unfold neighbours_ok. split.
  - intros (_ & A) i c' c E E' V.
    destruct (nth_error ss i) as [s'|] eqn:S1; [|apply nth_error_None in S1; assert (i < len cs)%nat by (apply nth_error_Some; congruence); lia].
    destruct (nth_error ss (S i)) as [s|] eqn:S2; [|apply nth_error_None in S2; assert (S i < len cs)%nat by (apply nth_error_Some; congruence); lia].
    rewrite <- (F _ _ _ E' S2) in V. destruct (A i c' c s' s E E' S1 S2 V) as [X|X].
    + right. rewrite <- (F _ _ _ E S1). now apply sent_add_content.
    + left. now apply is_optional_iff.
  - intros A. split; [auto|]. intros i c' c s' s E E' S1 S2 V. rewrite (F _ _ _ E' S2) in V.
    destruct (A i c' c E E' V) as [X|X]; [right; now apply is_optional_iff|]. left.
    rewrite <- (F _ _ _ E S1) in X. now apply sent_add_content.
Qed.

(** * The additions *)

Definition prev_ok (p : option prev_comp) : Prop :=
  match prev_flags p with Some (o, q) => q = true \/ o = true | None => True end.
Lemma prev_missing_iff p : prev_missing p = None <-> prev_ok p.
Proof.
  split; [apply prev_missing_none|]. unfold prev_ok. destruct p as [[n q o]|]; cbn [prev_flags prev_missing poptional ppresent]; auto.
  destruct q, o; cbn; auto. intros [X|X]; discriminate.
Qed.

Definition sendable (c : comp ty) (s : option val) : Prop :=
  sent_add c (slot_get c s) = true ->
  exists fs o, enc (cty c) (slot_get c s) = Ok fs /\ encode_open_type_field fs = Ok o.

Lemma adds_outcome look cs : forall ss prev, Forall2 (looks look) cs ss -> Forall2 sendable cs ss ->
  chained (prev_flags prev) (zipw add_entry cs ss) /\ (exists r, enc_adds enc look prev cs = Ok r) \/
  ~ chained (prev_flags prev) (zipw add_entry cs ss) /\ (exists nm, enc_adds enc look prev cs = Err (MandatoryExtensionFieldNotPresent nm)).
Proof.
  induction cs as [|c cs IH]; intros ss prev L Q; inversion L as [|? s ? ss' L1 L2]; subst; inversion Q as [|? ? ? ? Q1 Q2]; subst.
  - left. split; [exact I|]. eexists. reflexivity.
  - cbn [enc_adds zipw chained]. rewrite L1. cbn [bind]. unfold add_entry at 1 3. set (v := slot_get c s) in *.
    assert (NX : forall b, let p := Some (Prev (cname c) b (is_optional c)) in prev_flags p = Some (is_optional c, b)) by reflexivity.
    destruct (is_value (cty c) v) eqn:V.
    + destruct (prev_missing prev) as [nm|] eqn:P.
      * right. split; [|cbn [bind]; eauto]. intros (X & _). specialize (X eq_refl).
        assert (Y : prev_ok prev) by exact X. apply prev_missing_iff in Y. congruence.
      * assert (X : prev_ok prev) by now apply prev_missing_iff.
        assert (exists b o, (if comp_values_ok v then let* fs := enc (cty c) v in let* o := encode_open_type_field fs in Ok (true, o) else Ok (false, [])) = Ok (b, o)
                /\ b = sent_add c v) as (b & o & -> & B).
        { unfold sent_add. rewrite present_eq, V. destruct (comp_values_ok v) eqn:CV; cbn [andb]; [|eauto].
          destruct Q1 as (fs & o & E1 & E2). { fold v. unfold sent_add. now rewrite present_eq, V, CV. }
          fold v in E1. rewrite E1. cbn [bind]. rewrite E2. cbn [bind]. eauto. }
        cbn [bind fst snd]. rewrite <- B.
        destruct (IH ss' (Some (Prev (cname c) b (is_optional c))) L2 Q2) as [(C & r & E)|(C & nm & E)]; rewrite E; cbn [bind prev_flags poptional ppresent] in *.
        -- left. split; [|eauto]. split; [intros _; exact X|exact C].
        -- right. split; [|eauto]. tauto.
    + assert (B : sent_add c v = false) by (unfold sent_add; now rewrite present_eq, V). rewrite B. cbn [bind fst snd].
      destruct (IH ss' (Some (Prev (cname c) false (is_optional c))) L2 Q2) as [(C & r & E)|(C & nm & E)]; rewrite E; cbn [bind prev_flags poptional ppresent] in *.
      * left. split; [|eauto]. split; [discriminate|exact C].
      * right. split; [|eauto]. tauto.
Qed.

Lemma scan_outcome look cs : forall ss prev, Forall2 (looks look) cs ss ->
  chained (prev_flags prev) (zipw add_entry cs ss) /\ (exists r, group_scan look prev cs = Ok r) \/
  ~ chained (prev_flags prev) (zipw add_entry cs ss) /\ (exists nm, group_scan look prev cs = Err (MandatoryFieldNotPresentInExtensionGroup nm)).
Proof.
  induction cs as [|c cs IH]; intros ss prev L; inversion L as [|? s ? ss' L1 L2]; subst.
  - left. split; [exact I|]. eexists. reflexivity.
  - cbn [group_scan zipw chained]. rewrite L1. cbn [bind]. unfold add_entry at 1 3. set (v := slot_get c s) in *.
    destruct (is_value (cty c) v) eqn:V.
    + destruct (prev_missing prev) as [nm|] eqn:P.
      * right. split; [|cbn [bind]; eauto]. intros (X & _). specialize (X eq_refl).
        assert (Y : prev_ok prev) by exact X. apply prev_missing_iff in Y. congruence.
      * assert (X : prev_ok prev) by now apply prev_missing_iff.
        assert (B : comp_values_ok v = sent_add c v) by (unfold sent_add; now rewrite present_eq, V). rewrite <- B.
        cbn [bind]. destruct (IH ss' (Some (Prev (cname c) (comp_values_ok v) (is_optional c))) L2) as [(C & r & E)|(C & nm & E)]; rewrite E; cbn [bind prev_flags poptional ppresent] in *.
        -- left. split; [|eauto]. split; [intros _; exact X|exact C].
        -- right. split; [|eauto]. tauto.
    + assert (B : sent_add c v = false) by (unfold sent_add; now rewrite present_eq, V). rewrite B. cbn [bind].
      destruct (IH ss' (Some (Prev (cname c) false (is_optional c))) L2) as [(C & r & E)|(C & nm & E)]; rewrite E; cbn [bind prev_flags poptional ppresent] in *.
      * left. split; [|eauto]. split; [discriminate|exact C].
      * right. split; [|eauto]. tauto.
Qed.

(** * The groups *)

Definition group_sendable (look : string -> res val) (g : list (comp ty)) : Prop :=
  exists r rf o, enc_root enc look g = Ok r /\ root_fields r = Ok rf /\ encode_open_type_field rf = Ok o.

Fixpoint groups_chained (before : bool) (gs : list (list (comp ty))) (ss : list (option val)) : Prop :=
  match gs with
  | [] => True
  | g :: gs' => chained None (zipw add_entry g ss) /\ (group_sent g ss = true -> before = true) /\
                groups_chained (group_sent g ss || existsb is_optional g) gs' (skipn (len g) ss)
  end.
Fixpoint groups_sendable (look : string -> res val) (gs : list (list (comp ty))) (ss : list (option val)) : Prop :=
  match gs with
  | [] => True
  | g :: gs' => (group_sent g ss = true -> group_sendable look g) /\ groups_sendable look gs' (skipn (len g) ss)
  end.
Definition before_ok (p : option (list prev_comp)) : bool :=
  match p with Some pps => existsb (fun p => ppresent p || poptional p) pps | None => true end.

Lemma scan_before g : forall ss, len ss = len g ->
  existsb (fun p => ppresent p || poptional p) (zipw (fun c s => Prev (cname c) (sent_add c (slot_get c s)) (is_optional c)) g ss) =
  group_sent g ss || existsb is_optional g.
Proof.
  unfold group_sent. induction g as [|c g IH]; intros [|s ss] L; try discriminate; [reflexivity|].
  cbn [zipw existsb ppresent poptional]. rewrite IH by (cbn in L; lia).
  destruct (sent_add c (slot_get c s)), (is_optional c); cbn [orb]; auto using orb_true_r.
Qed.

Lemma groups_outcome look gs : forall ss prevg, Forall2 (looks look) (List.concat gs) ss -> groups_sendable look gs ss ->
  groups_chained (before_ok prevg) gs ss /\ (exists r, enc_groups enc look prevg gs = Ok r) \/
  ~ groups_chained (before_ok prevg) gs ss /\ (exists e, enc_groups enc look prevg gs = Err e).
Proof.
  induction gs as [|g gs IH]; intros ss prevg L Q.
  - left. split; [exact I|]. eexists. reflexivity.
  - cbn [List.concat] in L. apply Forall2_app_l in L as (L1 & L2). cbn [groups_sendable] in Q. destruct Q as (Q1 & Q2).
    cbn [enc_groups groups_chained].
    destruct (scan_outcome look g _ None L1) as [(C & ps & E0)|(C & nm & E0)]; rewrite zipw_firstn in C; rewrite E0; cbn [bind].
    2:{ right. split; [|eauto]. intros (X & _). exact (C X). }
    pose proof (group_scan_present look g _ None ps L1 E0) as P. rewrite group_sent_firstn in P. rewrite P.
    destruct (group_scan_flags look g _ None ps L1 E0) as (PS & _).
    assert (BO : before_ok (Some ps) = group_sent g ss || existsb is_optional g).
    { cbn [before_ok]. rewrite PS, scan_before by (symmetry; exact (Forall2_length _ _ _ L1)). now rewrite group_sent_firstn. }
    destruct (IH _ (Some ps) L2 Q2) as [(C' & r & E)|(C' & e & E)]; rewrite BO in C'; rewrite E.
    + destruct (group_sent g ss) eqn:GS.
      * destruct (Q1 eq_refl) as (r0 & rf & o & ER & EF & EO). 
        destruct prevg as [pps|]; cbn [before_ok] in *.
        -- destruct (existsb (fun p => ppresent p || poptional p) pps) eqn:X; cbn [bind].
           ++ rewrite ER. cbn [bind]. rewrite EF. cbn [bind]. rewrite EO. cbn [bind]. left. split; [tauto|eauto].
           ++ right. split; [intros (_ & Y & _); now specialize (Y eq_refl)|]. destruct pps; cbn [bind]; eauto.
        -- cbn [bind]. rewrite ER. cbn [bind]. rewrite EF. cbn [bind]. rewrite EO. cbn [bind]. left. split; [tauto|eauto].
      * cbn [bind]. left. split; [|eauto]. split; [exact C|]. split; [discriminate|exact C'].
    + right. split; [tauto|]. match goal with |- exists e, bind ?x _ = _ => destruct x as [[? ?]|]; cbn [bind fst snd] end; eauto.
Qed.

(** The slots from the [k]-th group on. *)
Definition at_group (gs : list (list (comp ty))) (ss : list (option val)) (k : nat) : list (option val) :=
  skipn (len (List.concat (firstn k gs))) ss.

Lemma skipn_more {A} a b (l : list A) : skipn (a + b) l = skipn b (skipn a l).
Proof. revert l. induction a as [|a IH]; intros [|x l]; cbn [Nat.add skipn]; auto. now rewrite skipn_nil. Qed.
Lemma at_group_S g gs ss k : at_group (g :: gs) ss (S k) = at_group gs (skipn (len g) ss) k.
Proof. unfold at_group. cbn [firstn List.concat]. rewrite app_length. apply skipn_more. Qed.

Lemma groups_chained_iff gs : forall before ss,
  groups_chained before gs ss <->
  (forall k g, nth_error gs k = Some g -> chained None (zipw add_entry g (at_group gs ss k))) /\
  (forall g, nth_error gs 0 = Some g -> group_sent g ss = true -> before = true) /\
  (forall k g g', nth_error gs k = Some g' -> nth_error gs (S k) = Some g -> group_sent g (at_group gs ss (S k)) = true ->
     group_sent g' (at_group gs ss k) = true \/ existsb is_optional g' = true).
Proof.
  induction gs as [|g gs IH]; intros before ss.
  - cbn [groups_chained]. split; auto. intros _. split; [intros [|k]; discriminate|]. split; [discriminate|]. intros [|k]; discriminate.
  - cbn [groups_chained]. rewrite IH. split.
    + intros (A & A1 & A2 & A3 & A4). split; [|split].
      * intros [|k] g0; cbn [nth_error]; [intros [= <-]; exact A|]. rewrite at_group_S. apply A2.
      * intros g0 [= <-]. exact A1.
      * intros [|k] g0 g'; cbn [nth_error].
        -- intros [= <-] E. rewrite at_group_S. intros X. apply orb_true_iff. exact (A3 g0 E X).
        -- intros E E'. rewrite !at_group_S. exact (A4 k g0 g' E E').
    + intros (A & A1 & A2). split; [exact (A 0%nat g eq_refl)|]. split; [exact (A1 g eq_refl)|]. split; [|split].
      * intros k g0 E. rewrite <- at_group_S. exact (A (S k) g0 E).
      * intros g0 E X. apply orb_true_iff. apply (A2 0%nat g0 g eq_refl E). rewrite at_group_S. exact X.
      * intros k g0 g' E E'. rewrite <- !at_group_S. exact (A2 (S k) g0 g' E E').
Qed.

(** * From places to slots *)

Section Parts.
Variables (root adds : list (comp ty)) (groups : list (list (comp ty))) (slots : option (list (option val))).
Hypothesis W : well_formed root adds groups slots.
Let ss := slots_list (ncomps root adds groups) slots.
Let look := get_by_name (all_comps root adds groups) slots.
Let s2 := firstn (len adds) (skipn (len root) ss).
Let s3 := skipn (len adds) (skipn (len root) ss).

Lemma parts_look : Forall2 (looks look) adds s2 /\ Forall2 (looks look) (List.concat groups) s3.
Proof.
  pose proof (wf_looks _ _ _ _ W) as L. cbv zeta in L. unfold all_comps at 2 in L.
  apply Forall2_app_l in L as (_ & L). now apply Forall2_app_l in L.
Qed.

Lemma adds_from : slots_from adds (len root) slots s2.
Proof.
  destruct parts_look as (L & _). split; [symmetry; exact (Forall2_length _ _ _ L)|].
  intros i c s E S1. assert (i < len adds)%nat by (apply nth_error_Some; congruence).
  destruct (nth_ss root adds groups slots i c W) as (s' & S1' & S2'). { now rewrite nth_error_app1. }
  fold ss in S1'. unfold s2 in S1. rewrite <- (firstn_skipn (len adds) (skipn (len root) ss)) in S1'.
  rewrite nth_error_app1 in S1'; [congruence|]. fold s2. rewrite <- (Forall2_length _ _ _ L). lia.
Qed.

Lemma concat_at k g : nth_error groups k = Some g ->
  List.concat groups = List.concat (firstn k groups) ++ g ++ List.concat (skipn (S k) groups).
Proof.
  intros Hg. rewrite <- (firstn_skipn k groups) at 1. rewrite concat_app. f_equal.
  clear - Hg. revert k Hg. induction groups as [|g' gs IH]; intros [|k] Hg; try discriminate.
  - injection Hg as ->. reflexivity.
  - cbn [skipn]. exact (IH k Hg).
Qed.

Definition group_slots (k : nat) (g : list (comp ty)) : list (option val) := firstn (len g) (at_group groups s3 k).

Lemma group_look k g : nth_error groups k = Some g -> Forall2 (looks look) g (group_slots k g).
Proof.
  intros Hg. destruct parts_look as (_ & L). rewrite (concat_at k g Hg) in L.
  apply Forall2_app_l in L as (_ & L). apply Forall2_app_l in L as (L & _). exact L.
Qed.

Lemma group_from k g : nth_error groups k = Some g ->
  slots_from g (len root + group_start adds groups k) slots (group_slots k g).
Proof.
  intros Hg. pose proof (group_look k g Hg) as L. split; [symmetry; exact (Forall2_length _ _ _ L)|].
  intros j c s E S1. assert (J : (j < len g)%nat) by (apply nth_error_Some; congruence).
  assert (NS : nth_error (adds ++ List.concat groups) (group_start adds groups k + j) = Some c).
  { unfold group_start. rewrite nth_error_app2 by lia. rewrite (concat_at k g Hg).
    rewrite nth_error_app2 by lia. rewrite nth_error_app1 by lia. rewrite <- E. f_equal. lia. }
  destruct (nth_ss root adds groups slots _ c W NS) as (s' & S1' & S2'). fold ss in S1'.
  rewrite Nat.add_assoc in S2'.
  assert (X : nth_error (at_group groups s3 k) j = Some s').
  { unfold at_group, s3. rewrite !nth_error_skipn. rewrite nth_error_skipn in S1'. unfold group_start in S1'.
    rewrite <- S1'. f_equal. lia. }
  rewrite <- (firstn_skipn (len g) (at_group groups s3 k)) in X. fold (group_slots k g) in X.
  rewrite nth_error_app1 in X by (rewrite <- (Forall2_length _ _ _ L); exact J). congruence.
Qed.

Lemma chain_adds : chained None (zipw add_entry adds s2) <-> neighbours_ok adds (len root) slots.
Proof. apply chained_neighbours, adds_from. Qed.

Lemma chain_group k g : nth_error groups k = Some g ->
  chained None (zipw add_entry g (at_group groups s3 k)) <-> neighbours_ok g (len root + group_start adds groups k) slots.
Proof. intros Hg. rewrite <- zipw_firstn. apply chained_neighbours. exact (group_from k g Hg). Qed.

Lemma sent_at k g : nth_error groups k = Some g ->
  group_sent g (at_group groups s3 k) = true <-> group_is_sent root adds groups slots k.
Proof. intros Hg. exact (group_sent_iff root adds groups slots k g W Hg). Qed.

Lemma chain_groups : groups_chained true groups s3 <->
  (forall k g, nth_error groups k = Some g -> neighbours_ok g (len root + group_start adds groups k) slots) /\
  (forall k g, nth_error groups k = Some g -> group_is_sent root adds groups slots (S k) ->
     group_is_sent root adds groups slots k \/ exists c, In c g /\ cpres c = Opt).
Proof.
  rewrite groups_chained_iff. split.
  - intros (A & _ & A2). split.
    + intros k g E. apply chain_group; auto.
    + intros k g E X. pose proof X as (g0 & _ & _ & E0 & _). destruct (A2 k g0 g E E0) as [Y|Y].
      * now apply sent_at.
      * left. now apply (sent_at k g).
      * right. apply existsb_exists in Y as (c & Y1 & Y2). exists c. split; [exact Y1|]. now apply is_optional_iff.
  - intros (A & A2). split; [|split; [auto|]].
    + intros k g E. apply chain_group; auto.
    + intros k g g' E' E X. apply sent_at in X; [|exact E]. destruct (A2 k g' E' X) as [Y|(c & Y1 & Y2)].
      * left. now apply sent_at.
      * right. apply existsb_exists. exists c. split; [exact Y1|]. now apply is_optional_iff.
Qed.
End Parts.

(** * C22 *)

Lemma first_bit_out b fs : exists r, produce_complete_encoding (F false [b] :: fs) = b :: r.
Proof.
  destruct (produce_spec (F false [b] :: fs)) as (k & E & _). rewrite E. cbn [render falign fpad fbits app]. eexists. reflexivity.
Qed.

Lemma quiet_sendable root adds groups slots : well_formed root adds groups slots -> no_addition root adds groups slots ->
  let ss := slots_list (ncomps root adds groups) slots in
  Forall2 sendable adds (firstn (len adds) (skipn (len root) ss)) /\
  (forall k g, nth_error groups k = Some g -> ~ group_is_sent root adds groups slots k).
Proof.
  intros W N ss. split.
  - destruct (adds_from root adds groups slots W) as (L & F). fold ss in L, F.
    set (s2 := firstn (len adds) (skipn (len root) ss)) in *.
    assert (Q : forall i c s, nth_error adds i = Some c -> nth_error s2 i = Some s -> sent_add c (slot_get c s) = false).
    { intros i c s E S1. rewrite (F _ _ _ E S1). apply not_true_iff_false. rewrite sent_add_content.
      apply N. rewrite nth_error_app1; [exact E|]. apply nth_error_Some. congruence. }
    clearbody s2. clear - L Q. revert s2 L Q. induction adds as [|c cs IH]; intros [|s l] L Q; try discriminate; constructor.
    + intros X. rewrite (Q 0%nat c s eq_refl eq_refl) in X. discriminate.
    + apply IH; [cbn in L; lia|]. intros i. exact (Q (S i)).
  - intros k g E (g0 & j & c & E0 & Ej & H). assert (g0 = g) by congruence. subst g0.
    apply (N (group_start adds groups k + j)%nat c); [|exact H].
    assert (j < len g)%nat by (apply nth_error_Some; congruence).
    unfold group_start. rewrite nth_error_app2 by lia. rewrite (concat_at groups k g E).
    rewrite nth_error_app2 by lia. rewrite nth_error_app1 by lia. rewrite <- Ej. f_equal. lia.
Qed.

Lemma groups_sendable_iff look gs : forall ss, groups_sendable look gs ss <->
  forall k g, nth_error gs k = Some g -> group_sent g (at_group gs ss k) = true -> group_sendable look g.
Proof.
  induction gs as [|g gs IH]; intros ss; cbn [groups_sendable].
  - split; auto. intros _ [|k]; discriminate.
  - rewrite IH. split.
    + intros (A & A1) [|k] g0; [intros [= <-]; exact A|]. rewrite at_group_S. apply A1.
    + intros A. split; [exact (A 0%nat g eq_refl)|]. intros k g0 E. rewrite <- at_group_S. exact (A (S k) g0 E).
Qed.

(** Where the first version of the type encodes the object, the extended version
    gives the same octets exactly if no addition has anything to send and the rule
    between neighbours holds among the additions and inside each group. *)
Theorem C22_exact : forall root adds groups slots bs1, well_formed root adds groups slots ->
  encode (TSeq true root [] []) (VSeq (root_slots root slots)) = Ok bs1 ->
  encode (TSeq true root adds groups) (VSeq slots) = Ok bs1 <->
  no_addition root adds groups slots /\ neighbours_ok adds (List.length root) slots /\
  forall k g, nth_error groups k = Some g -> neighbours_ok g (List.length root + group_start adds groups k) slots.
Proof.
  intros root adds groups slots bs1 W E1.
  assert (ND : no_addition root adds groups slots <-> ~ addition_set root adds groups slots).
  { unfold no_addition, addition_set. split; [intros A (i & c & X & Y); exact (A i c X Y)|].
    intros A i c X Y. apply A. eauto. }
  pose proof (encode_inv _ _ _ E1) as (fs1 & F1 & _ & O1 & _).
  destruct (adds_from root adds groups slots W) as (LA & FA).
  pose proof (chain_adds root adds groups slots W) as CA. pose proof (chain_groups root adds groups slots W) as CG.
  split.
  - intros E. pose proof (encode_inv _ _ _ E) as (fs & F2 & _ & O2 & _).
    destruct (seq_parts _ _ _ _ _ _ W F2) as (bm & rfs & rf & ER & EF & b & tail & EQ & BT & T).
    destruct (seq_adds_ok _ _ _ _ _ W F2) as (L1 & L2 & (ab & af & EA) & (gb & gf & EG)). cbv zeta in *.
    cbn [enc] in F1. unfold encode_sequence in F1.
    match type of F1 with bind ?x _ = _ => destruct x as [rr|]; [|discriminate] end. cbn [bind] in F1.
    destruct (root_fields rr) as [rf1|]; [|discriminate]. cbn [bind isnil andb] in F1. apply (f_equal (fun r => match r with Ok x => x | Err _ => [] end)) in F1.
    cbv beta iota in F1. subst fs1 fs. rewrite O1 in O2.
    destruct (first_bit_out false rf1) as (r1 & X1). destruct (first_bit_out b (rf ++ tail)) as (r2 & X2).
    rewrite X1, X2 in O2. injection O2 as O2 _. subst b.
    split; [apply ND; intros X; apply BT in X; discriminate|].
    destruct (enc_adds_flags _ _ _ _ _ _ L1 EA) as (_ & CH). cbn [prev_flags] in CH.
    split; [now apply CA|].
    intros k g Hk. destruct (enc_groups_chain _ _ _ _ _ _ L2 EG k g Hk) as (CH' & _).
    now apply (chain_group root adds groups slots W k g Hk).
  - intros (N & NA & NG). destruct (quiet_sendable _ _ _ _ W N) as (SA & NS). cbv zeta in SA.
    destruct (parts_look root adds groups slots W) as (L1 & L2).
    rewrite encode_spec in E1 |- *. rewrite F1 in E1. rewrite <- E1. clear E1. cbn [enc] in F1 |- *.
    unfold encode_sequence in F1 |- *. rewrite <- (v1_looks root adds groups slots) in F1 by exact W.
    destruct (enc_root enc (get_by_name (all_comps root adds groups) slots) root) as [rr|]; [|discriminate]. cbn [bind] in F1 |- *.
    destruct (root_fields rr) as [rf|]; [|discriminate]. cbn [bind isnil andb] in F1 |- *.
    apply (f_equal (fun r => match r with Ok x => x | Err _ => [] end)) in F1. cbv beta iota in F1. subst fs1.
    destruct (isnil adds && isnil groups); [reflexivity|].
    destruct (adds_outcome _ _ _ None L1 SA) as [(_ & (ab & af) & EA)|(X & _)]; [|destruct X; now apply CA]. rewrite EA. cbn [bind].
    destruct (groups_outcome _ _ _ None L2) as [(_ & (gb & gf) & EG)|(X & _)].
    { apply groups_sendable_iff. intros k g Hk X. apply (sent_at root adds groups slots W k g Hk) in X. destruct (NS k g Hk X). }
    2:{ destruct X. cbn [before_ok]. apply CG. split; [exact NG|]. intros k g Hk X. pose proof X as (g0 & _ & _ & E0 & _). destruct (NS _ _ E0 X). }
    rewrite EG. cbn [bind fst snd].
    destruct (enc_adds_flags _ _ _ _ _ _ L1 EA) as (-> & _). rewrite (enc_groups_flags _ _ _ _ _ _ L2 EG).
    destruct (Z.ltb_spec 0 (bval (zipw (fun c s => sent_add c (slot_get c s)) adds (firstn (len adds) (skipn (len root) (slots_list (ncomps root adds groups) slots))) ++
           groups_sent groups (skipn (len adds) (skipn (len root) (slots_list (ncomps root adds groups) slots)))))) as [P|P]; [|reflexivity].
    apply bval_pos in P. apply (bitmap_set root adds groups slots W) in P. destruct (proj1 ND N P).
Qed.

(** A DEFAULT addition of a simple type is sent even if it was not touched, so an
    object of such a SEQUENCE is never encoded like one of the first version. *)
Definition simple_value (v : val) : Prop :=
  match v with VBool _ | VInt _ | VEnum _ | VBits _ | VOcts _ => True | _ => False end.

Theorem C22_default_addition : forall root adds groups slots bs1 i c d, well_formed root adds groups slots ->
  nth_error (adds ++ List.concat groups) i = Some c -> cpres c = Dflt d -> simple_value d ->
  match slots with Some l => nth (List.length root + i) l None = None | None => True end ->
  encode (TSeq true root [] []) (VSeq (root_slots root slots)) = Ok bs1 ->
  encode (TSeq true root adds groups) (VSeq slots) <> Ok bs1.
Proof.
  intros root adds groups slots bs1 i c d W Hc Hd SV U E1 E. apply (C22_exact _ _ _ _ _ W E1) in E as (N & _).
  apply (N i c Hc). assert (X : found slots (len root + i) c = d).
  { unfold found. destruct slots as [l|]; [rewrite U|]; now rewrite Hd. }
  rewrite X. destruct d; cbn [simple_value] in SV; try contradiction; (split; [reflexivity|split; discriminate]).
Qed.

(** * C21 *)

(** The slots of a group. *)
Definition slots_of_group (root adds : list (comp ty)) (groups : list (list (comp ty)))
    (slots : option (list (option val))) (k : nat) (g : list (comp ty)) : list (option val) :=
  firstn (List.length g) (skipn (List.length root + group_start adds groups k) (slots_list (List.length (all_comps root adds groups)) slots)).

(** What is to be sent can be sent: each addition with content has an encoding of
    its own below 16384 octets, and so has each group with content, as a SEQUENCE. *)
Definition contents_ok (root adds : list (comp ty)) (groups : list (list (comp ty)))
    (slots : option (list (option val))) : Prop :=
  (forall i c, nth_error adds i = Some c -> has_content (cty c) (found slots (List.length root + i) c) ->
     exists bs, encode (cty c) (found slots (List.length root + i) c) = Ok bs /\ zlen bs < 16384) /\
  (forall k g, nth_error groups k = Some g -> group_is_sent root adds groups slots k ->
     exists bs, encode (TSeq false g [] []) (VSeq (Some (slots_of_group root adds groups slots k g))) = Ok bs /\ zlen bs < 16384).

Lemma opened t v bs : encode t v = Ok bs -> zlen bs < 16384 ->
  exists fs o, enc t v = Ok fs /\ encode_open_type_field fs = Ok o.
Proof.
  intros E L. destruct (encode_inv _ _ _ E) as (fs & EF & X & _). exists fs.
  assert (octets_of (produce_complete_encoding fs) = zlen bs) as O.
  { unfold octets_of, zlen. rewrite X, octs_of_length. reflexivity. }
  unfold encode_open_type_field. rewrite O, length_unconstrained_ok by (unfold zlen in *; lia). cbn [bind]. eauto.
Qed.

Lemma groups_sent_len gs : forall ss, len (groups_sent gs ss) = len gs.
Proof. induction gs as [|g gs IH]; intros ss; cbn [groups_sent List.length]; auto. Qed.
Lemma zipw_len {A B C} (R : A -> B -> Prop) (f : A -> B -> C) a b : Forall2 R a b -> len (zipw f a b) = len a.
Proof. induction 1; cbn [zipw List.length]; auto. Qed.

(** Where the first version of the type encodes the object and the contents of the
    additions can be sent, encode succeeds exactly if the rule between neighbours
    holds among the additions and inside each group, and a group that is sent
    follows one that is sent or has an OPTIONAL component.  Nothing else is
    checked. *)
Theorem C21_exact : forall root adds groups slots bs1, well_formed root adds groups slots ->
  encode (TSeq true root [] []) (VSeq (root_slots root slots)) = Ok bs1 ->
  contents_ok root adds groups slots -> (List.length adds + List.length groups <= 64)%nat ->
  (exists bs, encode (TSeq true root adds groups) (VSeq slots) = Ok bs) <->
  neighbours_ok adds (List.length root) slots /\
  (forall k g, nth_error groups k = Some g -> neighbours_ok g (List.length root + group_start adds groups k) slots) /\
  (forall k g, nth_error groups k = Some g -> group_is_sent root adds groups slots (S k) ->
     group_is_sent root adds groups slots k \/ exists c, In c g /\ cpres c = Opt).
Proof.
  intros root adds groups slots bs1 W E1 (CO1 & CO2) LE.
  pose proof (chain_adds root adds groups slots W) as CA. pose proof (chain_groups root adds groups slots W) as CG.
  split.
  - intros (bs & E). pose proof (encode_inv _ _ _ E) as (fs & F2 & _).
    destruct (seq_adds_ok _ _ _ _ _ W F2) as (L1 & L2 & (ab & af & EA) & (gb & gf & EG)). cbv zeta in *.
    destruct (enc_adds_flags _ _ _ _ _ _ L1 EA) as (_ & CH). cbn [prev_flags] in CH.
    split; [now apply CA|]. apply CG. apply groups_chained_iff. split; [|split; [auto|]].
    + intros k g Hk. exact (proj1 (enc_groups_chain _ _ _ _ _ _ L2 EG k g Hk)).
    + intros k g g' Hk' Hk X. destruct (proj2 (enc_groups_chain _ _ _ _ _ _ L2 EG (S k) g Hk) X) as (_ & g0 & E0 & Y).
      assert (g0 = g') by congruence. subst g0. exact Y.
  - intros (NA & NG). apply CA in NA. apply CG in NG.
    destruct (parts_look root adds groups slots W) as (L1 & L2).
    pose proof (encode_inv _ _ _ E1) as (fs1 & F1 & _).
    set (ss := slots_list (ncomps root adds groups) slots) in *.
    assert (SA : Forall2 sendable adds (firstn (len adds) (skipn (len root) ss))).
    { destruct (adds_from root adds groups slots W) as (LA & FA). fold ss in LA, FA.
      set (s2 := firstn (len adds) (skipn (len root) ss)) in *. clearbody s2.
      assert (Q : forall i c s, nth_error adds i = Some c -> nth_error s2 i = Some s -> sendable c s).
      { intros i c s Ec Es X. apply sent_add_content in X. rewrite (FA _ _ _ Ec Es) in *.
        destruct (CO1 i c Ec X) as (bs & EB & LB). exact (opened _ _ _ EB LB). }
      clear - LA Q. revert s2 LA Q. induction adds as [|c cs IH]; intros [|s l] L Q; try discriminate; constructor.
      - exact (Q 0%nat c s eq_refl eq_refl).
      - apply IH; [cbn in L; lia|]. intros i. exact (Q (S i)). }
    assert (SG : groups_sendable (get_by_name (all_comps root adds groups) slots) groups (skipn (len adds) (skipn (len root) ss))).
    { apply groups_sendable_iff. intros k g Hk X. apply (sent_at root adds groups slots W k g Hk) in X.
      destruct (CO2 k g Hk X) as (bs & EB & LB). destruct (opened _ _ _ EB LB) as (fs & o & EF & EO).
      pose proof (group_look root adds groups slots W k g Hk) as GL.
      assert (GS : slots_of_group root adds groups slots k g = group_slots root adds groups slots k g).
      { unfold slots_of_group, group_slots, at_group, group_start. fold (ncomps root adds groups).
        rewrite !skipn_more. reflexivity. }
      rewrite GS in EF. set (gs := group_slots root adds groups slots k g) in *.
      assert (WG : well_formed g [] [] (Some gs)).
      { split.
        - cbn [List.concat]. rewrite !app_nil_r. destruct W as (N & _). rewrite (concat_at groups k g Hk) in N.
          rewrite !map_app in N. apply NoDup_app_r in N. apply NoDup_app_r in N. apply NoDup_app_r in N. now apply NoDup_app_l in N.
        - cbn [List.concat]. rewrite !app_nil_r. symmetry. exact (Forall2_length _ _ _ GL). }
      cbn [enc] in EF. unfold encode_sequence in EF. pose proof (wf_looks _ _ _ _ WG) as GL'. cbv zeta in GL'.
      unfold all_comps at 2 3 in GL'. cbn [List.concat slots_list] in GL'. rewrite !app_nil_r in GL'.
      rewrite <- (enc_root_ext _ _ _ _ GL GL') in EF. unfold group_sendable.
      destruct (enc_root enc (get_by_name (all_comps root adds groups) slots) g) as [r|]; [|discriminate]. cbn [bind] in EF.
      destruct (root_fields r) as [rf|] eqn:RF; [|discriminate]. cbn [bind] in EF. injection EF as ->. exists r, fs, o. auto. }
    rewrite encode_spec. cbn [enc] in F1 |- *.
    unfold encode_sequence in F1 |- *. rewrite <- (v1_looks root adds groups slots) in F1 by exact W.
    destruct (enc_root enc (get_by_name (all_comps root adds groups) slots) root) as [rr|]; [|discriminate]. cbn [bind] in F1 |- *.
    destruct (root_fields rr) as [rf|]; [|discriminate]. cbn [bind isnil andb] in F1 |- *.
    destruct (isnil adds && isnil groups) eqn:NI; [eauto|].
    destruct (adds_outcome _ _ _ None L1 SA) as [(_ & (ab & af) & EA)|(X & _)]; [|now destruct X]. rewrite EA. cbn [bind].
    destruct (groups_outcome _ _ _ None L2 SG) as [(_ & (gb & gf) & EG)|(X & _)]; [|now destruct X].
    rewrite EG. cbn [bind fst snd].
    destruct (enc_adds_flags _ _ _ _ _ _ L1 EA) as (XA & _). pose proof (enc_groups_flags _ _ _ _ _ _ L2 EG) as XG.
    assert (len ab = len adds) as LA.
    { rewrite XA. exact (zipw_len _ _ _ _ L1). }
    assert (len gb = len groups) as LG.
    { rewrite XG. apply groups_sent_len. }
    destruct (0 <? bval (ab ++ gb)); [|eauto].
    rewrite length_normally_small_ok; [cbn [bind]; eauto|]. unfold zlen. rewrite app_length, LA, LG.
    assert (len adds + len groups <> 0)%nat by (destruct adds; [destruct groups; [discriminate|]|]; cbn [List.length]; lia). lia.
Qed.

(** * C20 *)

(** What the comparison with the default takes for the default: the default
    itself, and the BIT STRINGs that spell the same number. *)
Theorem C20_told_apart_iff : forall d v, raw_ne d v = Ok false <->
  simple_value d /\ (v = d \/ exists a b, d = VBits a /\ v = VBits b /\ bval a = bval b).
Proof.
  intros d v. split.
  - intros E. destruct d, v; cbn [raw_ne simple_value] in *; try discriminate; (split; [exact I|]);
      apply (f_equal (fun r => match r with Ok b => negb b | Err _ => false end)) in E; cbv beta iota in E; rewrite negb_involutive in E; cbn [negb] in E.
    + left. apply Bool.eqb_prop in E. congruence.
    + left. apply Z.eqb_eq in E. congruence.
    + left. apply Z.eqb_eq in E. congruence.
    + right. apply Z.eqb_eq in E. eauto 6.
    + left. destruct (list_eq_dec Z.eq_dec bs bs0); congruence.
  - intros (SV & [->|(a & b & -> & -> & E)]).
    + destruct d; cbn [simple_value raw_ne] in *; try contradiction; f_equal; apply negb_false_iff;
        first [apply Z.eqb_refl|apply Bool.eqb_reflx|now destruct (list_eq_dec Z.eq_dec bs bs)].
    + cbn [raw_ne]. now rewrite E, Z.eqb_refl.
Qed.

Lemma scan_ext look look' cs ss : forall prev, Forall2 (looks look) cs ss -> Forall2 (looks look') cs ss ->
  group_scan look prev cs = group_scan look' prev cs.
Proof.
  intros prev H. revert prev. induction H as [|c s cs ss Hl H IH]; intros prev H'; [reflexivity|].
  inversion H' as [|? ? ? ? Hl' H'']; subst. cbn [group_scan]. rewrite Hl, Hl'. cbn [bind].
  match goal with |- bind ?x _ = _ => destruct x; cbn [bind]; [|reflexivity] end. now rewrite (IH _ H'').
Qed.

Lemma groups_ext look look' gs : forall ss prev, Forall2 (looks look) (List.concat gs) ss -> Forall2 (looks look') (List.concat gs) ss ->
  enc_groups enc look prev gs = enc_groups enc look' prev gs.
Proof.
  induction gs as [|g gs IH]; intros ss prev L L'; [reflexivity|]. cbn [List.concat] in L, L'.
  apply Forall2_app_l in L as (L1 & L2). apply Forall2_app_l in L' as (L1' & L2').
  cbn [enc_groups]. rewrite (scan_ext _ _ _ _ None L1 L1'), (enc_root_ext _ _ _ _ L1 L1').
  destruct (group_scan look' None g); cbn [bind]; [|reflexivity]. now rewrite (IH _ _ L2 L2').
Qed.

Lemma root_swap look look' c d v : cpres c = Dflt d -> raw_ne d v = Ok false -> raw_ne d d = Ok false ->
  forall cs ss i, nth_error cs i = Some c -> Forall2 (looks look) cs (update i (Some v) ss) ->
  Forall2 (looks look') cs (update i (Some d) ss) -> enc_root enc look cs = enc_root enc look' cs.
Proof.
  intros Hd Nv Nd. induction cs as [|c0 cs IH]; intros ss i E L L'; [destruct i; discriminate|].
  destruct ss as [|s ss]; [destruct i; cbn [update] in L; inversion L|]. destruct i as [|i]; cbn [update] in L, L'.
  - injection E as ->. inversion L as [|? ? ? ? L1 L2]; subst. inversion L' as [|? ? ? ? L1' L2']; subst.
    cbn [enc_root]. unfold looks in L1, L1'. rewrite L1, L1'. cbn [bind slot_get]. rewrite Hd, Nv, Nd. cbn [bind].
    now rewrite (enc_root_ext _ _ _ _ L2 L2').
  - inversion L as [|? ? ? ? L1 L2]; subst. inversion L' as [|? ? ? ? L1' L2']; subst. cbn [enc_root].
    unfold looks in L1, L1'. rewrite L1, L1'. cbn [bind].
    now rewrite (IH ss i E L2 L2').
Qed.

Lemma skipn_update {A} (x : A) : forall n i l, (i < n)%nat -> skipn n (update i x l) = skipn n l.
Proof. induction n as [|n IH]; intros [|i] [|y l] H; try lia; try reflexivity. cbn [update skipn]. apply IH. lia. Qed.

Lemma update_found root i c x ss : nth_error root i = Some c -> (i < len ss)%nat -> found (Some (update i (Some x) ss)) i c = x.
Proof.
  intros _ L. unfold found. now rewrite (nth_error_nth' _ _ _ None (nth_update_same i (Some x) ss L)).
Qed.

(** A value that the comparison takes for the default comes back as the default: a
    root DEFAULT component is restored exactly if it is told apart from the default
    or equal to it. *)
Theorem C20_exact : forall ext root adds groups ss i c d v bs,
  supported (TSeq ext root adds groups) (VSeq (Some (update i (Some d) ss))) ->
  nth_error root i = Some c -> cpres c = Dflt d -> raw_ne d v = Ok false ->
  encode (TSeq ext root adds groups) (VSeq (Some (update i (Some v) ss))) = Ok bs ->
  exists slots', decode bs (TSeq ext root adds groups) = Ok (VSeq slots') /\ found slots' i c = d /\
    (found slots' i c = found (Some (update i (Some v) ss)) i c <-> v = d).
Proof.
  intros ext root adds groups ss i c d v bs SP Hc Hd Nv EB.
  pose proof SP as SP'. cbn [supported_by] in SP'. cbv zeta in SP'. destruct SP' as (N & L & _).
  cbn [slots_list] in L. rewrite update_len in L.
  assert (Nd : raw_ne d d = Ok false). { apply C20_told_apart_iff. apply C20_told_apart_iff in Nv as (SV & _). auto. }
  assert (Hi : (i < len root)%nat) by (apply nth_error_Some; congruence).
  assert (W : forall x, well_formed root adds groups (Some (update i (Some x) ss))).
  { intros x. split; [exact N|]. rewrite update_len. exact L. }
  assert (EQ : enc (TSeq ext root adds groups) (VSeq (Some (update i (Some v) ss))) =
               enc (TSeq ext root adds groups) (VSeq (Some (update i (Some d) ss)))).
  { cbn [enc]. unfold encode_sequence. pose proof (wf_looks _ _ _ _ (W v)) as LV. pose proof (wf_looks _ _ _ _ (W d)) as LD.
    cbv zeta in LV, LD. unfold all_comps at 2 in LV. unfold all_comps at 2 in LD. cbn [slots_list] in LV, LD.
    set (lv := get_by_name (all_comps root adds groups) (Some (update i (Some v) ss))) in *.
    set (ld := get_by_name (all_comps root adds groups) (Some (update i (Some d) ss))) in *.
    apply Forall2_app_l in LV as (LV1 & LV2). apply Forall2_app_l in LD as (LD1 & LD2).
    rewrite skipn_update in LV2, LD2 by exact Hi. apply Forall2_app_l in LV2 as (LV2 & LV3). apply Forall2_app_l in LD2 as (LD2 & LD3).
    assert (FU : forall x n j (l : list (option val)), (j < n)%nat -> firstn n (update j x l) = update j x (firstn n l)).
    { clear. intros x n. induction n as [|n IH]; intros [|j] [|y l] H; try lia; try reflexivity. cbn [update firstn]. f_equal. apply IH. lia. }
    rewrite FU in LV1, LD1 by exact Hi. rewrite (root_swap lv ld c d v Hd Nv Nd root _ i Hc LV1 LD1).
    destruct (enc_root enc ld root); [|reflexivity]. cbn [bind]. destruct (root_fields _); [|reflexivity]. cbn [bind].
    destruct ext; [|reflexivity]. destruct (isnil adds && isnil groups); [reflexivity|].
    rewrite (enc_adds_ext lv ld _ _ None LV2 LD2), (groups_ext lv ld _ _ None LV3 LD3). reflexivity. }
  rewrite encode_spec, EQ, <- encode_spec in EB. destruct (C20_default_restored_partial _ _ _ _ _ _ _ _ _ SP EB Hc Hd) as (slots' & DE & FO).
  exists slots'. split; [exact DE|].
  assert (Li : (i < len ss)%nat) by (unfold ncomps, all_comps in L; rewrite app_length in L; lia).
  rewrite (update_found root i c d ss Hc Li) in FO. split; [exact FO|]. rewrite FO, (update_found root i c v ss Hc Li). split; congruence.
Qed.

(** * Cases *)

(** { a BIT STRING (SIZE (0..8)) DEFAULT '1'B } with a set to '0001'B. *)
Example C20_exact_case :
  let c := Comp "a" (Dflt (VBits [true])) (TBits (CRange false (Some 0) (Some 8))) in
  let t := TSeq false [c] [] [] in
  supported t (VSeq (Some (update 0 (Some (VBits [true])) [None]))) /\
  raw_ne (VBits [true]) (VBits [false; false; false; true]) = Ok false /\
  encode t (VSeq (Some (update 0 (Some (VBits [false; false; false; true])) [None]))) = Ok [0].
Proof.
  cbv zeta. split; [|split; vm_compute; reflexivity].
  cbn. split; [repeat constructor; now cbn|]. split; [reflexivity|].
  split; [auto|]. split; [|split; [intros P []|exact I]].
  intros P [<-|[]]. split; [now left|]. intros Q. now destruct Q.
Qed.

(** { r BOOLEAN, ..., m BOOLEAN, n BOOLEAN, [[ g BOOLEAN OPTIONAL ]], [[ h BOOLEAN ]] }
    with m and h set is sent, with n alone it is refused. *)
Definition case_root : list (comp ty) := [Comp "r" Mand TBool].
Definition case_adds : list (comp ty) := [Comp "m" Mand TBool; Comp "n" Mand TBool].
Definition case_groups : list (list (comp ty)) := [[Comp "g" Opt TBool]; [Comp "h" Mand TBool]].
Definition case_good : option (list (option val)) := Some [Some (VBool true); Some (VBool true); None; None; Some (VBool true)].
Definition case_bad : option (list (option val)) := Some [Some (VBool true); None; Some (VBool true); None; None].
Definition case_quiet : option (list (option val)) := Some [Some (VBool true); None; None; None; None].

Lemma case_wf : forall l, List.length l = 5%nat -> well_formed case_root case_adds case_groups (Some l).
Proof.
  intros l L. split; [|exact L]. cbn. repeat (constructor; [cbn; intuition discriminate|]). constructor.
Qed.

Lemma case_contents : contents_ok case_root case_adds case_groups case_good /\ contents_ok case_root case_adds case_groups case_bad.
Proof.
  split; split.
  - intros [|[|[|i]]] c; cbn; intros X; try discriminate; injection X as <-; intros (X & _); try discriminate;
      (exists [128]; split; [vm_compute; reflexivity|reflexivity]).
  - intros [|[|[|k]]] g; cbn; intros X; try discriminate; injection X as <-.
    + intros (g & j & c & X & Y & V & _). injection X as <-. destruct j as [|[|j]]; try discriminate. injection Y as <-. discriminate.
    + intros _. exists [128]. split; [vm_compute; reflexivity|reflexivity].
  - intros [|[|[|i]]] c; cbn; intros X; try discriminate; injection X as <-; intros (X & _); try discriminate;
      (exists [128]; split; [vm_compute; reflexivity|reflexivity]).
  - intros [|[|[|k]]] g; cbn; intros X; try discriminate; injection X as <-;
    (intros (g & j & c & X & Y & V & _); injection X as <-; destruct j as [|[|j]]; try discriminate; injection Y as <-; discriminate).
Qed.

Example C21_exact_case :
  encode (TSeq true case_root [] []) (VSeq (root_slots case_root case_good)) = Ok [64] /\
  encode (TSeq true case_root [] []) (VSeq (root_slots case_root case_bad)) = Ok [64] /\
  (exists bs, encode (TSeq true case_root case_adds case_groups) (VSeq case_good) = Ok bs) /\
  neighbours_ok case_adds 1 case_good /\ ~ neighbours_ok case_adds 1 case_bad /\
  ~ (exists bs, encode (TSeq true case_root case_adds case_groups) (VSeq case_bad) = Ok bs).
Proof.
  assert (W1 : well_formed case_root case_adds case_groups case_good) by now apply case_wf.
  assert (W2 : well_formed case_root case_adds case_groups case_bad) by now apply case_wf.
  assert (E1 : encode (TSeq true case_root [] []) (VSeq (root_slots case_root case_good)) = Ok [64]) by (vm_compute; reflexivity).
  assert (E2 : encode (TSeq true case_root [] []) (VSeq (root_slots case_root case_bad)) = Ok [64]) by (vm_compute; reflexivity).
  destruct case_contents as (C1 & C2).
  assert (G1 : exists bs, encode (TSeq true case_root case_adds case_groups) (VSeq case_good) = Ok bs).
  { eexists. vm_compute. reflexivity. }
  assert (N2 : ~ neighbours_ok case_adds 1 case_bad).
  { intros X. destruct (X 0%nat _ _ eq_refl eq_refl eq_refl) as [Q|(Q & _)]; discriminate. }
  split; [exact E1|]. split; [exact E2|]. split; [exact G1|].
  split; [exact (proj1 (proj1 (C21_exact _ _ _ _ _ W1 E1 C1 ltac:(cbn; lia)) G1))|].
  split; [exact N2|]. intros G2. apply N2.
  exact (proj1 (proj1 (C21_exact _ _ _ _ _ W2 E2 C2 ltac:(cbn; lia)) G2)).
Qed.

(** With neither set the encoding is that of version 1. *)
Example C22_exact_case :
  encode (TSeq true case_root [] []) (VSeq (root_slots case_root case_quiet)) = Ok [64] /\
  encode (TSeq true case_root case_adds case_groups) (VSeq case_quiet) = Ok [64] /\
  no_addition case_root case_adds case_groups case_quiet.
Proof.
  assert (W : well_formed case_root case_adds case_groups case_quiet) by now apply case_wf.
  assert (E1 : encode (TSeq true case_root [] []) (VSeq (root_slots case_root case_quiet)) = Ok [64]) by (vm_compute; reflexivity).
  assert (E2 : encode (TSeq true case_root case_adds case_groups) (VSeq case_quiet) = Ok [64]) by (vm_compute; reflexivity).
  split; [exact E1|]. split; [exact E2|]. exact (proj1 (proj1 (C22_exact _ _ _ _ _ W E1) E2)).
Qed.
