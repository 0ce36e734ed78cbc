(** Schemas with OCTET STRINGs of a variable size, like the README's.

    C68 turns such schemas down: an OCTET STRING of a variable size is read back
    only when its first digit is not zero.  Here they are let in, and the messages
    that are lost are told exactly. *)
From Coq Require Import ZArith List String Bool Lia ZifyBool ZifyNat ZifyN.
Import ListNotations.
From Verif Require Import PyBase Schema Encoder Decoder BitFacts Stream Prims Spec SimpleTypes RoundTrip Reading
  Totality PropsRoundTrip Objects Constraints Valid Exact Faults Extent X691 Conform Safe Standard Peers.
Open Scope Z_scope.
Ltac Zify.zify_post_hook ::= Z.div_mod_to_equations.

(** * The check *)

(** Also SIZE (l..h) with 1 <= l < h < 65536. *)
Definition mild_octs (c : constr) : bool :=
  safe_octs c ||
  regularb c && negb (cext c) &&
  match clo c, chi c with Some l, Some h => (1 <=? l) && (l <? h) && (h <? 65536) | _, _ => false end.

Definition digits_keptb (bs : list Z) : bool :=
  match bs with
  | [] => true
  | [b] => (b =? 0) || (16 <=? b)
  | b :: _ => 16 <=? b
  end.

(** A DEFAULT that could itself be sent. *)
Definition default_shown (c : comp ty) : bool :=
  match cty c, cpres c with
  | TOcts k, Dflt (VOcts bs) => safe_octs k || digits_keptb bs
  | _, _ => true
  end.

Fixpoint settled (t : ty) : bool :=
  match t with
  | TSeqOf _ t' => settled t'
  | TSeq _ root adds groups =>
      forallb (fun c => default_shown c && settled (cty c)) root &&
      forallb (fun c => default_shown c && settled (cty c)) adds &&
      forallb (forallb (fun c => default_shown c && settled (cty c))) groups
  | TChoice _ root adds groups =>
      forallb (fun c => settled (cty c)) root && forallb (fun c => settled (cty c)) adds &&
      forallb (forallb (fun c => settled (cty c))) groups
  | _ => true
  end.

Definition mild (t : ty) : bool := safe_by mild_octs t && settled t.

(** * The values that get through *)

Definition show_slot (ca : comp ty * (aval -> Prop)) (o : option aval) : Prop :=
  match o with Some a => snd ca a | None => True end.

(** No OCTET STRING of a variable size starts with a zero digit, unless it is the
    single octet 0. *)
Fixpoint shows (t : ty) (a : aval) {struct t} : Prop :=
  match t, a with
  | TOcts c, AOcts bs => (forall l h, cext c = false -> clo c = Some l -> chi c = Some h -> 0 <= l < h -> digits_kept bs)
  | TSeqOf _ t', ASeqOf l => all_of (map (shows t') l)
  | TChoice _ root adds groups, AChoice (Some (i, x)) =>
      match nth_error (att shows root ++ att shows adds ++ List.concat (map (att shows) groups)) i with
      | Some ca => snd ca x
      | None => False
      end
  | TSeq _ root adds groups, ASeq l =>
      all_of (zipw show_slot (att shows root ++ att shows adds ++ List.concat (map (att shows) groups)) l)
  | _, _ => True
  end.

(** * OCTET STRINGs *)

Lemma digits_keptb_ok bs : digits_keptb bs = true <-> digits_kept bs.
Proof. destruct bs as [|b [|b' bs]]; cbn [digits_keptb digits_kept]; [split; auto|lia|lia]. Qed.

Definition kept_size (c : constr) (bs : list Z) : Prop := plain_size c bs /\ shown c bs.

Lemma mild_kept c bs : mild_octs c = true -> sat c (zlen bs) -> Forall (fun b => 0 <= b < 256) bs ->
  kept_size c bs -> octs_ok c bs /\ bounded_ext c /\ fixed_small c.
Proof.
  unfold mild_octs. intros S M O (Md & Sh). apply orb_true_iff in S as [S|S]; [now apply octs_safe|].
  apply andb_true_iff in S as (S & B). apply andb_true_iff in S as (Rg & X). apply negb_true_iff in X.
  destruct (clo c) as [l|] eqn:L; [|discriminate]. destruct (chi c) as [h|] eqn:U; [|discriminate].
  destruct (sat_ends c _ Rg M X) as (_ & A1 & A2). specialize (A1 l L). specialize (A2 h U).
  split; [|split].
  - unfold octs_ok. cbv zeta. split; [exact O|]. split; [now apply ctest_sat|]. rewrite X, L, U. cbn [andb].
    assert (W : 0 <= l <= zlen bs /\ zlen bs <= h /\ (l < h -> h - l < 65536 /\
      match bs with [] => 256 <= h - l + 1 | _ => digits_kept bs end)).
    { specialize (Sh l h X L U ltac:(lia)). split; [lia|]. split; [lia|]. intros _. split; [lia|].
      destruct bs; [unfold zlen in A1; cbn in A1; lia|exact Sh]. }
    destruct h; auto. lia.
  - apply ext_bounded. congruence.
  - intros l' L' U'. assert (l' = l) by congruence. assert (l' = h) by congruence. lia.
Qed.

Lemma mild_sent c bs : mild_octs c = true -> sat c (zlen bs) -> Forall (fun b => 0 <= b < 256) bs ->
  plain_size c bs -> octs_sent c bs /\ bounded_ext c /\ fixed_small c.
Proof.
  unfold mild_octs. intros S M O Md. apply orb_true_iff in S as [S|S].
  { destruct (octs_safe c bs S M O Md) as (A & B0). split; [now apply octs_ok_sent|exact B0]. }
  apply andb_true_iff in S as (S & B). apply andb_true_iff in S as (Rg & X). apply negb_true_iff in X.
  destruct (clo c) as [l|] eqn:L; [|discriminate]. destruct (chi c) as [h|] eqn:U; [|discriminate].
  destruct (sat_ends c _ Rg M X) as (_ & A1 & A2). specialize (A1 l L). specialize (A2 h U).
  split; [|split].
  - unfold octs_sent. cbv zeta. split; [exact O|]. split; [now apply ctest_sat|]. rewrite X, L, U. cbn [andb].
    assert (W : 0 <= l <= zlen bs /\ zlen bs <= h) by lia. destruct h; auto.
  - apply ext_bounded. congruence.
  - intros l' L' U'. assert (l' = l) by congruence. assert (l' = h) by congruence. lia.
Qed.

Lemma mild_sane : octets_sane mild_octs.
Proof.
  unfold mild_octs. intros c Sf. apply orb_true_iff in Sf as [Sf|Sf]; [now apply octs_sane|].
  apply andb_true_iff in Sf as (Sf & S). apply andb_true_iff in Sf as (Rg & _). split; [exact Rg|].
  intros l h L U. rewrite L, U in S. lia.
Qed.

Lemma mild_standard c bs : mild_octs c = true -> seen c = true -> sat c (zlen bs) -> Forall (fun b => 0 <= b < 256) bs ->
  plain_size c bs -> octs_conf c bs.
Proof.
  unfold mild_octs. intros Sf Se M O Sh. apply orb_true_iff in Sf as [Sf|Sf]; [now apply octs_standard|].
  apply andb_true_iff in Sf as (Sf & Z0). apply andb_true_iff in Sf as (Rg & X). apply negb_true_iff in X.
  destruct (clo c) as [l|] eqn:L; [|discriminate]. destruct (chi c) as [h|] eqn:U; [|discriminate].
  split; [exact O|]. split; [|split; [|split]].
  - split; [now apply seen_visible|]. split; [|intros _; now apply sat_within]. intros l' L'. assert (l' = l) by congruence. lia.
  - unfold limited_size. destruct (inside c (zlen bs)) eqn:I0.
    + intros h' U'. left. assert (h' = h) by congruence. lia.
    + destruct Sh as [Sh|(Sh & _)]; [lia|congruence].
  - congruence.
  - intros _ L' h' U' P. assert (l = 0) by congruence. lia.
Qed.

(** * What is read of a SEQUENCE *)

Lemma root_from cs ss i x : nth_error (zipw read_root (att reading cs) ss) i = Some (Some x) ->
  exists c s, nth_error cs i = Some c /\ nth_error ss i = Some s /\ x = reading (cty c) (slot_get c s).
Proof.
  revert ss i. induction cs as [|c cs IH]; intros [|s ss] [|i] E; cbn [att map zipw nth_error] in E; try discriminate.
  - exists c, s. split; [reflexivity|]. split; [reflexivity|]. unfold read_root in E. cbn [fst snd] in E. cbv zeta in E.
    destruct (cpres c); [congruence| |congruence]. destruct (present (cty c) (slot_get c s)); congruence.
  - exact (IH ss i E).
Qed.

Lemma ext_from cs ss i x : nth_error (zipw read_ext (att reading cs) ss) i = Some (Some x) ->
  exists c s, nth_error cs i = Some c /\ nth_error ss i = Some s /\ x = reading (cty c) (slot_get c s).
Proof.
  revert ss i. induction cs as [|c cs IH]; intros [|s ss] [|i] E; cbn [att map zipw nth_error] in E; try discriminate.
  - exists c, s. split; [reflexivity|]. split; [reflexivity|]. unfold read_ext in E. cbn [fst snd] in E. cbv zeta in E.
    destruct (present (cty c) (slot_get c s)); congruence.
  - exact (IH ss i E).
Qed.

Lemma groups_from gs : forall ss i x, List.length ss = List.length (List.concat gs) ->
  nth_error (read_groups (map (att reading) gs) ss) i = Some (Some x) ->
  exists c s, nth_error (List.concat gs) i = Some c /\ nth_error ss i = Some s /\ x = reading (cty c) (slot_get c s).
Proof.
  induction gs as [|g gs IH]; intros ss i x L E; [destruct i; discriminate|].
  cbn [map read_groups List.concat] in *. rewrite att_length in E. rewrite app_length in L. unfold read_group in E.
  rewrite map_fst_att in E.
  assert (Lg : List.length (if group_valued g ss then zipw read_root (att reading g) ss else map (fun _ => None) (att reading g))
    = List.length g).
  { destruct (group_valued g ss); [rewrite zipw_len_short; rewrite att_length; [reflexivity|lia]|]. now rewrite map_length, att_length. }
  destruct (Nat.lt_ge_cases i (List.length g)) as [Lt|Ge].
  - rewrite nth_error_app1 in E by lia. rewrite nth_error_app1 by lia. destruct (group_valued g ss); [now apply root_from|].
    rewrite nth_error_map in E. destruct (nth_error (att reading g) i); discriminate.
  - rewrite nth_error_app2 in E by lia. rewrite nth_error_app2 by lia. rewrite Lg in E.
    destruct (IH (skipn (List.length g) ss) (i - List.length g)%nat x ltac:(rewrite skipn_length; lia) E) as (c & s & Ci & Si & ->). exists c, s. split; [exact Ci|].
    split; [|reflexivity]. rewrite nth_skip in Si. now replace (List.length g + (i - List.length g))%nat with i in Si by lia.
Qed.

Lemma seq_from r a g ss i x : List.length ss = ncomps r a g ->
  nth_error (zipw read_root (att reading r) ss ++ zipw read_ext (att reading a) (skipn (List.length r) ss)
    ++ read_groups (map (att reading) g) (skipn (List.length r + List.length a) ss)) i = Some (Some x) ->
  exists c s, nth_error (all_comps r a g) i = Some c /\ nth_error ss i = Some s /\ x = reading (cty c) (slot_get c s).
Proof.
  intros L E. unfold ncomps, all_comps in *. rewrite !app_length in L.
  assert (L1 : List.length (zipw read_root (att reading r) ss) = List.length r).
  { rewrite zipw_len_short; rewrite att_length; [reflexivity|lia]. }
  assert (L2 : List.length (zipw read_ext (att reading a) (skipn (List.length r) ss)) = List.length a).
  { rewrite zipw_len_short; rewrite att_length; [reflexivity|rewrite skipn_length; lia]. }
  destruct (Nat.lt_ge_cases i (List.length r)) as [B1|B1].
  - rewrite nth_error_app1 in E by lia. rewrite nth_error_app1 by lia. now apply root_from.
  - rewrite nth_error_app2 in E by lia. rewrite nth_error_app2 by lia. rewrite L1 in E.
    destruct (Nat.lt_ge_cases (i - List.length r) (List.length a)) as [B2|B2].
    + rewrite nth_error_app1 in E by lia. rewrite nth_error_app1 by lia.
      destruct (ext_from _ _ _ _ E) as (c & s & Ci & Si & ->). exists c, s. split; [exact Ci|].
      split; [|reflexivity]. rewrite nth_skip in Si. now replace (List.length r + (i - List.length r))%nat with i in Si by lia.
    + rewrite nth_error_app2 in E by lia. rewrite nth_error_app2 by lia. rewrite L2 in E.
      destruct (groups_from g (skipn (List.length r + List.length a) ss) (i - List.length r - List.length a)%nat x ltac:(rewrite skipn_length; lia) E) as (c & s & Ci & Si & ->). exists c, s. split; [exact Ci|].
      split; [|reflexivity]. rewrite nth_skip in Si.
      now replace (List.length r + List.length a + (i - List.length r - List.length a))%nat with i in Si by lia.
Qed.

(** * What decode gives shows its digits *)

Lemma safe_octs_shown c bs : safe_octs c = true -> shown c bs.
Proof.
  intros S l h X L U B. unfold safe_octs in S. rewrite L, U in S. lia.
Qed.

Lemma default_shows c d : safe_default c = true -> default_shown c = true -> cpres c = Dflt d ->
  shows (cty c) (reading (cty c) d).
Proof.
  unfold safe_default, default_shown. intros Sd Ds P. rewrite P in Sd, Ds. apply andb_true_iff in Sd as (F & _).
  destruct (cty c) as [| | | |k| | |]; destruct d; cbn [fits] in F; try discriminate; cbn [reading shows]; try exact Logic.I.
  apply orb_true_iff in Ds as [Ds|Ds]; [exact (safe_octs_shown k bs Ds)|]. intros. now apply digits_keptb_ok.
Qed.

Lemma three_defaults (t : list (comp ty) -> list (comp ty) -> list (list (comp ty)) -> Prop) r a g :
  Forall (fun c => safe_root c = true) r -> Forall (fun c => safe_add c = true) a ->
  Forall (Forall (fun c => safe_add c = true)) g -> Forall (fun c => safe_default c = true) (all_comps r a g).
Proof.
  intros S1 S2 S3. apply all_three.
  - eapply Forall_impl; [|exact S1]. intros c S. unfold safe_root in S. now apply andb_true_iff in S as (S & _).
  - eapply Forall_impl; [|exact S2]. intros c S. unfold safe_add in S. now apply andb_true_iff in S as (S & _).
  - eapply Forall_impl; [|exact S3]. intros x Sx. eapply Forall_impl; [|exact Sx]. intros c S. unfold safe_add in S.
    now apply andb_true_iff in S as (S & _).
Qed.

Lemma seq_defaults o e r a g : safe_by o (TSeq e r a g) = true -> Forall (fun c => safe_default c = true) (all_comps r a g).
Proof.
  intros Sf. cbn [safe_by] in Sf. repeat (apply andb_true_iff in Sf as (Sf & ?)).
  repeat match goal with X : forallb (forallb _) _ = true |- _ => apply forallb_Forall2 in X end.
  repeat match goal with X : forallb _ _ = true |- _ => apply forallb_Forall in X end.
  now apply (three_defaults (fun _ _ _ => True)).
Qed.

Lemma valid_shows_both t : safe_by mild_octs t = true -> settled t = true ->
  (forall w, Valid.valid size_enforced t w -> shows t (reading t w)) /\ shows t (reading t (fresh t)).
Proof.
  induction t using ty_rect'; intros Sf Se.
  1-4: split; [intros w V; inversion V; subst; exact Logic.I|exact Logic.I].
  - split; [|exact Logic.I]. intros w V. inversion V; subst. cbn [reading shows]. assumption.
  - pose proof (seq_defaults _ _ _ _ _ Sf) as DF.
    cbn [safe_by settled] in Sf, Se. apply andb_true_iff in Sf as (_ & S3). apply three_all in S3. apply three_all in Se.
    pose proof (all_three _ r a g H H0 H1) as HA. rewrite Forall_forall in S3, Se, HA, DF.
    assert (Key : forall ss, List.length ss = ncomps r a g ->
      (forall i c v, nth_error (all_comps r a g) i = Some c -> nth_error ss i = Some (Some v) -> Valid.valid size_enforced (cty c) v) ->
      shows (TSeq e r a g) (reading (TSeq e r a g) (VSeq (Some ss)))).
    { intros ss L V. cbn [reading shows slots_list]. cbv zeta. rewrite all_att, zipw_all2. intros i c o Ci Oi.
      destruct o as [x|]; [|exact Logic.I]. unfold show_slot. cbn [snd].
      destruct (seq_from r a g ss i x L Oi) as (c' & s & Ci' & Si & ->). assert (c' = c) by congruence. subst c'.
      pose proof (nth_error_In _ _ Ci) as Ic. specialize (Se c Ic). cbv beta in Se. apply andb_true_iff in Se as (Sd & Sc).
      destruct (HA c Ic (S3 c Ic) Sc) as (HV & HF). destruct s as [v|]; cbn [slot_get]; [exact (HV v (V i c v Ci Si))|].
      destruct (cpres c) as [| |d] eqn:P; [exact HF|exact HF|]. exact (default_shows c d (DF c Ic) Sd P). }
    assert (None' : shows (TSeq e r a g) (reading (TSeq e r a g) (VSeq None))).
    { assert (R : reading (TSeq e r a g) (VSeq None) = reading (TSeq e r a g) (VSeq (Some (repeat None (ncomps r a g))))) by reflexivity.
      rewrite R. apply Key; [apply repeat_length|]. intros i c v _ Si. apply nth_error_In, repeat_spec in Si. discriminate. }
    split; [|exact None']. intros w V. inversion V; subst; [exact None'|]. now apply Key.
  - cbn [safe_by settled] in Sf, Se. apply andb_true_iff in Sf as (_ & Sf). destruct (IHt Sf Se) as (HV & HF). split.
    + intros w V. inversion V; subst. cbn [reading shows]. rewrite all_of_forall, Forall_forall. intros x Ix.
      apply in_map_iff in Ix as (v & <- & Iv). auto.
    + cbn [fresh reading shows map]. apply all_of_nil.
  - cbn [safe_by settled] in Sf, Se. apply andb_true_iff in Sf as (_ & S3). apply three_all in S3. apply three_all in Se.
    pose proof (all_three _ r a g H H0 H1) as HA. rewrite Forall_forall in S3, Se, HA. split; [|exact Logic.I].
    intros w V. inversion V; subst. fold (all_comps r a g) in *. cbn [reading]. 
    match goal with X : nth_error (all_comps r a g) _ = Some _ |- _ => rename X into Ci end.
    rewrite all_att, (att_nth reading _ _ _ Ci). cbn [shows snd]. rewrite all_att, (att_nth shows _ _ _ Ci). cbn [snd].
    pose proof (nth_error_In _ _ Ci) as Ic. now apply (HA _ Ic (S3 _ Ic) (Se _ Ic)).
Qed.

(** * What shows its digits is read back *)

Lemma groups_mono (m1 m2 : ty -> val -> Prop) gs : forall ss,
  (forall i c v, nth_error (List.concat gs) i = Some c -> nth_error ss i = Some (Some v) -> m1 (cty c) v -> m2 (cty c) v) ->
  mod_groups (map (att m1) gs) ss -> mod_groups (map (att m2) gs) ss.
Proof.
  induction gs as [|g gs IH]; intros ss I0 M; [exact Logic.I|]. cbn [map mod_groups List.concat] in *.
  rewrite !map_fst_att, !att_length in *. destruct M as (M1 & M2 & M3). split; [|split; [exact M2|]].
  - rewrite zipw_all in *. intros i c [v|] Ci Si; [|exact Logic.I]. unfold msg_add. cbn [snd]. apply (I0 i c v); auto.
    + rewrite nth_error_app1; [exact Ci|]. apply nth_error_Some. congruence.
    + exact (M1 i c _ Ci Si).
  - apply IH; [|exact M3]. intros i c v Ci Si. rewrite nth_skip in Si. apply (I0 (List.length g + i)%nat); [|exact Si].
    rewrite nth_error_app2 by lia. now replace (List.length g + i - List.length g)%nat with i by lia.
Qed.

Lemma tame t : safe_by mild_octs t = true -> forall v, message t v -> modest t v -> shows t (reading t v) ->
  modest_by kept_size t v.
Proof.
  induction t using ty_rect'; intros Sf v M Md Sh; try (destruct v; try contradiction; exact Md).
  - destruct v; try contradiction. split; [exact Md|exact Sh].
  - pose proof (seq_defaults _ _ _ _ _ Sf) as DF. pose proof Sf as S0.
    cbn [safe_by] in Sf. apply andb_true_iff in Sf as (_ & S3). apply three_all in S3.
    pose proof (all_three _ r a g H H0 H1) as HA. rewrite Forall_forall in S3, HA, DF.
    destruct v as [| | | | | |slots| |]; try contradiction.
    destruct (nothing_hidden _ e r a g slots S0 M) as (l & El & Hl).
    pose proof (proj1 M) as L. set (ss := slots_list (ncomps r a g) slots) in *.
    assert (Key : forall i c s, nth_error (all_comps r a g) i = Some c -> nth_error ss i = Some s -> has c s = true ->
      modest (cty c) (slot_get c s) -> modest_by kept_size (cty c) (slot_get c s)).
    { intros i c s Ci Si Hs Ms. pose proof (nth_error_In _ _ Ci) as Ic.
      assert (Sa : slot_at slots i = s).
      { unfold ss in Si. destruct slots as [k|]; cbn [slots_list slot_at] in *; [now apply nth_error_nth|].
        apply nth_error_In, repeat_spec in Si. now subst. }
      destruct (proj2 (Hl i c Ci)) as (x & Ex); [now rewrite Sa|].
      assert (Q : x = reading (cty c) (slot_get c s)).
      { cbn [reading] in El. cbv zeta in El. injection El as El. rewrite <- El in Ex.
        destruct (seq_from r a g _ i x L Ex) as (c' & s' & Ci' & Si' & ->). assert (c' = c) by congruence. subst c'.
        fold ss in Si'. assert (s' = s) by congruence. now subst s'. }
      assert (Mc : message (cty c) (slot_get c s)).
      { destruct s as [v|]; cbn [slot_get]; [exact (seq_slots e r a g slots i c v M Ci Si)|].
        cbn [has] in Hs. unfold is_defaulted in Hs. destruct (cpres c) as [| |d] eqn:P; try discriminate.
        specialize (DF c Ic). unfold safe_default in DF. rewrite P in DF. apply andb_true_iff in DF as (F & _).
        now apply fits_message. }
      apply (HA c Ic (S3 c Ic)); auto. rewrite <- Q. rewrite El in Sh. cbn [shows] in Sh. rewrite all_att, zipw_all2 in Sh.
      exact (Sh i c (Some x) Ci Ex). }
    cbn [modest_by] in Md |- *. cbv zeta in Md |- *. fold ss in Md |- *. destruct Md as (Md1 & Md2 & Md3).
    unfold ncomps, all_comps in L. rewrite !app_length in L. split; [|split].
    + rewrite zipw_all in *. intros i c [v|] Ci Si; [|exact Logic.I]. unfold msg_add. cbn [snd].
      apply (Key i c (Some v)); auto; [|exact (Md1 i c _ Ci Si)]. unfold all_comps. rewrite nth_error_app1; [exact Ci|].
      apply nth_error_Some. congruence.
    + rewrite zipw_all in *. intros i c s Ci Si. unfold mod_add. cbn [fst snd]. intros Hs.
      destruct (Md2 i c s Ci Si Hs) as (M2 & O2). split; [|exact O2]. cbn [fst snd] in M2. rewrite nth_skip in Si.
      apply (Key (List.length r + i)%nat c s); auto. unfold all_comps. rewrite nth_error_app2 by lia.
      replace (List.length r + i - List.length r)%nat with i by lia. rewrite nth_error_app1; [exact Ci|].
      apply nth_error_Some. congruence.
    + eapply groups_mono; [|exact Md3]. intros i c v Ci Si Mv. rewrite nth_skip in Si.
      apply (Key (List.length r + List.length a + i)%nat c (Some v)); auto. unfold all_comps.
      rewrite nth_error_app2, nth_error_app2 by lia.
      now replace (List.length r + List.length a + i - List.length r - List.length a)%nat with i by lia.
  - cbn [safe_by] in Sf. apply andb_true_iff in Sf as (_ & Sf). destruct v as [| | | | | | |vs|]; try contradiction.
    cbn [message modest_by reading shows] in *. destruct M as (_ & M). destruct Md as (A & Md). split; [exact A|].
    rewrite all_of_forall, Forall_forall in *. intros v Iv. apply IHt; auto. apply Sh. apply in_map, in_map. exact Iv.
  - cbn [safe_by] in Sf. apply andb_true_iff in Sf as (_ & S3). apply three_all in S3.
    pose proof (all_three _ r a g H H0 H1) as HA. rewrite Forall_forall in S3, HA.
    cbn [message modest_by] in M, Md |- *. destruct v as [| | | | | | | |[(i & w)|]]; try contradiction. rewrite all_att in M, Md |- *.
    destruct (nth_error (all_comps r a g) i) as [c|] eqn:Ci.
    2:{ unfold att in M. rewrite nth_error_map, Ci in M. contradiction. }
    rewrite (att_nth message _ i c Ci) in M. rewrite (att_nth modest _ i c Ci) in Md.
    rewrite (att_nth (modest_by kept_size) _ i c Ci). cbn [fst snd] in *. destruct Md as (Md & O). split; [|exact O].
    pose proof (nth_error_In _ _ Ci) as Ic. apply (HA c Ic (S3 c Ic)); auto.
    cbn [reading] in Sh. rewrite all_att, (att_nth reading _ i c Ci) in Sh. cbn [shows snd] in Sh.
    now rewrite all_att, (att_nth shows _ i c Ci) in Sh.
Qed.

(** * The theorems *)

Lemma safe_sound o t : safe_by o t = true -> sound_type t.
Proof.
  induction t using ty_rect'; intros Sf; cbn [safe_by sound_type] in *; try exact Logic.I.
  - apply andb_true_iff in Sf as (Sf & S3). apply three_all in S3. pose proof (all_three _ r a g H H0 H1) as HA.
    assert (SN : Forall (fun c => sound_type (cty c)) (all_comps r a g)).
    { rewrite Forall_forall in *. intros c I0. auto. }
    repeat (apply andb_true_iff in Sf as (Sf & ?)). split; [now apply distinct_nodup|].
    unfold all_comps in SN. rewrite !Forall_app in SN. destruct SN as (N1 & N2 & N3).
    rewrite !all_of_forall, all_of_groups. auto.
  - apply andb_true_iff in Sf as (Sc & Sf). split; [|auto]. unfold safe_count in Sc. intros l L. rewrite L in Sc.
    destruct (chi c); lia.
  - apply andb_true_iff in Sf as (Sf & S3). apply three_all in S3. pose proof (all_three _ r a g H H0 H1) as HA.
    assert (SN : Forall (fun c => sound_type (cty c)) (all_comps r a g)).
    { rewrite Forall_forall in *. intros c I0. auto. }
    repeat (apply andb_true_iff in Sf as (Sf & ?)). split; [now apply distinct_nodup|].
    unfold all_comps in SN. rewrite !Forall_app in SN. destruct SN as (N1 & N2 & N3).
    rewrite !all_of_forall, all_of_groups. auto.
Qed.

(** A message arrives exactly when its OCTET STRINGs of variable size show their
    first digit. *)
Theorem C71_exact : forall t v, mild t = true -> message t v -> modest t v ->
  (survives_reading t v <-> shows t (reading t v)).
Proof.
  intros t v Mi M Md. unfold mild in Mi. apply andb_true_iff in Mi as (Sf & Se). split.
  - intros (bs & v' & _ & Dd & Rd). rewrite <- Rd. apply valid_shows_both; [exact Sf|exact Se|].
    apply (C13_valid_partial bs); [now apply (safe_sound mild_octs)|exact Dd].
  - intros Sh. destruct (safe_good (ok := octs_ok) t mild_kept Sf v M (tame t Sf v M Md Sh)) as (Su & Re).
    apply C08_message_partial; [exact Su|exact Re|]. unfold top_ok. destruct t; try exact Logic.I. exact (safe_top _ Sf v M).
Qed.

(** Every message, read back or not, is sent as X.691 says. *)
Theorem C71_sent : forall t v, mild t = true -> standard t = true -> message t v -> modest t v -> brief t v ->
  exists bs, encode t v = Ok bs /\ forall bs', PER t (reading t v) bs' <-> bs' = bs.
Proof.
  intros t v Mi St M Md Br. unfold mild in Mi. apply andb_true_iff in Mi as (Sf & _).
  destruct (safe_good (ok := octs_sent) t mild_sent Sf v M Md) as (Su & Re).
  destruct (encode_total_by (fun c bs O => O) t v Su Re) as (bs & E). exists bs. split; [exact E|].
  pose proof (C45_conforms_partial t v bs (standard_sound t mild_standard Sf St v M Md Br) E) as P.
  intros bs'. split; [intros P'; exact (C45_unique _ _ _ _ P' P)|intros ->; exact P].
Qed.

(** The checks of the schema. *)
Definition familiar (t : ty) : bool := mild t && standard t && limited t && bare t.

(** Of what any sender sends by X.691, exactly these values are read. *)
Theorem C71_any_sender : forall t a bs, familiar t = true -> Peers.valid t a -> PER t a bs ->
  ((exists v, decode bs t = Ok v /\ reading t v = a) <-> shows t a).
Proof.
  unfold familiar. intros t a bs T V P. apply andb_true_iff in T as (T & Ba). apply andb_true_iff in T as (T & Li).
  apply andb_true_iff in T as (T & St). pose proof T as T0.
  unfold mild in T0. apply andb_true_iff in T0 as (Sf & _).
  destruct (values_told t Sf ltac:(assumption) a V) as (M & E).
  assert (Md : modest t (unread t a)) by now apply (limited_calm mild_sane).
  assert (Br : brief t (unread t a)) by now apply (limited_brief mild_octs).
  destruct (C71_sent t (unread t a)) as (bs0 & En & Q); auto. rewrite E in Q. apply Q in P. subst bs0.
  rewrite <- E. rewrite <- (C71_exact t (unread t a) T M Md). rewrite E. unfold survives_reading. split.
  - intros (v & Dv & Rv). exists bs, v. split; [exact En|]. split; [exact Dv|congruence].
  - intros (bs' & v & E' & Dv & Rv). exists v. rewrite E' in En. injection En as ->. split; [exact Dv|congruence].
Qed.

(** * Without the rule about DEFAULTs *)

(** SEQUENCE { x OCTET STRING (SIZE (1..4)) DEFAULT '0A'H, b BOOLEAN } *)
Definition unsettled : ty :=
  TSeq false [Comp "x" (Dflt (VOcts [10])) (TOcts (CRange false (Some 1) (Some 4))); Comp "b" Mand TBool] [] [].

(** The DEFAULT is not sent, so its digits do not matter. *)
Theorem C71_settled_needed : safe_by mild_octs unsettled = true /\
  exists v, message unsettled v /\ modest unsettled v /\ survives_reading unsettled v /\ ~ shows unsettled (reading unsettled v).
Proof.
  split; [reflexivity|]. exists (VSeq (Some [None; Some (VBool true)])). unfold unsettled.
  split; [concrete|]. split; [concrete|]. split.
  - exists [64], (VSeq (Some [None; Some (VBool true)])). repeat split; vm_compute; reflexivity.
  - intros Sh. cbn [shows] in Sh. specialize (Sh _ (or_introl eq_refl)).
    specialize (Sh 1 4 eq_refl eq_refl eq_refl ltac:(lia)). cbn in Sh. lia.
Qed.

(** A case with all kinds of OCTET STRINGs: SEQUENCE { a OCTET STRING (SIZE (2)), b OCTET STRING
    (SIZE (1..4)) OPTIONAL, ..., c OCTET STRING (SIZE (2..9)) OPTIONAL } *)
Definition strings : ty :=
  TSeq true [Comp "a" Mand (TOcts (CRange false (Some 2) (Some 2))); Comp "b" Opt (TOcts (CRange false (Some 1) (Some 4)))]
    [Comp "c" Opt (TOcts (CRange false (Some 2) (Some 9)))] [].

Example C71_case : familiar strings = true /\
  let v b c := VSeq (Some [Some (VOcts [0; 0]); Some (VOcts b); Some (VOcts c)]) in
  (message strings (v [0] [16; 0]) /\ shows strings (reading strings (v [0] [16; 0]))) /\
  message strings (v [170] [0; 1]) /\ ~ shows strings (reading strings (v [170] [0; 1])).
Proof.
  split; [vm_compute; reflexivity|]. cbv zeta. unfold strings. split; [split; [concrete|]|split; [concrete|]].
  - intros p J. cbn [In zipw att map app List.concat reading shows slots_list read_groups skipn List.length Nat.add fst snd cty read_root read_ext
      cpres slot_get present is_value andb show_slot] in J.
    vm_compute in J. destruct J as [<-|[<-|[<-|[]]]]; intros l h _ [= <-] [= <-] B;
      vm_compute in B |- *; first [left; reflexivity | discriminate | destruct B; discriminate].
  - intros Sh. specialize (Sh _ (or_intror (or_intror (or_introl eq_refl)))).
    specialize (Sh 2 9 eq_refl eq_refl eq_refl ltac:(lia)). cbn in Sh. lia.
Qed.
