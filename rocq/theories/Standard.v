(** A check of a schema that promises that its messages are those of X.691.

    Nothing here is code of the library: [standard] is, like [safe], a function of
    the type alone.  Together they promise that every message of the type is encoded
    as X.691 says, and that what any other sender makes of it is understood. *)
From Coq Require Import ZArith List String Bool Lia ZifyBool ZifyNat ZifyN.
Import ListNotations.
From Verif Require Import PyBase Schema Encoder Decoder BitFacts Stream Prims Spec SimpleTypes RoundTrip Reading
  Totality PropsRoundTrip Objects X691 Constraints Valid Exact Faults Extent Conform Safe.
Open Scope Z_scope.
Ltac Zify.zify_post_hook ::= Z.div_mod_to_equations.

(** * The check *)

(** Ranges, single values and unions of them, none of them empty. *)
Fixpoint union (c : constr) : bool :=
  match c with
  | CRange e (Some l) (Some h) => negb e && (l <=? h)
  | CSingle e (_ :: _) => negb e
  | COr e (x :: l) => negb e && (union x && forallb union l)
  | CAnd e [x] => negb e && union x
  | _ => false
  end.

(** The end points the library computes are the bounds of the constraint. *)
Definition seen (c : constr) : bool :=
  match c with
  | CNone | CExt _ | CRange _ _ _ | CSeqSize _ _ _ => true
  | _ => union c
  end.

(** A group in which a component is sent whenever the group is. *)
Definition vocal (g : list (comp ty)) : bool :=
  existsb is_mandatory g || forallb (fun c => negb (is_defaulted c)) g.

(** On top of [safe]: constraints with bounds the library finds, ranges of at most
    65535 octets, lists of at most 65535 elements where there is an upper end, no
    DEFAULT in an addition and none alone in an addition group. *)
Fixpoint standard (t : ty) : bool :=
  match t with
  | TBool | TEnum _ _ _ => true
  | TInt c => seen c && match clo c, chi c with Some l, Some h => bits_below (8 * 65535) (h - l) | _, _ => true end
  | TBits c | TOcts c => seen c
  | TSeqOf c t' => seen c && match chi c with Some h => h <? 65536 | None => true end && standard t'
  | TSeq _ root adds groups =>
      forallb (fun c => negb (is_defaulted c)) adds && forallb vocal groups &&
      (forallb (fun c => standard (cty c)) root && forallb (fun c => standard (cty c)) adds &&
       forallb (forallb (fun c => standard (cty c))) groups)
  | TChoice _ root adds groups =>
      forallb (fun c => standard (cty c)) root && forallb (fun c => standard (cty c)) adds &&
      forallb (forallb (fun c => standard (cty c))) groups
  end.

(** INTEGERs sent without a lower end fit 127 octets. *)
Fixpoint brief (t : ty) (v : val) {struct t} : Prop :=
  match t, v with
  | TInt c, VInt z => (clo c <> None /\ cext c = false) \/ inside c z = true \/ sfits 127 z
  | TSeqOf _ t', VSeqOf vs => all_of (map (brief t') vs)
  | TChoice _ root adds groups, VChoice (Some (i, v')) =>
      match nth_error (att brief root ++ att brief adds ++ List.concat (map (att brief) groups)) i with
      | Some ca => snd ca v'
      | None => False
      end
  | TSeq _ root adds groups, VSeq slots =>
      all_of (zipw msg_add (att brief root ++ att brief adds ++ List.concat (map (att brief) groups))
                           (slots_list (ncomps root adds groups) slots))
  | _, _ => True
  end.

(** * Constraints *)

Lemma union_is c : union c = true -> union_like c.
Proof.
  induction c using constr_ind'; cbn [union union_like]; try discriminate.
  - destruct l as [l|], h as [h|]; try discriminate. intros E. apply andb_true_iff in E as (E & F).
    apply negb_true_iff in E. split; [exact E|lia].
  - destruct vs; [discriminate|]. intros E. apply negb_true_iff in E. split; [exact E|discriminate].
  - destruct cs as [|x l]; [discriminate|]. intros E. apply andb_true_iff in E as (E & F). apply negb_true_iff in E.
    split; [exact E|]. split; [discriminate|]. apply all_of_forall.
    change (forallb union (x :: l) = true) in F. rewrite forallb_forall in F. rewrite Forall_forall in *. auto.
  - destruct cs as [|x [|y l]]; try discriminate. intros E. apply andb_true_iff in E as (E & F). apply negb_true_iff in E.
    split; [exact E|]. inversion H; auto.
Qed.

Lemma seen_visible c : seen c = true -> visible c.
Proof.
  unfold visible. intros S. destruct c; cbn [seen] in S; try constructor.
  all: apply union_is in S; pose proof (C35_effective_partial _ S) as (l & h & L & U & Sl & Sh & Bo); rewrite L, U.
  - destruct S as (-> & _). apply b_set; [left; eauto|..]; cbn [root_sat sat] in *.
    + destruct Sl; [discriminate|assumption].
    + destruct Sh; [discriminate|assumption].
    + intros z Hz. apply Bo. now right.
  - destruct S as (-> & _). apply b_set; [right; eauto|..]; cbn [root_sat sat] in *.
    + destruct Sl; [discriminate|assumption].
    + destruct Sh; [discriminate|assumption].
    + intros z Hz. apply Bo. now right.
  - assert (ext = false) as -> by (destruct cs as [|x [|y cs]]; cbn [union_like] in S; tauto).
    apply b_set; [right; eauto|..]; cbn [root_sat sat] in *.
    + destruct Sl; [discriminate|assumption].
    + destruct Sh; [discriminate|assumption].
    + intros z Hz. apply Bo. now right.
Qed.

(** * Simple types *)

Lemma sat_within c z : regularb c = true -> sat c z -> cext c = false -> within (clo c) (chi c) z.
Proof. intros Rg S X. destruct (sat_ends c z Rg S X) as (_ & A & B). split; assumption. Qed.

Lemma int_standard q c z : safe_int c = true -> standard (TInt c) = true -> sat c z -> modest_by q (TInt c) (VInt z) ->
  brief (TInt c) (VInt z) -> int_conf c z.
Proof.
  cbn [standard modest_by brief]. intros Sf St M Md Br. destruct (int_safe c z Sf M Md) as (Ok0 & _).
  apply andb_true_iff in St as (Se & St). unfold safe_int in Sf. apply andb_true_iff in Sf as (Rg & Sf).
  split; [now apply seen_visible|]. split; [now apply sat_within|].
  unfold int_ok in Ok0. destruct Ok0 as (_ & Ok0). destruct (cext c) eqn:X; cbn [andb] in *.
  - destruct (inside c z) eqn:I0; cbn [negb].
    + destruct (clo c) as [l|] eqn:L; [|discriminate]. destruct (chi c) as [h|] eqn:U; [|discriminate].
      apply below_ufits; [lia|lia|exact St].
    + destruct Br as [(_ & Br)|[Br|Br]]; [discriminate|discriminate|exact Br].
  - destruct (clo c) as [l|] eqn:L.
    + destruct (chi c) as [h|] eqn:U.
      * apply below_ufits; [lia|lia|exact St].
      * destruct Md as [Md|Md]; [unfold inside in Md; rewrite L, U in Md; discriminate|].
        exact Ok0.
    + destruct Br as [(Br & _)|[Br|Br]]; [congruence|unfold inside in Br; rewrite L in Br; discriminate|exact Br].
Qed.

Lemma enum_standard ext root adds z : safe_enum ext root adds = true -> In z (root ++ adds) -> enum_conf ext root adds z.
Proof.
  intros Sf M. destruct (enum_safe ext root adds z Sf M) as (N & I0 & R0 & X & U).
  split; [exact N|]. split; [exact I0|]. split; [exact X|]. split; [|exact U]. clear U.
  unfold safe_enum in Sf. repeat (apply andb_true_iff in Sf as (Sf & ?)).
  apply below_ufits; [lia|lia|]. unfold bits_below. apply Z.ltb_lt.
  apply Z.le_lt_trans with (Z.log2 65536); [apply Z.log2_le_mono; lia|reflexivity].
Qed.

Lemma short_general c n : short c n -> general_size c n.
Proof. intros [S|S] E; [lia|exact S]. Qed.

Lemma bits_standard c s : safe_bits c = true -> seen c = true -> sat c (zlen s) -> short c (zlen s) -> bits_conf c s.
Proof.
  intros Sf Se M Sh. unfold safe_bits in Sf. apply andb_true_iff in Sf as (Sf & Z0). apply andb_true_iff in Sf as (Rg & X).
  apply negb_true_iff in X. pose proof (sat_within c _ Rg M X) as W. split; [|split].
  - split; [now apply seen_visible|]. split; [|auto]. intros l L. rewrite L in Z0. destruct (chi c); lia.
  - now apply short_general.
  - intros ->. exfalso. destruct W as (A & _). unfold X691.within, above in A. destruct (clo c) as [l|]; [|discriminate].
    specialize (A l eq_refl). unfold zlen in A. cbn in A. destruct (chi c); lia.
Qed.

Lemma octs_standard c bs : safe_octs c = true -> seen c = true -> sat c (zlen bs) -> Forall (fun b => 0 <= b < 256) bs ->
  short c (zlen bs) -> octs_conf c bs.
Proof.
  intros Sf Se M O Sh. unfold safe_octs in Sf. apply andb_true_iff in Sf as (Rg & Z0).
  split; [exact O|]. split; [|split; [|split]].
  - split; [now apply seen_visible|]. split; [|intros X; now apply sat_within]. intros l L. rewrite L in Z0. destruct (chi c); lia.
  - unfold limited_size. destruct (inside c (zlen bs)) eqn:I0.
    + intros h U. left. rewrite U in Z0. destruct (clo c); [lia|discriminate].
    + destruct Sh as [Sh|(Sh & _)]; [lia|congruence].
  - intros X I0 U. rewrite X, U in Z0. destruct (clo c); [lia|discriminate].
  - intros _ L h U P. rewrite L, U in Z0. lia.
Qed.

Lemma count_standard c n : safe_count c = true -> seen c = true ->
  (match chi c with Some h => h <? 65536 | None => true end) = true -> allowed c n -> short c n ->
  sizes c n /\ limited_size c n.
Proof.
  intros Sf Se Hi A Sh. unfold safe_count in Sf. split.
  - split; [now apply seen_visible|]. split.
    + intros l L. rewrite L in Sf. destruct (chi c); lia.
    + intros X. destruct A as [A|A]; [congruence|exact A].
  - unfold limited_size. destruct (inside c n) eqn:I0.
    + intros h U. left. rewrite U in Hi. lia.
    + destruct Sh as [Sh|(Sh & _)]; [lia|congruence].
Qed.

(** * Constructed types *)

Lemma small_conf t v : open_small t v -> open_conf t v.
Proof. intros O bs E. specialize (O bs E). lia. Qed.

Section Check.
Context {rule : constr -> bool} {asked : constr -> list Z -> Prop}.
Local Notation safe := (safe_by rule).
Local Notation modest := (modest_by asked).

Lemma default_standard c d v : safe_default c = true -> cpres c = Dflt d -> safe (cty c) = true -> message (cty c) v ->
  default_conf (cty c) d v.
Proof.
  intros Sd P Sf M. destruct (default_told c d v Sd P Sf M) as [->|(N & B0)]; [now left|right]. split; [|exact B0].
  unfold safe_default in Sd. rewrite P in Sd. apply andb_true_iff in Sd as (F & _). clear B0 Sf P.
  destruct (cty c), d; cbn [fits] in F; try discriminate; destruct v; try contradiction; cbn [reading]; congruence.
Qed.

Definition sound (t : ty) : Prop := safe t = true -> standard t = true ->
  forall v, message t v -> modest t v -> brief t v -> conf t v.

Lemma root_standard c s : sound (cty c) -> safe (cty c) = true -> standard (cty c) = true -> safe_root c = true ->
  msg_root (c, message (cty c)) s -> msg_add (c, modest (cty c)) s -> msg_add (c, brief (cty c)) s ->
  conf_root (c, conf (cty c)) s.
Proof.
  intros So Sf St S M Md Br. unfold safe_root in S. apply andb_true_iff in S as (Sd & Sl).
  unfold conf_root. cbn [fst snd]. cbv zeta. unfold msg_root, msg_add in *. cbn [fst snd] in *.
  destruct s as [v|]; cbn [slot_get].
  - destruct (cpres c) as [| |d] eqn:P; [auto|auto|]. split; [now apply default_standard|auto].
  - destruct (cpres c) as [| |d] eqn:P; [congruence| |split; [now left|congruence]].
    unfold is_mandatory in Sl. rewrite P in Sl. cbn [orb] in Sl. unfold present. rewrite (solid_fresh _ Sl). discriminate.
Qed.

Lemma roots_standard cs ss : Forall (fun c => sound (cty c)) cs -> Forall (fun c => safe (cty c) = true) cs ->
  Forall (fun c => standard (cty c) = true) cs -> Forall (fun c => safe_root c = true) cs ->
  all_of (zipw msg_root (att message cs) ss) -> all_of (zipw msg_add (att modest cs) ss) ->
  all_of (zipw msg_add (att brief cs) ss) -> all_of (zipw conf_root (att conf cs) ss).
Proof.
  rewrite !zipw_all, !Forall_forall. intros So Sf St S M Md Br i c s Ci Si. pose proof (nth_error_In _ _ Ci) as I0.
  exact (root_standard c s (So c I0) (Sf c I0) (St c I0) (S c I0) (M i c s Ci Si) (Md i c s Ci Si) (Br i c s Ci Si)).
Qed.

Lemma add_standard c s : sound (cty c) -> safe (cty c) = true -> standard (cty c) = true -> safe_add c = true ->
  is_defaulted c = false ->
  msg_add (c, message (cty c)) s -> mod_add (c, modest (cty c)) s -> msg_add (c, brief (cty c)) s ->
  conf_add (c, conf (cty c)) s.
Proof.
  intros So Sf St S ND M Md Br. destruct (add_present c s S M) as (P & _ & W).
  unfold conf_add. cbn [fst snd]. cbv zeta. rewrite P. intros Hs. destruct (W Hs) as (Mv & _).
  unfold mod_add in Md. cbn [fst snd] in Md. destruct (Md Hs) as (Mdv & Ov). split; [|split; [now apply small_conf|]].
  - unfold has in Hs. destruct s as [v|]; [|congruence]. cbn [slot_get] in *. now apply So.
  - intros d E. unfold is_defaulted in ND. rewrite E in ND. discriminate.
Qed.

Lemma adds_standard cs ss : Forall (fun c => sound (cty c)) cs -> Forall (fun c => safe (cty c) = true) cs ->
  Forall (fun c => standard (cty c) = true) cs -> Forall (fun c => safe_add c = true) cs ->
  Forall (fun c => negb (is_defaulted c) = true) cs ->
  all_of (zipw msg_add (att message cs) ss) -> all_of (zipw mod_add (att modest cs) ss) ->
  all_of (zipw msg_add (att brief cs) ss) -> all_of (zipw conf_add (att conf cs) ss).
Proof.
  rewrite !zipw_all, !Forall_forall. intros So Sf St S ND M Md Br i c s Ci Si. pose proof (nth_error_In _ _ Ci) as I0.
  apply (add_standard c s); auto; [apply negb_true_iff; auto|exact (M i c s Ci Si)|exact (Md i c s Ci Si)|exact (Br i c s Ci Si)].
Qed.

Lemma vocal_speaks g ss : vocal g = true -> Forall (fun c => safe_add c = true) g -> (List.length g <= List.length ss)%nat ->
  all_of (zipw msg_add (att message g) ss) -> any_has g ss = true -> some_of (zipw speaks g ss).
Proof.
  intros V S L M AH. unfold vocal in V. apply orb_true_iff in V as [V|V].
  - apply existsb_exists in V as (c & Ic & Mc). apply In_nth_error in Ic as (i & Ci).
    assert (Bi : (i < List.length g)%nat) by (apply nth_error_Some; congruence).
    destruct (nth_error ss i) as [s|] eqn:Si; [|apply nth_error_None in Si; lia].
    exists (speaks c s). split; [exact (zipw_at speaks g ss i c s Ci Si)|]. unfold speaks, is_mandatory in *.
    destruct (cpres c); try discriminate. exact Logic.I.
  - unfold any_has in AH. apply existsb_exists in AH as (b & Ib & Hb). subst b.
    apply zipw_in in Ib as (i & c & s & Ci & Si & Hs). symmetry in Hs. pose proof (nth_error_In _ _ Ci) as Ic.
    exists (speaks c s). split; [exact (zipw_at speaks g ss i c s Ci Si)|]. rewrite forallb_forall in V. specialize (V c Ic).
    rewrite Forall_forall in S. rewrite zipw_all in M. destruct (add_present c s (S c Ic) (M i c s Ci Si)) as (P & _).
    rewrite Hs in P. unfold speaks. unfold is_defaulted in V. destruct (cpres c); [exact Logic.I|exact P|discriminate].
Qed.

Lemma groups_standard gs : forall ss, Forall (Forall (fun c => sound (cty c))) gs ->
  Forall (Forall (fun c => safe (cty c) = true)) gs -> Forall (Forall (fun c => standard (cty c) = true)) gs ->
  Forall (Forall (fun c => safe_add c = true)) gs -> Forall (fun g => vocal g = true) gs ->
  (List.length (List.concat gs) <= List.length ss)%nat ->
  msg_groups (map (att message) gs) ss -> mod_groups (map (att modest) gs) ss ->
  all_of (zipw msg_add (att brief (List.concat gs)) ss) -> conf_groups (map (att conf) gs) ss.
Proof.
  induction gs as [|g gs IH]; intros ss So Sf St S V L M Md Br; [exact Logic.I|].
  inversion So; inversion Sf; inversion St; inversion S; inversion V; subst.
  cbn [map msg_groups mod_groups conf_groups List.concat] in *. rewrite !att_length in *. rewrite !map_fst_att in *.
  destruct M as ((M1 & MR) & M2). destruct Md as (Md1 & Op & Md2). rewrite app_length in L. rewrite map_fst_att in MR.
  assert (B1 : all_of (zipw msg_add (att brief g) ss)).
  { rewrite zipw_all in Br |- *. intros i c s Ci Si. apply (Br i c s); [|exact Si]. rewrite nth_error_app1; [exact Ci|].
    apply nth_error_Some. congruence. }
  assert (B2 : all_of (zipw msg_add (att brief (List.concat gs)) (skipn (List.length g) ss))).
  { rewrite zipw_all in Br |- *. intros i c s Ci Si. apply (Br (List.length g + i)%nat c s).
    - rewrite nth_error_app2 by lia. now replace (List.length g + i - List.length g)%nat with i by lia.
    - rewrite <- nth_skip. exact Si. }
  split.
  - unfold conf_group. cbv zeta. rewrite !map_fst_att, (group_has g ss) by assumption. intros AH. split; [|split].
    + apply roots_standard; auto. eapply Forall_impl; [|eassumption]. intros c. apply add_root.
    + apply vocal_speaks; auto. lia.
    + apply small_conf. now apply Op.
  - apply IH; auto. rewrite skipn_length. lia.
Qed.

(** What the rule for OCTET STRINGs has to promise. *)
Definition octets_standard : Prop := forall c bs, rule c = true -> seen c = true -> sat c (zlen bs) ->
  Forall (fun b => 0 <= b < 256) bs -> asked c bs -> octs_conf c bs.

Theorem standard_sound t : octets_standard -> sound t.
Proof.
  intros OS.
  induction t using ty_rect'; intros Sf St v M Md Br.
  - destruct v; try contradiction. exact Logic.I.
  - destruct v; try contradiction. now apply (int_standard asked).
  - destruct v; try contradiction. now apply enum_standard.
  - destruct v; try contradiction. now apply bits_standard.
  - destruct v; try contradiction. destruct M as (M & O). now apply OS.
  - cbn [safe_by] in Sf. repeat (apply andb_true_iff in Sf as (Sf & ?)).
    cbn [standard] in St. repeat (apply andb_true_iff in St as (St & ?)).
    repeat match goal with X : _ && _ = true |- _ => apply andb_true_iff in X as (X & ?) end.
    destruct v as [| | | | | |slots| |]; try contradiction. cbn [message modest_by brief] in M, Md, Br. cbv zeta in M, Md.
    destruct M as (L & M1 & M2 & M3 & _). destruct Md as (Md1 & Md2 & Md3). rewrite all_att in Br.
    set (ss := slots_list (ncomps r a g) slots) in *. cbn [conf]. cbv zeta. fold ss.
    repeat match goal with X : forallb (forallb _) _ = true |- _ => apply forallb_Forall2 in X end.
    repeat match goal with X : forallb _ _ = true |- _ => apply forallb_Forall in X end.
    assert (Le : List.length ss = (List.length r + (List.length a + List.length (List.concat g)))%nat).
    { rewrite L. unfold ncomps, all_comps. now rewrite !app_length. }
    rewrite zipw_all in Br. unfold all_comps in Br.
    split; [now apply distinct_nodup|]. split; [exact L|]. split; [now apply closed_none|]. split; [|split].
    + apply roots_standard; auto. rewrite zipw_all. intros i c s Ci Si. apply (Br i c s); [|exact Si].
      rewrite nth_error_app1; [exact Ci|]. apply nth_error_Some. congruence.
    + apply adds_standard; auto. rewrite zipw_all. intros i c s Ci Si. apply (Br (List.length r + i)%nat c s).
      * rewrite nth_error_app2 by lia. replace (List.length r + i - List.length r)%nat with i by lia.
        rewrite nth_error_app1; [exact Ci|]. apply nth_error_Some. congruence.
      * rewrite <- nth_skip. exact Si.
    + apply groups_standard; auto; [rewrite skipn_length; lia|]. rewrite zipw_all. intros i c s Ci Si.
      apply (Br (List.length r + (List.length a + i))%nat c s).
      * rewrite nth_error_app2 by lia. rewrite nth_error_app2 by lia.
        now replace (List.length r + (List.length a + i) - List.length r - List.length a)%nat with i by lia.
      * rewrite Nat.add_assoc, <- nth_skip. exact Si.
  - cbn [safe_by standard] in *. apply andb_true_iff in Sf as (Sc & Sf). apply andb_true_iff in St as (St & S2).
    apply andb_true_iff in St as (Se & Hi). destruct v as [| | | | | | |vs|]; try contradiction.
    cbn [message modest_by brief conf] in *. destruct M as (A & M). destruct Md as (Sh & Md).
    rewrite all_of_forall, Forall_forall in M, Md, Br.
    destruct (count_standard c (zlen vs)) as (C1 & C2); auto. split; [exact C1|]. split; [exact C2|].
    rewrite all_of_forall, Forall_forall. auto.
  - cbn [safe_by standard] in *. apply andb_true_iff in Sf as (Sf & S3). apply three_all in S3. apply three_all in St.
    pose proof (all_three _ r a g H H0 H1) as HA. repeat (apply andb_true_iff in Sf as (Sf & ?)).
    cbn [message modest_by brief] in M, Md, Br. destruct v as [| | | | | | | |[(i & w)|]]; try contradiction. rewrite all_att in M, Md, Br.
    destruct (nth_error (att message (all_comps r a g)) i) as [ca|] eqn:Ci; [|contradiction].
    apply nth_att in Ci as (c & Ci & ->). rewrite (att_nth modest _ i c Ci) in Md. rewrite (att_nth brief _ i c Ci) in Br.
    cbn [fst snd] in M, Md, Br. destruct Md as (Md & Op).
    rewrite Forall_forall in S3, St, HA. pose proof (nth_error_In _ _ Ci) as Ic.
    assert (Bi : (i < List.length (all_comps r a g))%nat) by (apply nth_error_Some; congruence).
    assert (U : ufits 16383 (zlen (all_comps r a g))) by (apply below_ufits; [unfold zlen; lia|lia|assumption]).
    cbn [conf]. rewrite all_att, (att_nth conf _ i c Ci). cbn [fst snd].
    split; [now apply distinct_nodup|]. split; [now apply closed_none|]. split.
    + clear - U. unfold ufits in *. destruct U as (U0 & U). split; [exact U0|]. eapply Z.lt_le_trans; [exact U|].
      clear. apply Z.pow_le_mono_r; lia.
    + split; [now apply HA; auto|]. intros Li. split; [|now apply small_conf; auto].
      eapply ufits_le; [|exact U]. clear - Bi. unfold zlen. lia.
Qed.

End Check.

(** * Every message of such a schema is encoded as X.691 says *)

(** The octets are those of X.691, the only ones, and whoever sends them is
    understood. *)
Definition standardly (t : ty) (v : val) : Prop :=
  exists bs v', encode t v = Ok bs /\ (forall bs', PER t (reading t v) bs' <-> bs' = bs) /\
                decode bs t = Ok v' /\ reading t v' = reading t v.

Theorem C69_standard : forall t v, safe t = true -> standard t = true ->
  message t v -> modest t v -> brief t v -> standardly t v.
Proof.
  intros t v Sf St M Md Br. destruct (C68_safe t v Sf M Md) as (bs & v' & E & Dd & Rd).
  exists bs, v'. split; [exact E|]. split; [|split; [exact Dd|exact Rd]].
  pose proof (C45_conforms_partial t v bs (standard_sound t octs_standard Sf St v M Md Br) E) as P.
  intros bs'. split; [intros P'; exact (C45_unique _ _ _ _ P' P)|intros ->; exact P].
Qed.

(** With ranges and sizes everywhere the schema alone tells. *)
Lemma limited_brief o t : safe_by o t = true -> limited t = true -> forall v, message t v -> brief t v.
Proof.
  induction t using ty_rect'; intros Sf Li v M; try (destruct v; exact Logic.I).
  - destruct v; try contradiction. cbn [safe_by limited message brief] in *. right. left. unfold safe_int in Sf.
    apply andb_true_iff in Sf as (Rg & _). now apply ranged_inside.
  - cbn [safe_by limited] in Sf, Li. apply andb_true_iff in Sf as (Sf & S3). apply andb_true_iff in Li as (_ & L3).
    apply three_all in S3. apply three_all in L3. pose proof (all_three _ r a g H H0 H1) as HA.
    rewrite Forall_forall in S3, L3, HA. destruct v as [| | | | | |slots| |]; try contradiction.
    cbn [brief]. rewrite all_att, zipw_all. intros i c [v|] Ci Si; [|exact Logic.I]. unfold msg_add. cbn [snd].
    pose proof (nth_error_In _ _ Ci) as Ic. exact (HA c Ic (S3 c Ic) (L3 c Ic) v (seq_slots e r a g slots i c v M Ci Si)).
  - cbn [safe_by limited] in Sf, Li. apply andb_true_iff in Sf as (_ & Sf). apply andb_true_iff in Li as (_ & Li).
    destruct v as [| | | | | | |vs|]; try contradiction. cbn [message brief] in *. destruct M as (_ & M).
    rewrite all_of_forall, Forall_forall in *. auto.
  - cbn [safe_by limited] in Sf, Li. apply andb_true_iff in Sf as (Sf & S3). apply andb_true_iff in Li as (_ & L3).
    apply three_all in S3. apply three_all in L3. pose proof (all_three _ r a g H H0 H1) as HA.
    rewrite Forall_forall in S3, L3, HA. cbn [message brief] in *. destruct v as [| | | | | | | |[(i & w)|]]; try contradiction.
    rewrite all_att in M |- *. destruct (nth_error (att message (all_comps r a g)) i) as [ca|] eqn:Ci; [|contradiction].
    apply nth_att in Ci as (c & Ci & ->). rewrite (att_nth brief _ i c Ci). cbn [snd] in *.
    pose proof (nth_error_In _ _ Ci) as Ic. exact (HA c Ic (S3 c Ic) (L3 c Ic) w M).
Qed.

Theorem C69_limited : forall t v, safe t = true -> limited t = true -> standard t = true ->
  message t v -> standardly t v.
Proof.
  intros t v Sf Li St M. apply C69_standard; auto; [now apply (limited_calm octs_sane)|now apply (limited_brief safe_octs)].
Qed.

(** ** Cases *)

Example C69_case : safe packet = true /\ limited packet = true /\ standard packet = true /\ message packet packet_value.
Proof.
  split; [reflexivity|]. split; [vm_compute; reflexivity|]. split; [reflexivity|]. exact (proj1 (proj2 (proj2 C68_case))).
Qed.

(** Not only ranges: (1 | 4..6 | 9), an INTEGER without ends, and the extension. *)
Definition loose : ty :=
  TSeq true
    [Comp "a" Mand (TInt (COr false [CSingle false [1]; CRange false (Some 4) (Some 6); CSingle false [9]]));
     Comp "b" Opt (TInt CNone);
     Comp "c" Mand (TInt (CRange true (Some 0) (Some 7)))]
    [] [[Comp "d" (Dflt (VBool true)) TBool; Comp "e" Mand TBool]].

Definition loose_value : val :=
  VSeq (Some [Some (VInt 9); Some (VInt (-300)); Some (VInt 1000); None; Some (VBool false)]).

Example C69_loose_case : safe loose = true /\ standard loose = true /\ message loose loose_value /\
  modest loose loose_value /\ brief loose loose_value /\
  encode loose loose_value = Ok [224; 2; 254; 212; 128; 2; 3; 232; 1; 1; 0].
Proof.
  split; [reflexivity|]. split; [reflexivity|]. unfold loose, loose_value.
  assert (A1 : sfits 255 (-300) /\ sfits 127 (-300)) by (split; split; discriminate || reflexivity).
  assert (A2 : sfits 255 1000 /\ sfits 127 1000) by (split; split; discriminate || reflexivity).
  split; [concrete|]. split; [|split; [|vm_compute; reflexivity]].
  - cbn [modest_by slots_list att map List.length skipn Nat.add mod_groups fst zipw]. cbv zeta. split; [|split].
    + intros p [<-|[<-|[<-|[]]]]; unfold msg_add; cbn [snd modest_by]; [left; reflexivity|right; exact (proj1 A1)|right; exact (proj1 A2)].
    + intros p [].
    + split; [|split; [|exact Logic.I]].
      * intros p [<-|[<-|[]]]; exact Logic.I.
      * intros _. concrete.
  - cbn [brief slots_list att map List.concat app zipw].
    intros p [<-|[<-|[<-|[<-|[<-|[]]]]]]; unfold msg_add; cbn [snd brief].
    + left. split; [discriminate|reflexivity].
    + right. right. exact (proj2 A1).
    + right. right. exact (proj2 A2).
    + exact Logic.I.
    + exact Logic.I.
Qed.

(** ** The rules are needed *)

(** Schemas that pass [safe], a message of them and the octets of X.691. *)
Definition strays : list (ty * val * list Z) := [
  (* an intersection *)
  (and_bool (TInt (CAnd false [CRange false (Some 0) (Some 5); CRange false (Some 3) (Some 10)])), and_true (VInt 4), [96]);
  (* DEFAULT in an addition *)
  (TSeq true [Comp "a" Mand TBool] [Comp "b" (Dflt (VInt 5)) (TInt CNone)] [], VSeq (Some [Some (VBool true); None]), [64]);
  (* nothing but DEFAULT in an addition group *)
  (TSeq true [Comp "a" Mand TBool] [] [[Comp "b" (Dflt (VInt 5)) (TInt CNone)]], VSeq (Some [Some (VBool true); None]), [64]);
  (* a list of up to 64K elements *)
  (TSeqOf (CSeqSize false (Some 1) (Some 65536)) TBool, VSeqOf [VBool true], [1; 128])].

Theorem C69_rules_needed : Forall (fun p => let '(t, v, bs') := p in
  safe t = true /\ standard t = false /\ message t v /\ modest t v /\ brief t v /\ exists bs, deviates t v bs bs') strays.
Proof.
  assert (F5 : sfits 255 5 /\ sfits 127 5) by (split; split; discriminate || reflexivity).
  unfold strays, and_bool, and_true. apply Forall_cons; [|apply Forall_cons; [|apply Forall_cons; [|apply Forall_cons; [|constructor]]]].
  all: split; [vm_compute; reflexivity|]; split; [vm_compute; reflexivity|]; split; [concrete|].
  - split; [concrete|]. split.
    + cbn [brief slots_list att map List.concat app zipw]. intros p [<-|[<-|[]]]; [|exact Logic.I].
      left. split; [discriminate|reflexivity].
    + eexists. exact C45_intersection_refuted.
  - split.
    + cbn [modest_by slots_list att map List.length skipn Nat.add mod_groups fst zipw]. cbv zeta. split; [|split].
      * intros p [<-|[]]. exact Logic.I.
      * intros p [<-|[]]. unfold mod_add. intros _. split; [right; exact (proj1 F5)|]. concrete.
      * exact Logic.I.
    + split; [|eexists; exact C45_default_addition_refuted].
      cbn [brief slots_list att map List.concat app zipw]. intros p [<-|[<-|[]]]; exact Logic.I.
  - split; [concrete|]. split.
    + cbn [brief slots_list att map List.concat app zipw]. intros p [<-|[<-|[]]]; exact Logic.I.
    + exists [192; 64; 1; 0]. split; [vm_compute; reflexivity|]. split; [|discriminate].
      exists [false; true]. split.
      * exists [Some (ABool true)], ([Some (AInt 5)] ++ []). split; [reflexivity|]. left. exists [false], [true].
        split; [|split; [intros [X|[]]; discriminate|split; [reflexivity|]]].
        -- apply a_group_absent; [reflexivity| |constructor]. constructor; [|constructor]. right. exists (VInt 5). split; reflexivity.
        -- exists [], [true]. split; [reflexivity|]. change [true] with ([true] ++ [] : bits).
           apply r_mand; [reflexivity|reflexivity|]. apply r_nil.
      * apply (complete_some _ 6); [discriminate|lia|repeat constructor; lia|reflexivity].
  - split; [concrete|]. split; [intros p [<-|[]]; exact Logic.I|]. exists [0; 0; 128]. split; [vm_compute; reflexivity|]. split; [|discriminate].
    exists (render 0 [len_field 1] ++ [true]). split.
    + exists false, (Some 1), (Some 65536). split; [constructor|].
      assert (L : Z.of_nat (len (map (reading TBool) [VBool true])) = 1) by reflexivity.
      split; [split; intros x [= <-]; rewrite L; lia|].
      exists (render 0 [len_field 1]), [true]. split; [reflexivity|]. split.
      * apply ec_count; [intros k [= <-]; discriminate|]. rewrite L. apply len_general. lia.
      * change [true] with ([true] ++ [] : bits). constructor; [reflexivity|]. constructor.
    + apply (complete_some _ 7); [discriminate|lia| |vm_compute; reflexivity]. repeat constructor; lia.
Qed.
