(** C47: what a dictionary says. *)
From Coq Require Import ZArith List String Ascii Bool Lia Arith.
From Coq Require Import ZifyBool ZifyNat ZifyN.
Import ListNotations.
From Verif Require Import PyBase Schema Encoder Decoder BitFacts Stream Prims Spec SimpleTypes
  RoundTrip Reading Sequences Robust PropsRoundTrip Layout Dict Objects Dicts.
Open Scope string_scope. Open Scope list_scope. Open Scope Z_scope.
Ltac Zify.zify_post_hook ::= Z.div_mod_to_equations.

(** * Reading a dictionary *)

(** A hexadecimal digit by its character code. *)
Inductive digit : ascii -> Z -> Prop :=
| digit_09 c : (48 <= nat_of_ascii c <= 57)%nat -> digit c (Z.of_nat (nat_of_ascii c) - 48)
| digit_af c : (97 <= nat_of_ascii c <= 102)%nat -> digit c (Z.of_nat (nat_of_ascii c) - 87).

(** Two digits for every octet, the high one first. *)
Inductive hex : string -> list Z -> Prop :=
| hex_nil : hex "" []
| hex_cons h l x y s bs : digit h x -> digit l y -> hex s bs ->
    hex (String h (String l s)) (16 * x + y :: bs).

(** The leading bit weighs most. *)
Inductive binary : bits -> Z -> Prop :=
| binary_nil : binary [] 0
| binary_cons b s z : binary s z -> binary (b :: s) (Z.b2z b * 2 ^ Z.of_nat (List.length s) + z).

(** A message without content. *)
Inductive hollow : aval -> Prop :=
| h_unset : hollow AUnset
| h_list l : (forall a, In a l -> hollow a) -> hollow (ASeqOf l)
| h_seq l : (forall a, In (Some a) l -> hollow a) -> hollow (ASeq l).

(** The items of a dictionary against the components and their values ([None]:
    absent), in order: a component with a value has an item under its name, unless
    it has no content; an absent component has no item, or an item that says
    nothing. *)
Inductive items_of : list (comp ty * (option aval -> dict -> Prop)) -> list (option aval) ->
    list (string * dict) -> Prop :=
| i_nil : items_of [] [] []
| i_said c (R : option aval -> dict -> Prop) cas o os d l : R o d -> items_of cas os l ->
    items_of ((c, R) :: cas) (o :: os) ((cname c, d) :: l)
| i_absent c (R : option aval -> dict -> Prop) cas os l : items_of cas os l -> items_of ((c, R) :: cas) (None :: os) l
| i_hollow c (R : option aval -> dict -> Prop) cas a os l : hollow a -> items_of cas os l ->
    items_of ((c, R) :: cas) (Some a :: os) l.

Inductive list_of (R : option aval -> dict -> Prop) : list aval -> list dict -> Prop :=
| lo_nil : list_of R [] []
| lo_said a d l ds : R (Some a) d -> list_of R l ds -> list_of R (a :: l) (d :: ds)
| lo_hollow a l ds : hollow a -> list_of R l ds -> list_of R (a :: l) ds.

(** The value of a component of an untouched SEQUENCE. *)
Definition declared (c : comp ty) : option aval :=
  match cpres c with Dflt d => Some (reading (cty c) d) | _ => None end.

(** [says t (Some a) d]: the dictionary [d] shows the message [a] of type [t].
    [says t None d]: [d] shows an untouched object: None for a CHOICE, at most the
    DEFAULTs of a SEQUENCE. *)
Fixpoint says (t : ty) (o : option aval) (d : dict) {struct t} : Prop :=
  match t, o, d with
  | TBool, Some (ABool b), DBool b' => b' = b
  | TInt _, Some (AInt z), DInt z' => z' = z
  | TEnum _ _ _, Some (AEnum z), DName z' => z' = z
  | TBits _, Some (ABits s), DInt z => binary s z
  | TOcts _, Some (AOcts bs), DHex s => hex s bs
  | TSeqOf _ t', Some (ASeqOf l), DList ds => list_of (says t') l ds
  | TSeq _ root adds groups, Some (ASeq os), DDict l =>
      items_of (att says root ++ att says adds ++ List.concat (map (att says) groups)) os l
  | TSeq _ root adds groups, None, DDict l =>
      items_of (att says root ++ att says adds ++ List.concat (map (att says) groups))
               (map declared (all_comps root adds groups)) l
  | TChoice _ root adds groups, Some (AChoice (Some (i, a))), DDict l =>
      exists ca, nth_error (att says root ++ att says adds ++ List.concat (map (att says) groups)) i = Some ca /\
        ((exists d', l = [(cname (fst ca), d')] /\ snd ca (Some a) d') \/ (l = [] /\ hollow a))
  | TChoice _ _ _ _, Some (AChoice None), DNone => True
  | TChoice _ _ _ _, None, DNone => True
  | _, _, _ => False
  end.

(** * Objects whose dictionary is to be trusted *)

(** Components that count as absent are untouched; the selected component of a
    CHOICE has a value; octets are octets. *)
Definition tidy_opt (ca : comp ty * (val -> Prop)) (s : option val) : Prop :=
  let v := slot_get (fst ca) s in
  if present (cty (fst ca)) v then snd ca v else woken (cty (fst ca)) (fresh (cty (fst ca))) v.

Definition tidy_root (ca : comp ty * (val -> Prop)) (s : option val) : Prop :=
  match cpres (fst ca) with Opt => tidy_opt ca s | _ => snd ca (slot_get (fst ca) s) end.

Definition tidy_member (ca : comp ty * (val -> Prop)) (s : option val) : Prop :=
  tidy_opt ca s /\ tidy_root ca s.

Fixpoint tidy (t : ty) (v : val) {struct t} : Prop :=
  match t, v with
  | TSeq _ root adds groups, VSeq slots =>
      let ss := slots_list (ncomps root adds groups) slots in
      List.length ss = ncomps root adds groups /\
      all_of (zipw tidy_root (att tidy root) ss) /\
      all_of (zipw tidy_opt (att tidy adds) (skipn (List.length root) ss)) /\
      all_of (zipw tidy_member (List.concat (map (att tidy) groups))
                   (skipn (List.length root + List.length adds) ss))
  | TSeqOf _ t', VSeqOf vs => all_of (map (tidy t') vs)
  | TChoice _ _ _ _, VChoice None => True
  | TChoice _ root adds groups, VChoice (Some (i, v')) =>
      match nth_error (att tidy root ++ att tidy adds ++ List.concat (map (att tidy) groups)) i with
      | Some ca => is_value (cty (fst ca)) v' = true /\ snd ca v'
      | None => False
      end
  | TSeq _ _ _ _, _ | TSeqOf _ _, _ | TChoice _ _ _ _, _ => False
  | TOcts _, VOcts bs => Forall (fun b => 0 <= b < 256) bs
  | _, _ => True
  end.

(** DEFAULT values are themselves such objects. *)
Fixpoint tidy_defaults (t : ty) : Prop :=
  match t with
  | TSeq _ root adds groups | TChoice _ root adds groups =>
      all_of (map (fun c => (forall d, cpres c = Dflt d -> tidy (cty c) d) /\ tidy_defaults (cty c)) root) /\
      all_of (map (fun c => (forall d, cpres c = Dflt d -> tidy (cty c) d) /\ tidy_defaults (cty c)) adds) /\
      all_of (map (fun g => all_of (map (fun c => (forall d, cpres c = Dflt d -> tidy (cty c) d) /\ tidy_defaults (cty c)) g)) groups)
  | TSeqOf _ t' => tidy_defaults t'
  | _ => True
  end.

Lemma digit_hex z : 0 <= z < 16 -> digit (hex_digit z) z.
Proof.
  intros H. assert (E : Z.to_nat z = Z.to_nat z) by reflexivity. unfold hex_digit.
  destruct (Z.ltb_spec z 10).
  - assert (C : z = 0 \/ z = 1 \/ z = 2 \/ z = 3 \/ z = 4 \/ z = 5 \/ z = 6 \/ z = 7 \/ z = 8 \/ z = 9) by lia.
    decompose [or] C; subst z; match goal with |- digit ?c ?z => exact (digit_09 c ltac:(vm_compute; lia)) end.
  - assert (C : z = 10 \/ z = 11 \/ z = 12 \/ z = 13 \/ z = 14 \/ z = 15) by lia.
    decompose [or] C; subst z; match goal with |- digit ?c ?z => exact (digit_af c ltac:(vm_compute; lia)) end.
Qed.

Lemma hex_hexlify bs : Forall (fun b => 0 <= b < 256) bs -> hex (hexlify bs) bs.
Proof.
  induction 1 as [|b bs H _ IH]; [constructor|]. cbn [hexlify].
  replace b with (16 * (b / 16) + b mod 16) at 3 by lia.
  constructor; auto; apply digit_hex; lia.
Qed.

(** * The loop over the components *)

Definition said (c : comp ty) (s : option val) (o : option aval) : Prop :=
  forall d, shown c (slot_get c s) = Ok d ->
  (d = DNoValue -> o = None \/ exists a, o = Some a /\ hollow a) /\
  (d <> DNoValue -> says (cty c) o d).

Inductive said3 : list (comp ty) -> list (option val) -> list (option aval) -> Prop :=
| said_nil : said3 [] [] []
| said_cons c s o cs ss os : said c s o -> said3 cs ss os -> said3 (c :: cs) (s :: ss) (o :: os).

Lemma said3_app cs ss os cs' ss' os' : said3 cs ss os -> said3 cs' ss' os' ->
  said3 (cs ++ cs') (ss ++ ss') (os ++ os').
Proof. intros H K. induction H; auto. cbn [app]. now constructor. Qed.

Lemma seq_items_said cs ss os : said3 cs ss os -> forall l, seq_items (att to_dict cs) ss = Ok l ->
  items_of (att says cs) os l /\ (l = [] -> hollow (ASeq os)).
Proof.
  induction 1 as [|c s o cs ss os H _ IH]; intros l E.
  - injection E as <-. split; [constructor|]. intros _. constructor. intros a [].
  - rewrite seq_items_cons in E. destruct (shown c (slot_get c s)) as [d|] eqn:Ed; [|discriminate].
    cbn [bind] in E. destruct (seq_items (att to_dict cs) ss) as [l0|] eqn:El; [|discriminate].
    cbn [bind] in E. injection E as <-. destruct (IH _ eq_refl) as (I & N). destruct (H _ Ed) as (H1 & H2).
    cbn [att map]. fold (att says cs). destruct d.
    + cbn [put]. destruct (H1 eq_refl) as [->|(a & -> & A)].
      * split; [now constructor|]. intros Z0. specialize (N Z0). inversion N; subst. constructor.
        intros a [Q|Q]; [discriminate|auto].
      * split; [now constructor|]. intros Z0. specialize (N Z0). inversion N; subst. constructor.
        intros b [[= <-]|Q]; auto.
    + cbn [put]. split; [|discriminate]. constructor; auto. apply H2. discriminate.
    + cbn [put]. split; [|discriminate]. constructor; auto. apply H2. discriminate.
    + cbn [put]. split; [|discriminate]. constructor; auto. apply H2. discriminate.
    + cbn [put]. split; [|discriminate]. constructor; auto. apply H2. discriminate.
    + cbn [put]. split; [|discriminate]. constructor; auto. apply H2. discriminate.
    + cbn [put]. split; [|discriminate]. constructor; auto. apply H2. discriminate.
    + cbn [put]. split; [|discriminate]. constructor; auto. apply H2. discriminate.
Qed.

Definition tells (t : ty) : Prop := forall b v d, formed t -> plain t = true -> tidy_defaults t -> tidy t v ->
  to_dict t b v = Ok d ->
  (d = DNoValue -> hollow (reading t v)) /\ (d <> DNoValue -> says t (Some (reading t v)) d).

(** What is printed of an untouched object inside another. *)
Definition ghostly (t : ty) : Prop := forall d, formed t -> plain t = true -> tidy_defaults t ->
  to_dict t false (fresh t) = Ok d -> d <> DNoValue -> says t None d.

Lemma binary_bval s : binary s (bval s).
Proof. induction s as [|b s IH]; [constructor|]. rewrite bval_cons. now constructor. Qed.

Lemma tidy_defaults_comps e r a g : tidy_defaults (TSeq e r a g) \/ tidy_defaults (TChoice e r a g) ->
  Forall (fun c => (forall d, cpres c = Dflt d -> tidy (cty c) d) /\ tidy_defaults (cty c)) (all_comps r a g).
Proof.
  intros H. assert (K : tidy_defaults (TSeq e r a g)) by (destruct H; auto). clear H.
  cbn [tidy_defaults] in K. destruct K as (R & A & G).
  apply all_of_map in R, A, G. apply Forall_app; split; [exact R|]. apply Forall_app; split; [exact A|].
  clear -G. induction G as [|x l H _ IH]; cbn [List.concat]; [constructor|].
  apply Forall_app; split; auto. now apply all_of_map in H.
Qed.

Lemma simple_tells t : is_simple t = true -> tells t.
Proof.
  intros S b v d _ _ _ T E. split.
  - intros ->. now apply (simple_dict t b v) in S.
  - intros _. destruct t as [ |c|e r a|c|c| | | ]; try discriminate; destruct v; try discriminate;
      cbn [to_dict] in E; try (injection E as <-; reflexivity).
    + destruct (existsb _ _); [|discriminate]. now injection E as <-.
    + injection E as <-. apply binary_bval.
    + injection E as <-. now apply hex_hexlify.
Qed.

Lemma simple_unvalued t v : is_simple t = true -> is_value t v = false -> hollow (reading t v).
Proof. destruct t; try discriminate; destruct v; try discriminate; intros _ _; constructor. Qed.

Definition comp_told (c : comp ty) : Prop :=
  tells (cty c) /\ ghostly (cty c) /\ formed (cty c) /\ plain (cty c) = true /\ tidy_defaults (cty c) /\
  (is_defaulted c = true -> is_simple (cty c) = true) /\
  (forall d, cpres c = Dflt d -> tidy (cty c) d).

Lemma said_value c s : comp_told c -> tidy (cty c) (slot_get c s) ->
  said c s (Some (reading (cty c) (slot_get c s))).
Proof.
  intros (H & _ & F & P & D & _) T d E. unfold shown in E.
  destruct (is_value (cty c) (slot_get c s) || negb (is_simple (cty c))) eqn:V.
  - destruct (H false _ d F P D T E) as (A & B). split; auto. intros N. right. eauto.
  - injection E as <-. apply orb_false_iff in V as (V & S). apply negb_false_iff in S.
    split; [|congruence]. intros _. right. eexists. split; [reflexivity|]. now apply simple_unvalued.
Qed.

Lemma said_absent c s : comp_told c -> woken (cty c) (fresh (cty c)) (slot_get c s) -> said c s None.
Proof.
  intros (_ & H & F & P & D & _) W d E. split; auto. intros N. unfold shown in E.
  destruct (is_simple (cty c)) eqn:S.
  - apply woken_simple in W; auto. rewrite W in E. destruct (cty c); try discriminate; cbn in E; congruence.
  - cbn [negb] in E. rewrite orb_true_r, fresh_same in E by auto. now apply (H d).
Qed.

Lemma root_said cs ss : Forall comp_told cs ->
  Forall2 (fun c s => tidy_root (c, tidy (cty c)) s) cs ss ->
  said3 cs ss (zipw read_root (att reading cs) ss).
Proof.
  intros P H. revert P. induction H as [|c s cs ss Hc H IH]; intros P; [constructor|].
  apply Forall_cons_iff in P as (Pc & P). cbn [att map zipw]. constructor; [|now apply IH].
  unfold tidy_root, tidy_opt, read_root in *. cbn [fst snd] in *.
  destruct (cpres c); try (now apply said_value).
  destruct (present _ _); [now apply said_value|now apply said_absent].
Qed.

Lemma adds_said cs ss : Forall comp_told cs ->
  Forall2 (fun c s => tidy_opt (c, tidy (cty c)) s) cs ss ->
  said3 cs ss (zipw read_ext (att reading cs) ss).
Proof.
  intros P H. revert P. induction H as [|c s cs ss Hc H IH]; intros P; [constructor|].
  apply Forall_cons_iff in P as (Pc & P). cbn [att map zipw]. constructor; [|now apply IH].
  unfold tidy_opt, read_ext in *. cbn [fst snd] in *.
  destruct (present _ _); [now apply said_value|now apply said_absent].
Qed.

Lemma groups_said gs : forall ss, Forall comp_told (List.concat gs) ->
  Forall2 (fun c s => tidy_member (c, tidy (cty c)) s) (List.concat gs) ss ->
  said3 (List.concat gs) ss (read_groups (map (att reading) gs) ss).
Proof.
  induction gs as [|g gs IH]; intros ss P H.
  - inversion H. constructor.
  - cbn [List.concat map read_groups] in *. apply Forall_app in P as (P1 & P2).
    apply Forall2_app_inv_l in H as (s1 & s2 & H1 & H2 & ->).
    pose proof (Forall2_length _ _ _ H1) as L.
    rewrite att_length, skipn_len_app by auto. apply said3_app; [|now apply IH].
    clear IH P2 H2. unfold read_group. rewrite att_fst, group_valued_app by lia.
    destruct (group_valued g s1) eqn:V.
    + rewrite zipw_app_r by (rewrite att_length; lia). apply root_said; auto.
      eapply Forall2_impl'; [|exact H1]. intros c s (_ & K). exact K.
    + clear L. revert P1 V. induction H1 as [|c s g s1 (Hc & _) _ IH]; intros P V; [constructor|].
      apply Forall_cons_iff in P as (Pc & P). rewrite group_valued_cons in V. apply orb_false_iff in V as (V1 & V).
      cbn [att map]. constructor; [|now apply IH]. unfold tidy_opt in Hc. cbn [fst snd] in Hc. rewrite V1 in Hc.
      now apply said_absent.
Qed.

Lemma fresh_said cs : Forall comp_told cs -> said3 cs (repeat None (List.length cs)) (map declared cs).
Proof.
  induction 1 as [|c cs Pc _ IH]; [constructor|]. cbn [List.length repeat map]. constructor; auto.
  unfold declared. destruct (cpres c) as [| |d] eqn:E.
  - apply said_absent; auto. cbn [slot_get]. rewrite E. apply woken_refl, shaped_fresh.
  - apply said_absent; auto. cbn [slot_get]. rewrite E. apply woken_refl, shaped_fresh.
  - pose proof (said_value c None Pc) as H. cbn [slot_get] in H. rewrite E in H. apply H. now apply Pc.
Qed.

Lemma told t : tells t /\ ghostly t.
Proof.
  induction t as [t S0|e r a g IH|c t (IH & _)|e r a g IH] using ty_ind2.
  - split; [now apply simple_tells|]. intros d _ _ _ E.
    destruct t; try discriminate; cbn in E; discriminate.
  - assert (CT : forall A : Prop, (formed (TSeq e r a g) -> plain (TSeq e r a g) = true -> tidy_defaults (TSeq e r a g) ->
       Forall comp_told (all_comps r a g) -> A) ->
       formed (TSeq e r a g) -> plain (TSeq e r a g) = true -> tidy_defaults (TSeq e r a g) -> A).
    { intros A K F P D. apply K; auto. clear K.
      apply (fun H => formed_comps e r a g (or_introl H)) in F as (_ & F).
      pose proof (plain_comps e r a g (or_introl P)) as Q.
      pose proof (tidy_defaults_comps e r a g (or_introl D)) as T. rewrite Forall_forall in *.
      intros c Hc. destruct (F c Hc), (Q c Hc), (T c Hc), (IH c Hc). unfold comp_told. auto 10. }
    split.
    + intros b v d F P D T E. revert F P D. apply CT. intros _ _ _ C. clear CT IH.
      destruct v as [| | | | | |slots| |]; try contradiction.
      cbn [tidy] in T. cbv zeta in T. destruct T as (L & T1 & T2 & T3).
      cbn [to_dict] in E. rewrite all_att in E. cbn [reading]. set (ss := slots_list _ _) in *. clearbody ss.
      destruct (seq_items _ _) as [l|] eqn:Ei; [|discriminate]. cbn [bind] in E.
      assert (Es : exists s1 s2 s3, ss = s1 ++ s2 ++ s3 /\ len s1 = len r /\ len s2 = len a /\ len s3 = len (List.concat g)).
      { unfold ncomps, all_comps in L. rewrite !app_length in L.
        exists (firstn (len r) ss), (firstn (len a) (skipn (len r) ss)), (skipn (len a) (skipn (len r) ss)).
        rewrite !firstn_skipn. repeat split; rewrite ?firstn_length, ?skipn_length; lia. }
      destruct Es as (s1 & s2 & s3 & -> & L1 & L2 & L3). clear L.
      rewrite skipn_len_app in * by auto.
      replace (skipn (len r + len a) (s1 ++ s2 ++ s3)) with s3 in *
        by (rewrite app_assoc; symmetry; apply skipn_len_app; rewrite app_length; lia).
      rewrite concat_att in T3. rewrite !zipw_app_r in * by (rewrite att_length; lia).
      rewrite !zipw_att in T1, T2, T3. apply Forall2_all_of in T1; auto. apply Forall2_all_of in T2; auto.
      apply Forall2_all_of in T3; auto.
      unfold all_comps in C. rewrite !Forall_app in C. destruct C as (C1 & C2 & C3).
      pose proof (said3_app _ _ _ _ _ _ (root_said _ _ C1 T1)
        (said3_app _ _ _ _ _ _ (adds_said _ _ C2 T2) (groups_said _ _ C3 T3))) as S.
      destruct (seq_items_said _ _ _ S _ Ei) as (I & N).
      split.
      * intros ->. apply N. destruct b; [discriminate|]. destruct l; [auto|discriminate].
      * intros X. assert (Ed : d = DDict l) by (destruct b; [congruence|destruct l; congruence]). subst d.
        cbn [says]. rewrite all_att. exact I.
    + intros d F P D E X. revert F P D. apply CT. intros _ _ _ C.
      cbn [fresh to_dict slots_list] in E. rewrite all_att in E.
      destruct (seq_items _ _) as [l|] eqn:Ei; [|discriminate]. cbn [bind] in E.
      destruct (seq_items_said _ _ _ (fresh_said _ C) _ Ei) as (I & _).
      assert (Ed : d = DDict l) by (destruct l; congruence). subst d.
      cbn [says]. rewrite all_att. exact I.
  - split.
    + intros b v d F P D T E. destruct v as [| | | | | | |vs|]; try contradiction.
      cbn [tidy formed plain tidy_defaults] in *. apply all_of_map in T.
      cbn [to_dict] in E. destruct (list_items _ _ vs) as [l|] eqn:El; [|discriminate]. cbn [bind reading] in *.
      assert (K : list_of (says t) (map (reading t) vs) l /\ (l = [] -> forall a, In a (map (reading t) vs) -> hollow a)).
      { clear E. revert l El. induction T as [|v vs T _ IHv]; intros l E.
        - injection E as <-. split; [constructor|]. intros _ a [].
        - cbn [list_items map] in *. destruct (is_value t v || negb (is_simple t)) eqn:V.
          + destruct (to_dict t false v) as [d0|] eqn:Ed; [|discriminate]. cbn [bind] in E.
            destruct (list_items _ _ vs) as [l0|] eqn:El; [|discriminate]. cbn [bind] in E. injection E as <-.
            destruct (IHv _ eq_refl) as (A & B). destruct (IH false v d0 F P D T Ed) as (A1 & A2).
            assert (X : d0 = DNoValue \/ d0 <> DNoValue) by (destruct d0; auto; right; discriminate).
            destruct X as [->|X].
            * split; [apply lo_hollow; auto|]. intros Z0 a0 [<-|H]; auto.
            * replace (match d0 with DNoValue => l0 | _ => d0 :: l0 end) with (d0 :: l0) by (destruct d0; congruence).
              split; [apply lo_said; auto|discriminate].
          + apply orb_false_iff in V as (V & S). apply negb_false_iff in S.
            destruct (IHv _ E) as (A & B). split; [apply lo_hollow; auto using simple_unvalued|].
            intros Z0 a0 [<-|H]; auto using simple_unvalued. }
      destruct K as (K & N). split.
      * intros ->. constructor. apply N. destruct b; [discriminate|]. destruct l; [auto|discriminate].
      * intros X. assert (Ed : d = DList l) by (destruct b; [congruence|destruct l; congruence]). now subst d.
    + intros d _ _ _ E X. injection E as <-. now elim X.
  - split.
    + intros b v d F P D T E. destruct v as [| | | | | | | |[(i, v)|]]; try contradiction.
      * cbn [tidy to_dict reading] in *. rewrite all_att, nth_error_att in T. rewrite all_att, nth_error_att in E.
        rewrite all_att, nth_error_att.
        destruct (nth_error (all_comps r a g) i) as [c|] eqn:Ec; [|contradiction]. cbn [fst snd] in *.
        destruct T as (V & T). rewrite V in E. destruct (to_dict (cty c) false v) as [d0|] eqn:Ed; [|discriminate].
        cbn [bind] in E. injection E as <-. split; [discriminate|]. intros _.
        cbn [says]. rewrite all_att, nth_error_att, Ec. eexists; split; [reflexivity|]. cbn [fst snd].
        apply nth_error_In in Ec. apply (fun H => formed_comps e r a g (or_intror H)) in F as (_ & F).
        pose proof (plain_comps e r a g (or_intror P)) as Q.
        pose proof (tidy_defaults_comps e r a g (or_intror D)) as Td. rewrite Forall_forall in *.
        destruct (F c Ec), (Q c Ec), (Td c Ec), (IH c Ec) as (IHc & _).
        destruct (IHc false v d0) as (A & B); auto.
        assert (X : d0 = DNoValue \/ d0 <> DNoValue) by (destruct d0; auto; right; discriminate).
        destruct X as [->|X].
        -- right. split; auto.
        -- left. exists d0. split; auto. unfold put. destruct d0; congruence.
      * injection E as <-. split; [discriminate|]. intros _. exact I.
    + intros d _ _ _ E X. injection E as <-. exact I.
Qed.

(** * C47 *)

Lemma root_prints t v : to_dict t true v <> Ok DNoValue.
Proof.
  destruct (is_simple t) eqn:S; [now apply simple_dict|]. destruct t; try discriminate; destruct v; try discriminate.
  - cbn [to_dict]. destruct (seq_items _ _); discriminate.
  - cbn [to_dict]. destruct (list_items _ _ _); discriminate.
  - cbn [to_dict]. destruct sel as [(i, x)|]; [|discriminate]. destruct (nth_error _ _) as [(c, f)|]; [|discriminate].
    destruct (is_value _ _); [|discriminate]. destruct (f false x); discriminate.
Qed.

(** C47, for objects whose absent components are untouched and whose CHOICEs have
    a value selected, of types with DEFAULT on simple components only. *)
Theorem C47_dictionary_partial t v d : formed t -> plain t = true -> tidy_defaults t -> tidy t v ->
  to_dict t true v = Ok d -> says t (Some (reading t v)) d.
Proof.
  intros F P D T E. destruct (told t) as (H & _). apply (H true v d F P D T E).
  intros ->. now apply (root_prints t v).
Qed.

(** The receiver's dictionary shows the sender's message. *)
Theorem C47_received_partial t v bs m d : supported t v -> top_ok t v -> formed t -> plain t = true ->
  idle t v -> tidy_defaults t -> tidy t v ->
  encode t v = Ok bs -> decode bs t = Ok m -> to_dict t true m = Ok d -> says t (Some (reading t v)) d.
Proof.
  intros S T F P I D Y E Dm Ed. destruct (C30_same_dict_partial t v bs S T F P I E) as (m' & Dm' & K).
  rewrite Dm in Dm'. injection Dm' as <-. rewrite K in Ed. eapply C47_dictionary_partial; eauto.
Qed.

(** SEQUENCE { o OCTET STRING, b BIT STRING OPTIONAL, n INTEGER DEFAULT 5,
    l SEQUENCE OF SEQUENCE { f BOOLEAN OPTIONAL }, c CHOICE { x BOOLEAN,
    e ENUMERATED }, ..., s SEQUENCE { d INTEGER DEFAULT 7, m BOOLEAN } OPTIONAL, z BOOLEAN }. *)
Definition C47_ty : ty :=
  TSeq true
    [Comp "o" Mand (TOcts CNone); Comp "b" Opt (TBits CNone); Comp "n" (Dflt (VInt 5)) (TInt CNone);
     Comp "l" Mand (TSeqOf CNone (TSeq false [Comp "f" Opt TBool] [] []));
     Comp "c" Mand (TChoice false [Comp "x" Mand TBool; Comp "e" Mand (TEnum false [0; 1] [])] [] [])]
    [Comp "s" Opt (TSeq false [Comp "d" (Dflt (VInt 7)) (TInt CNone); Comp "m" Mand TBool] [] []); Comp "z" Mand TBool] [].

Definition C47_val : val :=
  VSeq (Some [Some (VOcts [165; 15]); Some (VBits [true; true; false]); None;
    Some (VSeqOf [VSeq (Some [Some (VBool true)]); VSeq (Some [None])]);
    Some (VChoice (Some (1%nat, VEnum 1))); None; None]).

Ltac cases :=
  repeat match goal with
  | |- _ /\ _ => split
  | |- all_of [] => apply all_of_nil
  | |- all_of (_ :: _) => apply all_of_cons
  | |- True => exact I
  | |- forall d, Dflt _ = Dflt d -> _ => intros ? [= <-]
  | |- forall d, _ = Dflt d -> _ => discriminate
  | |- Forall _ [] => constructor
  | |- Forall _ (_ :: _) => constructor
  | |- _ => progress cbn -[all_of woken]
  | |- _ => reflexivity
  end.

Example C47_case : formed C47_ty /\ plain C47_ty = true /\ tidy_defaults C47_ty /\ tidy C47_ty C47_val /\
  reading C47_ty C47_val = ASeq [Some (AOcts [165; 15]); Some (ABits [true; true; false]); Some (AInt 5);
    Some (ASeqOf [ASeq [Some (ABool true)]; ASeq [None]]); Some (AChoice (Some (1%nat, AEnum 1))); None; None] /\
  to_dict C47_ty true C47_val = Ok (DDict [("o", DHex "a50f"); ("b", DInt 6); ("n", DInt 5);
    ("l", DList [DDict [("f", DBool true)]]); ("c", DDict [("e", DName 1)]); ("s", DDict [("d", DInt 7)])]).
Proof.
  split; [cbv -[all_of]; concrete|]. split; [reflexivity|].
  split; [|split; [|split; reflexivity]]; cbn -[all_of tidy woken]; cases; try lia.
  apply woken_refl. exact (shaped_fresh _).
Qed.

(** The digits of every octet have their order: "5af0" is not the value above. *)
Example C47_order : ~ says (TOcts CNone) (Some (AOcts [165; 15])) (DHex "5af0").
Proof.
  cbn [says]. intros H. inversion H as [|h l x y s bs A B C E F]. subst.
  inversion A; subst; inversion B; subst; vm_compute in *; lia.
Qed.

(** CHOICE { a SEQUENCE { l SEQUENCE OF BOOLEAN } } with an empty list: the
    message is sent, its dictionary says that nothing is selected. *)
Theorem C47_choice_refuted : exists t v bs d,
  formed t /\ plain t = true /\ tidy_defaults t /\ encode t v = Ok bs /\ decode bs t = Ok v /\
  to_dict t true v = Ok d /\ ~ says t (Some (reading t v)) d.
Proof.
  exists (TChoice false [Comp "a" Mand (TSeq false [Comp "l" Mand (TSeqOf (CSeqSize false (Some 0) None) TBool)] [] [])] [] []),
         (VChoice (Some (0%nat, VSeq (Some [Some (VSeqOf [])])))), [0], DNone.
  split; [cbv -[all_of]; concrete|]. split; [reflexivity|].
  split; [cbn -[all_of tidy woken]; cases; discriminate|]. split; [vm_compute; reflexivity|]. split; [vm_compute; reflexivity|].
  split; [reflexivity|]. intros X. exact X.
Qed.

(** SEQUENCE { s SEQUENCE { m BOOLEAN, o SEQUENCE { k BOOLEAN,
    e SEQUENCE OF SEQUENCE { y BOOLEAN, x BOOLEAN } } } OPTIONAL }: a component with
    an incomplete list is silently left out of the message; its dictionary shows
    what it holds. *)
Theorem C47_incomplete_refuted : exists t v d,
  formed t /\ plain t = true /\ tidy_defaults t /\ encode t v = Ok [0] /\ reading t v = ASeq [None] /\
  to_dict t true v = Ok d /\ d = DDict [("s", DDict [("o", DDict [("e", DList [DDict [("x", DBool true)]])])])] /\
  ~ says t (Some (reading t v)) d.
Proof.
  exists (TSeq false [Comp "s" Opt (TSeq false [Comp "m" Mand TBool; Comp "o" Mand (TSeq false [Comp "k" Mand TBool; Comp "e" Mand (TSeqOf CNone (TSeq false [Comp "y" Mand TBool; Comp "x" Mand TBool] [] []))] [] [])] [] [])] [] []),
         (VSeq (Some [Some (VSeq (Some [None; Some (VSeq (Some [None; Some (VSeqOf [VSeq (Some [None; Some (VBool true)]); VSeq None])]))]))])).
  eexists.
  split; [cbv -[all_of]; concrete|]. split; [reflexivity|].
  split; [cbn -[all_of tidy woken]; cases; discriminate|]. split; [vm_compute; reflexivity|]. split; [vm_compute; reflexivity|].
  split; [vm_compute; reflexivity|]. split; [reflexivity|]. intros X. vm_compute in X.
  repeat match goal with
  | H : False |- _ => contradiction
  | H : items_of _ _ _ |- _ => inversion H; clear H; subst
  end.
Qed.
