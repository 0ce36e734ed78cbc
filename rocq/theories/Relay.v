(** A message that is decoded and encoded again: the octets are those that were
    received (property C55). *)
From Coq Require Import ZArith List String Bool Lia Arith.
From Coq Require Import ZifyBool ZifyNat ZifyN.
Import ListNotations.
From Verif Require Import PyBase Schema Encoder Decoder BitFacts Stream Prims Spec SimpleTypes.
From Verif Require Import RoundTrip Reading Sequences Robust Dict Objects Totality PropsRoundTrip X691 Conform.
Open Scope Z_scope.

(** * Groups that are sent have their mandatory components *)

Definition whole_root (ca : comp ty * (val -> Prop)) (s : option val) : Prop :=
  let v := slot_get (fst ca) s in
  match cpres (fst ca) with
  | Mand => snd ca v
  | Opt => present (cty (fst ca)) v = true -> snd ca v
  | Dflt _ => True
  end.

Definition whole_add (ca : comp ty * (val -> Prop)) (s : option val) : Prop :=
  let v := slot_get (fst ca) s in present (cty (fst ca)) v = true -> snd ca v.

Definition there (c : comp ty) (s : option val) : Prop :=
  is_mandatory c = true -> present (cty c) (slot_get c s) = true.

Definition whole_group (g : list (comp ty * (val -> Prop))) (ss : list (option val)) : Prop :=
  group_valued (map fst g) ss = true ->
  all_of (zipw whole_root g ss) /\ all_of (zipw there (map fst g) ss).

Fixpoint whole_groups (gs : list (list (comp ty * (val -> Prop)))) (ss : list (option val)) : Prop :=
  match gs with
  | [] => True
  | g :: gs' => whole_group g ss /\ whole_groups gs' (skipn (List.length g) ss)
  end.

(** In every part of the object that is sent, an addition group with one of its
    components has all its mandatory components. *)
Fixpoint whole (t : ty) (v : val) {struct t} : Prop :=
  match t, v with
  | TSeq ext root adds groups, VSeq slots =>
      let ss := slots_list (ncomps root adds groups) slots in
      all_of (zipw whole_root (att whole root) ss) /\
      all_of (zipw whole_add (att whole adds) (skipn (List.length root) ss)) /\
      whole_groups (map (att whole) groups) (skipn (List.length root + List.length adds) ss)
  | TSeqOf _ t', VSeqOf vs => all_of (map (whole t') vs)
  | TChoice _ root adds groups, VChoice (Some (i, v')) =>
      match nth_error (att whole root ++ att whole adds
                       ++ List.concat (map (att whole) groups)) i with
      | Some ca => snd ca v'
      | None => True
      end
  | _, _ => True
  end.

(** * Two lists of slots that are encoded alike *)

Inductive along (R : comp ty -> option val -> option val -> Prop) :
  list (comp ty) -> list (option val) -> list (option val) -> Prop :=
| along_nil : along R [] [] []
| along_cons c s s' cs ss ss' : R c s s' -> along R cs ss ss' -> along R (c :: cs) (s :: ss) (s' :: ss').

Definition root_step (c : comp ty) (v : val) : res (bits * list field) :=
  match cpres c with
  | Opt =>
      if is_value (cty c) v && comp_values_ok v
      then let* fs := enc (cty c) v in Ok ([true], fs)
      else Ok ([false], [])
  | Dflt d =>
      let* ne := raw_ne d v in
      if ne then let* fs := enc (cty c) v in Ok ([true], fs)
      else Ok ([false], [])
  | Mand => let* fs := enc (cty c) v in Ok ([], fs)
  end.

Definition step_alike (c : comp ty) (s s' : option val) : Prop :=
  forall r, root_step c (slot_get c s) = Ok r -> root_step c (slot_get c s') = Ok r.

Lemma enc_root_cons look c cs : enc_root enc look (c :: cs) =
  let* v := look (cname c) in
  let* bf := root_step c v in
  let* r := enc_root enc look cs in Ok (fst bf ++ fst r, snd bf ++ snd r).
Proof. reflexivity. Qed.

Lemma root_alike look look' cs ss ss' r : along step_alike cs ss ss' ->
  Forall2 (looks look) cs ss -> Forall2 (looks look') cs ss' ->
  enc_root enc look cs = Ok r -> enc_root enc look' cs = Ok r.
Proof.
  intros A. revert r. induction A as [|c s s' cs ss ss' St A IH]; intros r L L' E; [exact E|].
  inversion L as [|? ? ? ? L1 L2]; subst. inversion L' as [|? ? ? ? L1' L2']; subst.
  rewrite enc_root_cons in *. unfold looks in L1, L1'. rewrite L1 in E. rewrite L1'. cbn [bind] in *.
  destruct (root_step c (slot_get c s)) as [bf|] eqn:B; [|discriminate]. rewrite (St _ B). cbn [bind] in *.
  destruct (enc_root enc look cs) as [r2|]; [|discriminate]. rewrite (IH r2) by auto. exact E.
Qed.

(** Presence is the same, and nothing that had no value has one. *)
Definition calm (c : comp ty) (s s' : option val) : Prop :=
  present (cty c) (slot_get c s') = present (cty c) (slot_get c s) /\
  (is_value (cty c) (slot_get c s') = true -> is_value (cty c) (slot_get c s) = true).

Lemma scan_alike look look' cs ss ss' prev ps : along calm cs ss ss' ->
  Forall2 (looks look) cs ss -> Forall2 (looks look') cs ss' ->
  group_scan look prev cs = Ok ps -> group_scan look' prev cs = Ok ps.
Proof.
  intros A. revert prev ps. induction A as [|c s s' cs ss ss' (P & V) A IH]; intros prev ps L L' E; [exact E|].
  inversion L as [|? ? ? ? L1 L2]; subst. inversion L' as [|? ? ? ? L1' L2']; subst.
  cbn [group_scan] in *. unfold looks in L1, L1'. rewrite L1 in E. rewrite L1'. cbn [bind] in *.
  fold (group_scan look) in E. fold (group_scan look'). rewrite !present_eq in P.
  set (v := slot_get c s) in *. set (v' := slot_get c s') in *.
  assert (H : (let* here := (if is_value (cty c) v' then
             match prev_missing prev with
             | Some nm => Err (MandatoryFieldNotPresentInExtensionGroup nm)
             | None => Ok (comp_values_ok v')
             end else Ok false) in Ok here) = Ok (is_value (cty c) v && comp_values_ok v) /\
          (if is_value (cty c) v then
             match prev_missing prev with
             | Some nm => Err (MandatoryFieldNotPresentInExtensionGroup nm)
             | None => Ok (comp_values_ok v)
             end else Ok false) = Ok (is_value (cty c) v && comp_values_ok v)).
  { destruct (is_value (cty c) v) eqn:Vv.
    - destruct (prev_missing prev); [discriminate|]. split; [|reflexivity].
      destruct (is_value (cty c) v'); cbn [andb bind] in *; congruence.
    - split; [|reflexivity]. destruct (is_value (cty c) v'); [specialize (V eq_refl); discriminate|reflexivity]. }
  destruct H as (H1 & H2). rewrite H2 in E. cbn [bind] in E.
  match type of H1 with bind ?x _ = _ => destruct x as [b|]; [|discriminate] end. cbn [bind] in H1. injection H1 as ->.
  cbn [bind]. destruct (group_scan look _ cs) as [ps2|] eqn:E2; [|discriminate]. rewrite (IH _ _ L2 L2' E2). exact E.
Qed.

Definition add_alike (c : comp ty) (s s' : option val) : Prop :=
  calm c s s' /\ (present (cty c) (slot_get c s) = true -> forall f, enc (cty c) (slot_get c s) = Ok f ->
                  enc (cty c) (slot_get c s') = Ok f).

Lemma adds_alike look look' cs ss ss' prev r : along add_alike cs ss ss' ->
  Forall2 (looks look) cs ss -> Forall2 (looks look') cs ss' ->
  enc_adds enc look prev cs = Ok r -> enc_adds enc look' prev cs = Ok r.
Proof.
  intros A. revert prev r. induction A as [|c s s' cs ss ss' ((P & V) & Ee) A IH]; intros prev r L L' E; [exact E|].
  inversion L as [|? ? ? ? L1 L2]; subst. inversion L' as [|? ? ? ? L1' L2']; subst.
  cbn [enc_adds] in *. unfold looks in L1, L1'. rewrite L1 in E. rewrite L1'. cbn [bind] in *.
  fold (enc_adds enc look) in *. fold (enc_adds enc look'). rewrite !present_eq in P. rewrite present_eq in Ee.
  set (v := slot_get c s) in *. set (v' := slot_get c s') in *.
  match type of E with bind ?x _ = _ => destruct x as [bf|] eqn:B; [|discriminate] end. cbn [bind] in E.
  assert (G : (if is_value (cty c) v' then
            match prev_missing prev with
            | Some nm => Err (MandatoryExtensionFieldNotPresent nm)
            | None =>
                if comp_values_ok v' then
                  let* fs := enc (cty c) v' in
                  let* o := encode_open_type_field fs in Ok (true, o)
                else Ok (false, [])
            end
          else Ok (false, [])) = Ok bf).
  { destruct (is_value (cty c) v) eqn:Vv.
    - destruct (prev_missing prev); [discriminate|]. cbn [andb] in *.
      destruct (comp_values_ok v).
      + apply andb_true_iff in P as (-> & ->). destruct (enc (cty c) v) as [f|]; [|discriminate].
        now rewrite (Ee eq_refl f eq_refl).
      + destruct (is_value (cty c) v'); [|exact B]. cbn [andb] in P. rewrite P. exact B.
    - destruct (is_value (cty c) v'); [specialize (V eq_refl); discriminate|exact B]. }
  rewrite G. cbn [bind].
  destruct (enc_adds enc look _ cs) as [r2|] eqn:E2; [|discriminate]. rewrite (IH _ _ L2 L2' E2). exact E.
Qed.

(** A group: presence alike, and encoded alike when it is sent. *)
Definition group_alike (g : list (comp ty)) (sg sg' : list (option val)) : Prop :=
  along calm g sg sg' /\ (group_valued g sg = true -> along step_alike g sg sg').

Inductive groupwise : list (list (comp ty)) -> list (list (option val)) -> list (list (option val)) -> Prop :=
| gw_nil : groupwise [] [] []
| gw_cons g s s' gs ss ss' : group_alike g s s' -> groupwise gs ss ss' -> groupwise (g :: gs) (s :: ss) (s' :: ss').

Lemma along_len R cs ss ss' : along R cs ss ss' -> len cs = len ss /\ len cs = len ss'.
Proof. induction 1; cbn [List.length]; lia. Qed.

Lemma groups_alike look look' gs sgs sgs' prevg r : groupwise gs sgs sgs' ->
  Forall2 (looks look) (List.concat gs) (List.concat sgs) ->
  Forall2 (looks look') (List.concat gs) (List.concat sgs') ->
  enc_groups enc look prevg gs = Ok r -> enc_groups enc look' prevg gs = Ok r.
Proof.
  intros A. revert prevg r. induction A as [|g s s' gs ss ss' (Ca & St) A IH]; intros prevg r L L' E; [exact E|].
  cbn [List.concat] in L, L'. destruct (along_len _ _ _ _ Ca) as (N & N').
  apply Forall2_app_l in L as (L1 & L2). apply Forall2_app_l in L' as (L1' & L2').
  rewrite firstn_len_app in L1, L1' by auto. rewrite skipn_len_app in L2, L2' by auto.
  cbn [enc_groups] in *. fold (enc_groups enc look) in E. fold (enc_groups enc look').
  destruct (group_scan look None g) as [ps|] eqn:Sc; [|discriminate]. cbn [bind] in E.
  rewrite (scan_alike look look' g s s' None ps) by auto. cbn [bind].
  rewrite (group_scan_present look g s None ps) in * by auto.
  match type of E with bind ?x _ = _ => destruct x as [bf|] eqn:B; [|discriminate] end. cbn [bind] in E.
  match goal with |- bind ?x _ = _ => assert (x = Ok bf) as -> end.
  { destruct (group_sent g s) eqn:Gs; [|exact B].
    match type of B with bind ?x _ = _ => destruct x as [u|]; [|discriminate] end. cbn [bind] in *.
    destruct (enc_root enc look g) as [rr|] eqn:Er; [|discriminate].
    rewrite (root_alike look look' g s s' rr) by auto. exact B. }
  cbn [bind]. destruct (enc_groups enc look (Some ps) gs) as [r2|] eqn:E2; [|discriminate].
  rewrite (IH _ _ L2 L2' E2). exact E.
Qed.

(** * What was decoded is encoded like what was encoded *)

Definition relayed (t : ty) : Prop := forall v fs, supported t v -> shaped t v -> whole t v ->
  enc t v = Ok fs -> enc t (canon t v) = Ok fs.

Lemma fresh_value t v : shaped t v -> is_value t v = false -> is_value t (fresh t) = false.
Proof.
  intros Sh V. destruct t; try reflexivity. cbn [fresh]. destruct v as [ | | | | | |slots| |]; try contradiction Sh.
  destruct slots as [l|]; [|exact V]. rewrite is_value_none. rewrite is_value_seq in V. apply orb_false_iff in V as (V & _).
  cbn [shaped] in Sh. destruct Sh as (_ & Z & _).
  cbn [comps_of] in *. destruct (all_comps root adds groups) as [|c cs] eqn:A; [reflexivity|].
  destruct (forallb _ (c :: cs)) eqn:Fm; [|reflexivity]. exfalso.
  assert (M : seq_mand l (c :: cs) = true); [|congruence]. clear - Fm. revert Fm. generalize (c :: cs). clear c cs.
  induction l as [|s l IH]; intros cs Fm; [exact Fm|]. destruct cs as [|c cs]; [reflexivity|].
  cbn [forallb] in Fm. apply andb_true_iff in Fm as (F1 & F2). cbn [seq_mand]. fold seq_mand. rewrite F1, IH by auto. reflexivity.
Qed.

Lemma raw_ne_canon t d v b : raw_ne d v = Ok b -> canon t v = v.
Proof. destruct d, v; try discriminate; destruct t; reflexivity. Qed.

Lemma step_canon c s : relayed (cty c) -> comp_inv c s -> shaped (cty c) (slot_get c s) ->
  whole_root (c, whole (cty c)) s -> step_alike c s (canon_root (c, canon (cty c)) s).
Proof.
  intros K (S & D & E) Sh W r. unfold root_step, canon_root. cbn [fst snd]. cbv zeta.
  set (v := slot_get c s) in *. unfold sent_root in *.
  unfold supp_root in S. unfold whole_root in W. cbn [fst snd] in S, W. cbv zeta in S, W. fold v in S, W.
  destruct (cpres c) as [| |d] eqn:P.
  - cbn [slot_get]. destruct (E eq_refl) as (f & Ef). rewrite Ef, (K v f) by auto. auto.
  - rewrite <- !present_eq. destruct (present (cty c) v) eqn:V.
    + cbn [slot_get]. destruct (S eq_refl) as (C & Sv). destruct (E eq_refl) as (f & Ef).
      rewrite (keeps_all (kept := octs_ok) (cty c) v f) by auto. rewrite Ef, (K v f) by auto. auto.
    + cbn [slot_get]. rewrite P, fresh_absent. auto.
  - destruct S as (SD & Sv). destruct (D d eq_refl) as (b & B). rewrite B in *.
    pose proof (default_decided _ _ _ SD B) as DD. destruct b.
    + cbn [slot_get]. rewrite (raw_ne_canon (cty c) d v true B), B. auto.
    + cbn [slot_get]. rewrite P. pose proof (proj1 DD eq_refl) as Hd. rewrite <- Hd in B |- *. rewrite B. auto.
Qed.

Lemma calm_canon_root c s : comp_inv c s -> shaped (cty c) (slot_get c s) ->
  (present (cty c) (slot_get c s) = true -> contentful (cty c) (slot_get c s)) -> there c s ->
  calm c s (canon_root (c, canon (cty c)) s).
Proof.
  intros (S & D & E) Sh C Th. unfold calm, canon_root. cbn [fst snd]. cbv zeta.
  unfold there, is_mandatory in Th.
  set (v := slot_get c s) in *. unfold sent_root in *.
  unfold supp_root in S. cbn [fst snd] in S. cbv zeta in S. fold v in S.
  destruct (cpres c) as [| |d] eqn:P.
  - specialize (Th eq_refl). cbn [slot_get]. destruct (E eq_refl) as (f & Ef).
    rewrite (keeps_all (kept := octs_ok) (cty c) v f) by auto. split; [auto|]. intros _. now apply present_value.
  - destruct (present (cty c) v) eqn:V.
    + cbn [slot_get]. destruct (S eq_refl) as (C' & Sv). destruct (E eq_refl) as (f & Ef).
      rewrite (keeps_all (kept := octs_ok) (cty c) v f) by auto. split; [auto|]. intros _. now apply present_value.
    + cbn [slot_get]. rewrite P. split; [apply fresh_absent|]. intros F.
      destruct (is_value (cty c) v) eqn:Iv; auto. now rewrite (fresh_value (cty c) v) in F.
  - destruct S as (SD & Sv). destruct (D d eq_refl) as (b & B). rewrite B in *.
    pose proof (default_decided _ _ _ SD B) as DD. destruct b.
    + cbn [slot_get]. rewrite (raw_ne_canon (cty c) d v true B). auto.
    + cbn [slot_get]. rewrite P. rewrite <- (proj1 DD eq_refl). auto.
Qed.

Lemma calm_none c s : shaped (cty c) (slot_get c s) ->
  (is_defaulted c = true -> present (cty c) (slot_get c s) = true) -> present (cty c) (slot_get c s) = false ->
  calm c s None.
Proof.
  intros Sh D P. unfold calm. unfold is_defaulted in D.
  assert (G : slot_get c None = fresh (cty c)) by (cbn [slot_get]; destruct (cpres c); auto; specialize (D eq_refl); congruence).
  rewrite G, fresh_absent, P. split; [auto|]. intros F. destruct (is_value (cty c) (slot_get c s)) eqn:Iv; auto.
  now rewrite (fresh_value (cty c) (slot_get c s)) in F.
Qed.

Lemma add_canon c s : relayed (cty c) -> add_inv c s -> shaped (cty c) (slot_get c s) ->
  whole_add (c, whole (cty c)) s -> add_alike c s (canon_add (c, canon (cty c)) s).
Proof.
  intros K ((D & S) & E) Sh W. unfold canon_add, whole_add in *. cbn [fst snd] in *. cbv zeta. unfold sent_add in *.
  destruct (present (cty c) (slot_get c s)) eqn:V.
  - destruct (S eq_refl) as (C & Sv & _). destruct (E eq_refl) as (f & Ef). split.
    + unfold calm. cbn [slot_get]. rewrite (keeps_all (kept := octs_ok) (cty c) _ f), V by auto. split; [auto|]. intros _. now apply present_value.
    + cbn [slot_get]. intros _ f' Ef'. rewrite Ef in Ef'. injection Ef' as <-. apply K; auto.
  - split; [apply calm_none; rewrite ?V; auto|]. intros X. congruence.
Qed.

Lemma along_of (f : comp ty -> option val -> option val) (P : comp ty -> option val -> Prop)
    (R : comp ty -> option val -> option val -> Prop) cs ss :
  (forall c s, In c cs -> P c s -> R c s (f c s)) -> Forall2 P cs ss -> along R cs ss (zipw f cs ss).
Proof.
  intros H F. induction F; cbn [zipw]; constructor.
  - apply H; [now left|auto].
  - apply IHF. intros. apply H; [now right|auto].
Qed.

Lemma along_nones (P : comp ty -> option val -> Prop) (R : comp ty -> option val -> option val -> Prop) cs ss :
  (forall c s, P c s -> R c s None) -> Forall2 P cs ss -> along R cs ss (map (fun _ => None) cs).
Proof. intros H F. induction F; cbn [map]; constructor; auto. Qed.

Definition slot_ok (c : comp ty) (s : option val) : Prop := shaped (cty c) (slot_get c s).

Lemma not_sent g sg : group_sent g sg = false -> len g = len sg ->
  Forall2 (fun c s => present (cty c) (slot_get c s) = false) g sg.
Proof.
  revert sg. induction g as [|c g IH]; intros [|s sg] V L; cbn [List.length] in L; try lia; constructor.
  - unfold group_sent in V. cbn [zipw existsb] in V. apply orb_false_iff in V as (V & _). exact V.
  - apply IH; [|lia]. unfold group_sent in V. cbn [zipw existsb] in V. now apply orb_false_iff in V as (_ & V).
Qed.

Lemma group_canon g sg : Forall (fun c => relayed (cty c)) g -> group_inv g sg -> Forall2 slot_ok g sg ->
  whole_group (att whole g) sg -> group_alike g sg (canon_group (att canon g) sg).
Proof.
  intros K (L & D & G) Sh W. unfold whole_group in W. rewrite att_fst in W. unfold canon_group. rewrite att_fst.
  replace (group_sent g sg) with (group_valued g sg) by reflexivity.
  destruct (group_valued g sg) eqn:V.
  - destruct (W eq_refl) as (W1 & W2). specialize (G eq_refl). rewrite zipw_att in W1.
    apply Forall2_all_of in W1; auto. apply Forall2_all_of in W2; auto. rewrite zipw_att.
    pose proof (Forall2_and _ _ _ _ G (Forall2_and _ _ _ _ Sh (Forall2_and _ _ _ _ W1 W2))) as A. split.
    + eapply along_of; [|exact A]. intros c s _ ((I & C) & S & _ & T). now apply calm_canon_root.
    + intros _. eapply along_of; [|exact A]. rewrite Forall_forall in K.
      intros c s In ((I & C) & S & Wc & T). now apply step_canon; auto.
  - split; [|congruence]. unfold att. rewrite map_map.
    pose proof (not_sent g sg V L) as Np.
    eapply along_nones; [|exact (Forall2_and _ _ _ _ D (Forall2_and _ _ _ _ Sh Np))].
    intros c s (Dc & S & P). now apply calm_none.
Qed.

Lemma whole_groups_concat gs sgs : Forall2 (fun g (sg : list (option val)) => len g = len sg) gs sgs ->
  whole_groups (map (att whole) gs) (List.concat sgs) -> Forall2 (fun g sg => whole_group (att whole g) sg) gs sgs.
Proof.
  induction 1 as [|g sg gs sgs L H IH]; intros W; [constructor|].
  cbn [map whole_groups List.concat] in W. rewrite att_length, skipn_len_app in W by auto. destruct W as (W1 & W2).
  constructor; auto. unfold whole_group in *. rewrite att_fst in *. rewrite group_valued_app in W1 by lia.
  rewrite !zipw_app_r in W1 by (rewrite ?att_length; lia). exact W1.
Qed.

Lemma groupwise_of gs sgs : Forall (Forall (fun c => relayed (cty c))) gs -> Forall2 group_inv gs sgs ->
  Forall2 slot_ok (List.concat gs) (List.concat sgs) -> Forall2 (fun g sg => whole_group (att whole g) sg) gs sgs ->
  groupwise gs sgs (zipw (fun g sg => canon_group (att canon g) sg) gs sgs).
Proof.
  intros K I. revert K. induction I as [|g sg gs sgs G I IH]; intros K Sh W; cbn [zipw]; constructor.
  - inversion K; subst. inversion W; subst. cbn [List.concat] in Sh. apply Forall2_app_l in Sh as (S1 & _).
    rewrite firstn_len_app in S1 by (destruct G; auto). now apply group_canon.
  - inversion K; subst. inversion W; subst. cbn [List.concat] in Sh. apply Forall2_app_l in Sh as (_ & S2).
    rewrite skipn_len_app in S2 by (destruct G; auto). auto.
Qed.

(** Every slot holds an object of the shape of its component. *)
Lemma slots_shaped e r a g slots : formed (TSeq e r a g) -> shaped (TSeq e r a g) (VSeq slots) ->
  Forall2 slot_ok (all_comps r a g) (slots_list (ncomps r a g) slots).
Proof.
  intros F Sh. pose proof (fun i c s => comp_found e r a g slots i c s F Sh) as C.
  apply shaped_seq in Sh as (L & _ & _). apply Forall2_of_nth; [now rewrite L|].
  intros i c x Hc Hx. unfold slot_ok. eapply (C i c x); eauto.
Qed.

Lemma relayed_seq e r a g : formed (TSeq e r a g) ->
  Forall (fun c => relayed (cty c)) r -> Forall (fun c => relayed (cty c)) a ->
  Forall (Forall (fun c => relayed (cty c))) g -> relayed (TSeq e r a g).
Proof.
  intros F K1 K2 K3 v fs S Sh W E. destruct v as [| | | | | |slots| |]; try contradiction.
  destruct (seq_inv _ _ _ _ _ _ S E) as (s1 & s2 & sgs & Es & I1 & I2 & I3).
  pose proof (Forall2_length _ _ _ I1) as L1. pose proof (Forall2_length _ _ _ I2) as L2.
  pose proof (groups_len _ _ I3) as L3.
  rewrite (canon_seq e r a g slots s1 s2 sgs) by auto.
  pose proof (slots_shaped e r a g slots F Sh) as Sl. rewrite Es in Sl. unfold all_comps in Sl.
  apply Forall2_app_l in Sl as (Sl1 & Sl2). rewrite firstn_len_app in Sl1 by auto. rewrite skipn_len_app in Sl2 by auto.
  apply Forall2_app_l in Sl2 as (Sl2 & Sl3). rewrite firstn_len_app in Sl2 by auto. rewrite skipn_len_app in Sl3 by auto.
  cbn [whole] in W. cbv zeta in W. rewrite Es in W. destruct W as (W1 & W2 & W3).
  rewrite skipn_len_app in W2 by auto.
  replace (skipn (len r + len a) (s1 ++ s2 ++ List.concat sgs)) with (List.concat sgs) in W3
    by (rewrite app_assoc; symmetry; apply skipn_len_app; rewrite app_length; lia).
  rewrite (zipw_app_r whole_root), zipw_att in W1 by (rewrite att_length; lia).
  rewrite (zipw_app_r whole_add), zipw_att in W2 by (rewrite att_length; lia).
  apply Forall2_all_of in W1; auto. apply Forall2_all_of in W2; auto. apply whole_groups_concat in W3; auto.
  set (o1 := zipw canon_root (att canon r) s1). set (o2 := zipw canon_add (att canon a) s2).
  set (o3 := zipw (fun g sg => canon_group (att canon g) sg) g sgs).
  assert (A1 : along step_alike r s1 o1).
  { unfold o1. rewrite zipw_att. rewrite Forall_forall in K1.
    eapply along_of; [|exact (Forall2_and _ _ _ _ I1 (Forall2_and _ _ _ _ Sl1 W1))].
    intros c s Ic (I & Sc & Wc). apply step_canon; auto. }
  assert (A2 : along add_alike a s2 o2).
  { unfold o2. rewrite zipw_att. rewrite Forall_forall in K2.
    eapply along_of; [|exact (Forall2_and _ _ _ _ I2 (Forall2_and _ _ _ _ Sl2 W2))].
    intros c s Ic (I & Sc & Wc). apply add_canon; auto. }
  pose proof (groupwise_of g sgs K3 I3 Sl3 W3) as A3. fold o3 in A3.
  destruct (along_len _ _ _ _ A1) as (_ & LO1). destruct (along_len _ _ _ _ A2) as (_ & LO2).
  pose proof (canon_groups_len (shift := fun _ bs => bs) g sgs L3) as LO3. fold o3 in LO3.
  assert (SL : slots_list (ncomps r a g) (slots_of (o1 ++ o2 ++ List.concat o3)) = o1 ++ o2 ++ List.concat o3).
  { apply slots_list_of. rewrite !app_length. unfold ncomps, all_comps. rewrite !app_length.
    rewrite (concat_length_eq g o3 LO3). lia. }
  cbn [supported_by] in S. cbv zeta in S. destruct S as (ND & L & Hext & _).
  pose proof (looks_all _ slots ND L) as HL.
  pose proof (looks_all (all_comps r a g) (slots_of (o1 ++ o2 ++ List.concat o3)) ND) as HL'.
  fold (ncomps r a g) in HL, HL'. rewrite SL in HL'. rewrite Es in HL.
  specialize (HL' ltac:(rewrite !app_length; unfold ncomps, all_comps; rewrite !app_length, (concat_length_eq g o3 LO3); lia)).
  cbn [enc] in *. unfold encode_sequence in *. cbv zeta in *.
  set (look := get_by_name (all_comps r a g) slots) in *.
  set (look' := get_by_name (all_comps r a g) (slots_of (o1 ++ o2 ++ List.concat o3))) in *.
  unfold all_comps in HL, HL'.
  apply Forall2_app_l in HL as (H1 & H2). rewrite firstn_len_app in H1 by auto. rewrite skipn_len_app in H2 by auto.
  apply Forall2_app_l in H2 as (H2 & H3). rewrite firstn_len_app in H2 by auto. rewrite skipn_len_app in H3 by auto.
  apply Forall2_app_l in HL' as (H1' & H2'). rewrite firstn_len_app in H1' by auto. rewrite skipn_len_app in H2' by auto.
  apply Forall2_app_l in H2' as (H2' & H3'). rewrite firstn_len_app in H2' by auto. rewrite skipn_len_app in H3' by auto.
  destruct (enc_root enc look r) as [rr|] eqn:Er; [|discriminate].
  rewrite (root_alike look look' r s1 o1 rr) by auto. cbn [bind] in *.
  destruct (root_fields rr) as [rf|]; [|discriminate]. cbn [bind] in *.
  destruct e; [|exact E]. destruct (isnil a && isnil g); [exact E|].
  destruct (enc_adds enc look None a) as [ra|] eqn:Ea; [|discriminate].
  rewrite (adds_alike look look' a s2 o2 None ra) by auto. cbn [bind] in *.
  destruct (enc_groups enc look None g) as [rg|] eqn:Eg; [|discriminate].
  rewrite (groups_alike look look' g sgs o3 None rg) by auto. exact E.
Qed.

Lemma relayed_all t : formed t -> relayed t.
Proof.
  induction t as [ | | | | |e r a g Hr Ha Hg|c t IH|e r a g Hr Ha Hg] using ty_rect'; intros F.
  1-5: intros v fs S Sh W E; destruct v; try contradiction; exact E.
  - pose proof F as F'. cbn [formed] in F'. destruct F' as (_ & F1 & F2 & F3).
    assert (C : forall cs, Forall (fun c => formed (cty c) -> relayed (cty c)) cs ->
       all_of (map (fun c => comp_formed c (formed (cty c))) cs) -> Forall (fun c => relayed (cty c)) cs).
    { clear. intros cs H. induction H as [|c cs Hc H IH]; intros A; [constructor|].
      cbn [map] in A. apply all_of_cons in A as ((A1 & _) & A). constructor; auto. }
    apply relayed_seq; auto.
    clear - Hg F3 C. induction Hg as [|gr gs H Hg IH]; [constructor|].
    cbn [map] in F3. apply all_of_cons in F3 as (F1 & F3). constructor; auto.
  - intros v fs S Sh W E. destruct v as [| | | | | | |vs|]; try contradiction. cbn [formed] in F. specialize (IH F).
    cbn [enc canon_by supported_by shaped whole] in *. destruct S as (_ & S).
    destruct (enc_list (enc t) vs) as [body|] eqn:EL; [|discriminate]. cbn [bind] in E.
    assert (G : enc_list (enc t) (map (canon t) vs) = Ok body).
    { clear E. revert body EL. induction vs as [|v vs IHv]; intros body EL; [exact EL|].
      cbn [map] in S, Sh, W. apply all_of_cons in S as (S1 & S). apply all_of_cons in Sh as (Sh1 & Sh).
      apply all_of_cons in W as (W1 & W). cbn [enc_list map] in *.
      destruct (enc t v) as [f1|] eqn:E1; [|discriminate]. rewrite (IH v f1) by auto. cbn [bind] in *.
      destruct (enc_list (enc t) vs) as [f2|] eqn:E2; [|discriminate]. rewrite (IHv S Sh W f2) by auto. exact EL. }
    rewrite G. cbn [bind]. unfold zlen in *. now rewrite map_length.
  - intros v fs S Sh W E. destruct v as [| | | | | | | |[[i v']|]]; try contradiction.
    cbn [supported_by] in S. destruct S as (ND & Hext & Hn & S). rewrite all_att, nth_error_att in S.
    cbn [whole] in W. rewrite all_att, nth_error_att in W. apply shaped_choice in Sh.
    cbn [canon_by]. rewrite all_att, nth_error_att. cbn [enc] in *.
    assert (EM : map (fun c0 : comp ty => (cname c0, enc (cty c0))) r ++
               map (fun c0 => (cname c0, enc (cty c0))) a ++
               List.concat (map (map (fun c0 => (cname c0, enc (cty c0)))) g) =
               map (fun c0 => (cname c0, enc (cty c0))) (all_comps r a g)).
    { unfold all_comps. rewrite !map_app, concat_map. reflexivity. }
    rewrite EM, nth_error_map in E.
    destruct (nth_error (all_comps r a g) i) as [c|] eqn:EC; [|contradiction].
    cbn [fst snd option_map] in *. cbn [enc]. rewrite EM, nth_error_map, EC. cbn [option_map]. clear EM.
    destruct S as (Sv & _). destruct (enc (cty c) v') as [body|] eqn:EB; [|discriminate].
    assert (K : relayed (cty c)).
    { pose proof F as F'. apply (fun H => formed_comps e r a g (or_intror H)) in F' as (_ & F').
      rewrite Forall_forall in F'. destruct (F' c (nth_error_In _ _ EC)) as (Fc & _).
      assert (A : Forall (fun c => formed (cty c) -> relayed (cty c)) (all_comps r a g)).
      { unfold all_comps. apply Forall_app. split; auto. apply Forall_app. split; auto. now apply Forall_concat. }
      rewrite Forall_forall in A. apply A; auto. eapply nth_error_In; eauto. }
    rewrite (K v' body) by auto. exact E.
Qed.

(** * C55 *)

(** Full claim: whoever decodes a message and encodes what they got sends the
    octets that were received.  Missing: what C01 to C08 lose, and addition
    groups sent without one of their mandatory components. *)
Theorem C55_relay_partial : forall t v bs rest,
  supported t v -> top_ok t v -> formed t -> shaped t v -> whole t v -> encode t v = Ok bs -> Forall octet rest ->
  exists v', decode (bs ++ rest) t = Ok v' /\ encode t v' = Ok bs.
Proof.
  intros t v bs rest S T F Sh W E O. exists (canon t v). split; [now apply decode_encode_canon|].
  rewrite encode_spec in *. destruct (enc t v) as [fs|] eqn:Ef; [|discriminate].
  now rewrite (relayed_all t F v fs).
Qed.

(** Octets of another sender that follow X.691 are passed on unchanged as well. *)
Theorem C55_any_sender_partial : forall t v bs,
  conf t v -> supported t v -> ready t v -> top_ok t v -> formed t -> shaped t v -> whole t v ->
  PER t (reading t v) bs -> exists v', decode bs t = Ok v' /\ encode t v' = Ok bs.
Proof.
  intros t v bs C S R T F Sh W P. destruct (encode_total t v S R) as (bs' & E).
  rewrite (C45_unique _ _ _ _ P (C45_conforms_partial _ _ _ C E)).
  destruct (C55_relay_partial t v bs' [] S T F Sh W E ltac:(constructor)) as (v' & D & E').
  rewrite app_nil_r in D. eauto.
Qed.

(** OCTET STRING (SIZE (0..5)): 05 01 leaves the relay as 50 10. *)
Theorem C55_octets_refuted : exists t v bs v' bs',
  encode t v = Ok bs /\ decode bs t = Ok v' /\ encode t v' = Ok bs' /\ bs = [64; 5; 1] /\ bs' = [64; 80; 16].
Proof.
  exists (TOcts (CRange false (Some 0) (Some 5))), (VOcts [5; 1]), [64; 5; 1], (VOcts [80; 16]), [64; 80; 16].
  vm_compute. auto.
Qed.

(** An addition group without two of its mandatory components: it is sent,
    received and read, but what was received cannot be sent. *)
Theorem C55_group_refuted : exists t v bs v',
  supported t v /\ formed t /\ shaped t v /\
  encode t v = Ok bs /\ decode bs t = Ok v' /\ reading t v' = reading t v /\
  encode t v' = Err (MandatoryFieldNotPresentInExtensionGroup "p").
Proof.
  exists (TSeq true [] []
    [[Comp "x" Mand TBool;
      Comp "p" Mand (TSeqOf (CSeqSize false (Some 0) None) TBool);
      Comp "y" Mand (TSeq false [Comp "q" Mand (TSeq false [Comp "o" Opt TBool] [] [])] [] [])]]),
    (VSeq (Some [Some (VBool true); None; None])), [128; 128; 3; 128; 0; 0].
  eexists. split; [|split; [cbv -[all_of]; concrete|split; [cbv -[all_of]; concrete|]]].
  - cbn [supported_by]. cbv zeta. split; [repeat constructor; cbn; intuition discriminate|]. split; [reflexivity|].
    split; [discriminate|]. split; [intros p []|]. split; [intros p []|].
    cbn [slots_list att map skipn List.length supp_groups Nat.add]. split; [|exact I]. split.
    + cbn. intros p [<-|[<-|[<-|[]]]]; discriminate.
    + intros _. split; [|split].
      * cbn [zipw]. intros p [<-|[<-|[<-|[]]]]; cbn [supp_root cpres fst snd slot_get supported_by fresh cty].
        -- exact I.
        -- split; [cbn; lia|intros p []].
        -- cbn. repeat split; try (repeat constructor; cbn; intuition discriminate); try (intros p [<-|[]]); try (intros p []); try discriminate.
           cbn. repeat split; try (repeat constructor; cbn; intuition discriminate); try (intros p [<-|[]]); try (intros p []); try discriminate.
      * cbn. intros p [<-|[<-|[<-|[]]]]; cbn; auto; discriminate.
      * intros bs E. vm_compute in E. injection E as <-. vm_compute. reflexivity.
  - split; [vm_compute; reflexivity|]. split; [vm_compute; reflexivity|]. split; vm_compute; reflexivity.
Qed.

(** A message with a CHOICE, an addition group and a DEFAULT (PropsRoundTrip). *)
Example C55_case :
  supported C08_ty C08_val /\ formed C08_ty /\ shaped C08_ty C08_val /\ whole C08_ty C08_val /\
  encode C08_ty C08_val = Ok [2; 214; 112; 40; 1; 192].
Proof.
  split; [exact (proj1 C08_case)|]. split; [cbv -[all_of]; concrete|]. split; [cbv -[all_of]; concrete|].
  split; [cbv -[all_of]; concrete|vm_compute; reflexivity].
Qed.

Example C55_any_sender_case :
  conf C08_ty C08_val /\ ready C08_ty C08_val /\ top_ok C08_ty C08_val /\
  PER C08_ty (reading C08_ty C08_val) [2; 214; 112; 40; 1; 192].
Proof. destruct C46_case as (C & _ & R & T & P). auto. Qed.
