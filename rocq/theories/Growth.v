(** CHOICE and ENUMERATED types that get more alternatives and items in a later
    version of a schema, anywhere inside a message (property C56). *)
From Coq Require Import ZArith List String Bool Lia Arith.
From Coq Require Import ZifyBool ZifyNat ZifyN.
Import ListNotations.
From Verif Require Import PyBase Schema Encoder Decoder BitFacts Stream Prims Spec SimpleTypes.
From Verif Require Import RoundTrip Reading Sequences Robust Dict Objects Valid.
Open Scope Z_scope.

(** * Versions *)

Definition known_slot (ca : comp ty * (val -> bool)) (s : option val) : bool :=
  match s with Some v => snd ca v | None => true end.

(** Every alternative selected and every item used in the object is one of the
    type. *)
Fixpoint known (t : ty) (v : val) {struct t} : bool :=
  match t, v with
  | TEnum _ root adds, VEnum z => existsb (Z.eqb z) (root ++ adds)
  | TSeq _ root adds groups, VSeq None => true
  | TSeq _ root adds groups, VSeq (Some ss) =>
      forallb (fun b => b) (zipw known_slot (att known root ++ att known adds
                                             ++ List.concat (map (att known) groups)) ss)
  | TSeqOf _ t', VSeqOf vs => forallb (known t') vs
  | TChoice _ root adds groups, VChoice (Some (i, v')) =>
      match nth_error (att known root ++ att known adds ++ List.concat (map (att known) groups)) i with
      | Some ca => snd ca v'
      | None => false
      end
  | TChoice _ _ _ _, VChoice None => true
  | TSeq _ _ _ _, _ | TSeqOf _ _, _ | TChoice _ _ _ _, _ => false
  | _, _ => true
  end.

(** The same component in two versions; a default is a value of the earlier. *)
Definition kept (ca : comp ty * (ty -> Prop)) (c' : comp ty) : Prop :=
  cname (fst ca) = cname c' /\ cpres (fst ca) = cpres c' /\ snd ca (cty c') /\
  (forall d, cpres (fst ca) = Dflt d -> known (cty (fst ca)) d = true).

(** [grown t t']: t' is t in which extensible ENUMERATEDs have more items and
    CHOICEs more alternatives, behind the ones they had, at any depth.  The names
    of the components of a SEQUENCE are distinct. *)
Fixpoint grown (t t' : ty) {struct t} : Prop :=
  match t, t' with
  | TBool, TBool => True
  | TInt c, TInt c' | TBits c, TBits c' | TOcts c, TOcts c' => c = c'
  | TEnum e r a, TEnum e' r' a' =>
      e = e' /\ r = r' /\ (a = a' \/ e = true /\ exists more, a' = a ++ more)
  | TSeq e r a g, TSeq e' r' a' g' =>
      e = e' /\ NoDup (map cname (all_comps r a g)) /\
      Forall2 kept (att grown r) r' /\ Forall2 kept (att grown a) a' /\
      Forall2 (Forall2 kept) (map (att grown) g) g'
  | TSeqOf c t1, TSeqOf c' t1' => c = c' /\ grown t1 t1'
  | TChoice e r a g, TChoice e' r' a' g' =>
      e = e' /\ Forall2 kept (att grown r) r' /\
      exists same more, a' ++ List.concat g' = same ++ more /\
        Forall2 kept (att grown a ++ List.concat (map (att grown) g)) same
  | _, _ => False
  end.

Definition later (c c' : comp ty) : Prop :=
  cname c = cname c' /\ cpres c = cpres c' /\ grown (cty c) (cty c') /\
  (forall d, cpres c = Dflt d -> known (cty c) d = true).

Lemma kept_later l l' : Forall2 kept (att grown l) l' <-> Forall2 later l l'.
Proof.
  revert l'. induction l as [|c l IH]; intros [|c' l']; split; intros E; inversion E; subst; try constructor; auto;
    now apply IH.
Qed.

Lemma att_concat {A} (f : ty -> A) g : List.concat (map (att f) g) = att f (List.concat g).
Proof.
  induction g as [|l g IH]; [reflexivity|]. cbn [map List.concat]. rewrite IH. unfold att. now rewrite map_app.
Qed.

Lemma att_app {A} (f : ty -> A) l m : att f (l ++ m) = att f l ++ att f m.
Proof. apply map_app. Qed.

Lemma att_all {A} (f : ty -> A) r a g :
  att f r ++ att f a ++ List.concat (map (att f) g) = att f (all_comps r a g).
Proof. unfold all_comps. now rewrite att_concat, !att_app. Qed.

Lemma Forall2_concat {A B} (P : A -> B -> Prop) g g' :
  Forall2 (Forall2 P) g g' -> Forall2 P (List.concat g) (List.concat g').
Proof. induction 1; cbn [List.concat]; auto. now apply Forall2_app. Qed.

Lemma kept_groups g g' : Forall2 (Forall2 kept) (map (att grown) g) g' <-> Forall2 (Forall2 later) g g'.
Proof.
  revert g'. induction g as [|c l IH]; intros [|c' l']; split; intros E; inversion E; subst; try constructor; auto;
    try (now apply IH); now apply kept_later.
Qed.

Lemma seq_later e r a g t' : grown (TSeq e r a g) t' ->
  exists r' a' g', t' = TSeq e r' a' g' /\ NoDup (map cname (all_comps r a g)) /\
    Forall2 later r r' /\ Forall2 later a a' /\ Forall2 (Forall2 later) g g' /\
    Forall2 later (all_comps r a g) (all_comps r' a' g').
Proof.
  destruct t' as [| | | | |e' r' a' g'| |]; cbn [grown]; try tauto. intros (<- & ND & Hr & Ha & Hg).
  apply kept_later in Hr. apply kept_later in Ha. apply kept_groups in Hg.
  exists r', a', g'. repeat (split; auto). unfold all_comps. apply Forall2_app; auto. apply Forall2_app; auto.
  now apply Forall2_concat.
Qed.

Lemma choice_later e r a g t' : grown (TChoice e r a g) t' ->
  exists r' a' g' same more, t' = TChoice e r' a' g' /\
    Forall2 later r r' /\ Forall2 later (a ++ List.concat g) same /\ a' ++ List.concat g' = same ++ more.
Proof.
  destruct t' as [| | | | | | |e' r' a' g']; cbn [grown]; try tauto. intros (<- & Hr & same & more & E & Hs).
  apply kept_later in Hr. rewrite att_concat, <- att_app in Hs. apply kept_later in Hs.
  exists r', a', g', same, more. auto.
Qed.

Lemma grown_fresh t t' : grown t t' -> fresh t = fresh t'.
Proof. destruct t, t'; cbn [grown fresh]; tauto. Qed.

Lemma known_fresh t : known t (fresh t) = true.
Proof. now destruct t. Qed.

Lemma f2_len {A B} (P : A -> B -> Prop) l m : Forall2 P l m -> len l = len m.
Proof. induction 1; cbn [List.length]; congruence. Qed.

Lemma Forall2_nth {A B} (P : A -> B -> Prop) l m i a : Forall2 P l m -> nth_error l i = Some a ->
  exists b, nth_error m i = Some b /\ P a b.
Proof.
  intros F. revert i. induction F as [|x y l m Pxy F IH]; intros [|i] E; try discriminate.
  - injection E as <-. exists y. auto.
  - apply IH, E.
Qed.

(** * The same names *)

Lemma later_index nm l l' : Forall2 later l l' -> index_of nm l = index_of nm l'.
Proof.
  induction 1 as [|c c' l l' (N & _) F IH]; [reflexivity|]. cbn [index_of]. now rewrite N, IH.
Qed.

Lemma later_get c c' s : later c c' -> slot_get c s = slot_get c' s.
Proof.
  intros (N & P & G & _). unfold slot_get. destruct s; auto. rewrite <- P. destruct (cpres c); auto; now apply grown_fresh.
Qed.

Lemma later_look l l' slots nm : Forall2 later l l' -> get_by_name l slots nm = get_by_name l' slots nm.
Proof.
  intros F. unfold get_by_name. rewrite <- (later_index nm l l' F). destruct (index_of nm l) as [i|]; auto.
  destruct (nth_error l i) as [c|] eqn:E.
  - destruct (Forall2_nth _ _ _ _ _ F E) as (c' & -> & L). now rewrite (later_get c c').
  - apply nth_error_None in E. rewrite (f2_len _ _ _ F) in E. apply nth_error_None in E. now rewrite E.
Qed.

Lemma later_mand c c' : later c c' -> is_mandatory c = is_mandatory c'.
Proof. intros (_ & P & _). unfold is_mandatory. now rewrite P. Qed.
Lemma later_opt c c' : later c c' -> is_optional c = is_optional c'.
Proof. intros (_ & P & _). unfold is_optional. now rewrite P. Qed.
Lemma later_dflt c c' : later c c' -> is_defaulted c = is_defaulted c'.
Proof. intros (_ & P & _). unfold is_defaulted. now rewrite P. Qed.

(** * isValue *)

Lemma known_seq e r a g ss : known (TSeq e r a g) (VSeq (Some ss)) =
  forallb (fun b => b) (zipw known_slot (att known (all_comps r a g)) ss).
Proof. cbn [known]. now rewrite att_all. Qed.

Lemma known_choice e r a g i v : known (TChoice e r a g) (VChoice (Some (i, v))) =
  match nth_error (all_comps r a g) i with Some c => known (cty c) v | None => false end.
Proof.
  cbn [known]. rewrite att_all. unfold att. rewrite nth_error_map.
  destruct (nth_error (all_comps r a g) i); reflexivity.
Qed.

Lemma slot_known l ss i c v : forallb (fun b => b) (zipw known_slot (att known l) ss) = true ->
  nth_error l i = Some c -> nth_error ss i = Some (Some v) -> known (cty c) v = true.
Proof.
  revert ss i. induction l as [|d l IH]; intros [|s ss] [|i]; cbn [nth_error att map zipw forallb]; try discriminate;
    intros A E E'; apply andb_true_iff in A as (A1 & A2).
  - injection E as ->. injection E' as ->. exact A1.
  - eapply IH; eauto.
Qed.

Definition same_value (t : ty) : Prop :=
  forall t' v, grown t t' -> known t v = true -> is_value t v = is_value t' v.

Lemma choice_nth e r a g t' i c : grown (TChoice e r a g) t' -> nth_error (all_comps r a g) i = Some c ->
  exists c', nth_error (comps_of t') i = Some c' /\ later c c'.
Proof.
  intros G E. destruct (choice_later _ _ _ _ _ G) as (r' & a' & g' & same & more & -> & Hr & Hs & Eq).
  cbn [comps_of]. unfold all_comps in *. rewrite Eq, app_assoc.
  destruct (Forall2_nth later (r ++ a ++ List.concat g) (r' ++ same) i c) as (c' & E' & L); auto.
  { now apply Forall2_app. }
  exists c'. split; auto. rewrite nth_error_app1; auto. apply nth_error_Some. now rewrite E'.
Qed.

Lemma same_value_all t : same_value t.
Proof.
  induction t as [t S0|e r a g IH|c t IH|e r a g IH] using ty_ind2; intros t' v G Kn.
  - assert (X : comps_of t = [] /\ comps_of t' = [] /\ elem_of t = TBool /\ elem_of t' = TBool).
    { destruct t; try discriminate; destruct t'; cbn [grown] in G; try tauto; auto. }
    destruct X as (X1 & X2 & X3 & X4). destruct v as [| | | | | |[ss|]|vs|[[i v]|]]; cbn [is_value];
      rewrite ?X1, ?X2, ?X3, ?X4; auto. 
  - destruct (seq_later _ _ _ _ _ G) as (r' & a' & g' & -> & ND & _ & _ & _ & F).
    revert IH F. destruct v as [| | | | | |[ss|]|vs|[[i v]|]]; try discriminate Kn; cbn [is_value comps_of].
    + rewrite known_seq in Kn. revert Kn. generalize (all_comps r a g), (all_comps r' a' g'). clear.
      intros l l' Kn IH F. f_equal.
      * revert l l' Kn IH F. induction ss as [|s ss IHs]; intros l l' Kn IH F.
        { clear Kn IH. induction F as [|c c' l l' L F IHF]; [reflexivity|].
          cbn [forallb]. now rewrite (later_mand _ _ L), IHF. }
        destruct F as [|c c' l l' L F]; [reflexivity|].
        cbn [att map zipw forallb] in Kn. apply andb_true_iff in Kn as (K1 & K2).
        rewrite (later_mand _ _ L). f_equal; [|apply IHs; auto; now inversion IH].
        f_equal. destruct s as [v|]; auto. inversion IH; subst. apply H1; auto. apply L.
      * revert l l' Kn IH F. induction ss as [|s ss IHs]; intros l l' Kn IH F; [reflexivity|].
        destruct F as [|c c' l l' L F]; [reflexivity|].
        cbn [att map zipw forallb] in Kn. apply andb_true_iff in Kn as (K1 & K2).
        f_equal; [|apply IHs; auto; now inversion IH].
        destruct s as [v|]; auto. inversion IH; subst. apply H1; auto. apply L.
    + intros _ F. assert (Q : forallb (fun c : comp ty => negb (is_mandatory c)) (all_comps r a g) =
                  forallb (fun c : comp ty => negb (is_mandatory c)) (all_comps r' a' g')).
      { clear - F. induction F as [|c c' l l' L F IHF]; [reflexivity|].
          cbn [forallb]. now rewrite (later_mand _ _ L), IHF. }
      destruct F; auto.
  - destruct t' as [| | | | | |c' t'|]; cbn [grown] in G; try tauto. destruct G as (<- & G).
    destruct v as [| | | | | |[ss|]|vs|[[i v]|]]; try discriminate Kn. cbn [is_value elem_of known] in *.
    destruct vs as [|v0 vs0]; auto. revert Kn. generalize (v0 :: vs0). induction l as [|v l IHl]; auto.
    cbn [forallb]. intros Kn. apply andb_true_iff in Kn as (K1 & K2). now rewrite (IH t' v G K1), IHl.
  - destruct v as [| | | | | |[ss|]|vs|[[i v]|]]; try discriminate Kn; auto.
    rewrite known_choice in Kn. cbn [is_value comps_of]. unfold comp_ty at 1.
    destruct (nth_error (all_comps r a g) i) as [c|] eqn:E; [|discriminate].
    destruct (choice_nth _ _ _ _ _ _ _ G E) as (c' & E' & L).
    unfold comp_ty. rewrite E'. rewrite Forall_forall in IH. apply (IH c); auto; [now apply nth_error_In in E|apply L].
Qed.

(** * The octets of what was known stay *)

Definition same_fields (t : ty) : Prop :=
  forall t' v, grown t t' -> known t v = true -> enc t v = enc t' v.

(** What is found under the names of the components is known. *)
Definition fine (look : string -> res val) (c : comp ty) : Prop :=
  forall v, look (cname c) = Ok v -> known (cty c) v = true.

Lemma slot_get_known e r a g slots i c c' :
  known (TSeq e r a g) (VSeq slots) = true -> later c c' -> nth_error (all_comps r a g) i = Some c ->
  known (cty c) (slot_get c (slot_at slots i)) = true.
Proof.
  intros Kn L E. assert (N : known (cty c) (slot_get c None) = true).
  { destruct L as (_ & _ & _ & Dk). unfold slot_get. destruct (cpres c) as [| |d]; auto using known_fresh. }
  destruct slots as [ss|]; [|exact N]. cbn [slot_at]. rewrite known_seq in Kn.
  destruct (nth_error ss i) as [[v|]|] eqn:S.
  - rewrite (nth_error_nth _ _ _ S). cbn [slot_get]. eapply slot_known; eauto.
  - now rewrite (nth_error_nth _ _ _ S).
  - apply nth_error_None in S. now rewrite nth_overflow.
Qed.

Lemma fine_all e r a g slots l' : NoDup (map cname (all_comps r a g)) -> Forall2 later (all_comps r a g) l' ->
  known (TSeq e r a g) (VSeq slots) = true ->
  Forall (fine (get_by_name (all_comps r a g) slots)) (all_comps r a g).
Proof.
  intros ND F Kn. apply Forall_forall. intros c I v E. destruct (In_nth_error _ _ I) as (i & Ei).
  destruct (Forall2_nth _ _ _ _ _ F Ei) as (c' & _ & L).
  unfold get_by_name in E. rewrite (index_of_nth _ i c ND Ei), Ei in E. injection E as <-.
  eapply slot_get_known; eauto.
Qed.

Section Lists.
Variables look look' : string -> res val.
Hypothesis looks_same : forall nm, look nm = look' nm.

Lemma root_same l l' : Forall2 later l l' -> Forall (fun c => same_fields (cty c)) l -> Forall (fine look) l ->
  enc_root enc look l = enc_root enc look' l'.
Proof.
  induction 1 as [|c c' l l' L F IH]; intros S Fi; [reflexivity|].
  inversion S as [|? ? S1 S2]; subst. inversion Fi as [|? ? F1 F2]; subst. specialize (IH S2 F2).
  pose proof L as (N & P & G & _).
  change (enc_root enc look (c :: l)) with
    (let* v := look (cname c) in
     let* bf := match cpres c with
          | Opt => if is_value (cty c) v && comp_values_ok v
              then let* fs := enc (cty c) v in Ok ([true], fs) else Ok ([false], [])
          | Dflt d => let* ne := raw_ne d v in
              if ne then let* fs := enc (cty c) v in Ok ([true], fs) else Ok ([false], [])
          | Mand => let* fs := enc (cty c) v in Ok ([], fs)
          end in
     let* r := enc_root enc look l in Ok (fst bf ++ fst r, snd bf ++ snd r)).
  change (enc_root enc look' (c' :: l')) with
    (let* v := look' (cname c') in
     let* bf := match cpres c' with
          | Opt => if is_value (cty c') v && comp_values_ok v
              then let* fs := enc (cty c') v in Ok ([true], fs) else Ok ([false], [])
          | Dflt d => let* ne := raw_ne d v in
              if ne then let* fs := enc (cty c') v in Ok ([true], fs) else Ok ([false], [])
          | Mand => let* fs := enc (cty c') v in Ok ([], fs)
          end in
     let* r := enc_root enc look' l' in Ok (fst bf ++ fst r, snd bf ++ snd r)).
  rewrite <- N, <- looks_same, <- P, IH. destruct (look (cname c)) as [v|] eqn:E; [|reflexivity]. cbn [bind].
  specialize (F1 v E). now rewrite <- (S1 (cty c') v G F1), <- (same_value_all (cty c) (cty c') v G F1).
Qed.

Lemma adds_same l l' : Forall2 later l l' -> Forall (fun c => same_fields (cty c)) l -> Forall (fine look) l ->
  forall prev, enc_adds enc look prev l = enc_adds enc look' prev l'.
Proof.
  induction 1 as [|c c' l l' L F IH]; intros S Fi prev; [reflexivity|].
  inversion S as [|? ? S1 S2]; subst. inversion Fi as [|? ? F1 F2]; subst. specialize (IH S2 F2).
  pose proof L as (N & P & G & _). cbn [enc_adds].
  rewrite <- N, <- looks_same, <- (later_opt c c' L). destruct (look (cname c)) as [v|] eqn:E; [|reflexivity]. cbn [bind].
  specialize (F1 v E). rewrite <- (S1 (cty c') v G F1), <- (same_value_all (cty c) (cty c') v G F1).
  match goal with |- bind ?x _ = bind ?x _ => destruct x as [bf|]; [|reflexivity] end. cbn [bind].
  change ((fix go (prev : option prev_comp) (cs : list (comp ty)) {struct cs} : res (bits * list field) := _)
          (Some (Prev (cname c) (fst bf) (is_optional c))) l) with
    (enc_adds enc look (Some (Prev (cname c) (fst bf) (is_optional c))) l).
  now rewrite IH.
Qed.

Lemma scan_same l l' : Forall2 later l l' -> Forall (fine look) l ->
  forall prev, group_scan look prev l = group_scan look' prev l'.
Proof.
  induction 1 as [|c c' l l' L F IH]; intros Fi prev; [reflexivity|].
  inversion Fi as [|? ? F1 F2]; subst. specialize (IH F2).
  pose proof L as (N & P & G & _). cbn [group_scan].
  rewrite <- N, <- looks_same, <- (later_opt c c' L). destruct (look (cname c)) as [v|] eqn:E; [|reflexivity]. cbn [bind].
  specialize (F1 v E). rewrite <- (same_value_all (cty c) (cty c') v G F1).
  match goal with |- bind ?x _ = bind ?x _ => destruct x as [bf|]; [|reflexivity] end. cbn [bind].
  change ((fix go (prev : option prev_comp) (cs : list (comp ty)) {struct cs} : res (list prev_comp) := _)
          (Some (Prev (cname c) bf (is_optional c))) l) with
    (group_scan look (Some (Prev (cname c) bf (is_optional c))) l).
  now rewrite IH.
Qed.

Lemma groups_same g g' : Forall2 (Forall2 later) g g' ->
  Forall (fun c => same_fields (cty c)) (List.concat g) -> Forall (fine look) (List.concat g) ->
  forall prev, enc_groups enc look prev g = enc_groups enc look' prev g'.
Proof.
  induction 1 as [|l l' g g' L F IH]; intros S Fi prev; [reflexivity|].
  cbn [List.concat] in S, Fi. apply Forall_app in S as (S1 & S2). apply Forall_app in Fi as (F1 & F2).
  specialize (IH S2 F2). cbn [enc_groups]. rewrite (scan_same l l' L F1).
  destruct (group_scan look' None l') as [ps|]; [|reflexivity]. cbn [bind].
  rewrite (root_same l l' L S1 F1).
  match goal with |- bind ?x _ = bind ?x _ => destruct x as [bf|]; [|reflexivity] end. cbn [bind].
  change ((fix go (prevg : option (list prev_comp)) (gs : list (list (comp ty))) {struct gs} : res (bits * list field) := _)
          (Some ps) g) with (enc_groups enc look (Some ps) g).
  now rewrite IH.
Qed.

End Lists.

Lemma zindex_more z l m : existsb (Z.eqb z) l = true -> zindex z (l ++ m) = zindex z l.
Proof.
  induction l as [|x l IH]; cbn [existsb app zindex]; [discriminate|].
  destruct (Z.eqb_spec x z) as [->|Ne]; auto. rewrite (proj2 (Z.eqb_neq z x)) by auto. cbn [orb].
  intros E. now rewrite IH.
Qed.

Lemma index_more {T} nm (l m : list (comp T)) : In nm (map cname l) -> index_of nm (l ++ m) = index_of nm l.
Proof.
  induction l as [|c l IH]; cbn [map In app index_of]; [tauto|]. destruct (String.eqb_spec (cname c) nm); auto.
  intros [E|E]; [tauto|]. now rewrite IH.
Qed.

Lemma isnil_later {A B} (P : A -> B -> Prop) l l' : Forall2 P l l' -> isnil l = isnil l'.
Proof. now destruct 1. Qed.

Lemma same_fields_all t : same_fields t.
Proof.
  induction t as [t S0|e r a g IH|c t IH|e r a g IH] using ty_ind2; intros t' v G Kn.
  - destruct t; try discriminate; destruct t' as [|c'|e' r' a'|c'|c'| | |]; cbn [grown] in G; try tauto; subst; auto.
    destruct G as (<- & <- & [<-|(-> & more & ->)]); auto.
    destruct v as [| | |z| | | | |]; auto. cbn [enc known] in *. unfold encode_enumerated. cbn [negb].
    destruct (existsb (Z.eqb z) root) eqn:R; auto. rewrite existsb_app, R in Kn. cbn [orb] in Kn.
    now rewrite zindex_more.
  - destruct (seq_later _ _ _ _ _ G) as (r' & a' & g' & -> & ND & Hr & Ha & Hg & F).
    destruct v as [| | | | | |slots|vs|[[i v]|]]; try discriminate Kn.
    cbn [enc]. unfold encode_sequence. cbv zeta. pose proof (fine_all _ _ _ _ _ _ ND F Kn) as Fi.
    pose proof (fun nm => later_look _ _ slots nm F) as Lk.
    unfold all_comps in IH, Fi at 2. apply Forall_app in IH as (I1 & I2). apply Forall_app in I2 as (I2 & I3).
    apply Forall_app in Fi as (F1 & F2). apply Forall_app in F2 as (F2 & F3).
    rewrite (root_same _ _ Lk r r' Hr I1 F1), (adds_same _ _ Lk a a' Ha I2 F2), (groups_same _ _ Lk g g' Hg I3 F3).
    now rewrite (isnil_later _ _ _ Ha), (isnil_later _ _ _ Hg).
  - destruct t' as [| | | | | |c' t'|]; cbn [grown] in G; try tauto. destruct G as (<- & G).
    destruct v as [| | | | | |[ss|]|vs|[[i v]|]]; try discriminate Kn. cbn [enc known] in *.
    replace (enc_list (enc t') vs) with (enc_list (enc t) vs); auto.
    induction vs as [|v vs IHv]; auto. cbn [forallb enc_list] in *. apply andb_true_iff in Kn as (K1 & K2).
    now rewrite (IH t' v G K1), IHv.
  - destruct v as [| | | | | |[ss|]|vs|[[i v]|]]; try discriminate Kn.
    2:{ destruct t'; cbn [grown] in G; try contradiction. reflexivity. }
    rewrite known_choice in Kn. destruct (nth_error (all_comps r a g) i) as [c|] eqn:E; [|discriminate].
    pose proof (choice_nth _ _ _ _ _ _ _ G E) as (c' & E' & L).
    destruct (choice_later _ _ _ _ _ G) as (r' & a' & g' & same & more & -> & Hr & Hs & Eq).
    cbn [comps_of] in E'.
    assert (C : forall r a g, map (fun c => (cname c, enc (cty c))) r ++ map (fun c => (cname c, enc (cty c))) a
              ++ List.concat (map (map (fun c => (cname c, enc (cty c)))) g) =
              map (fun c => (cname c, enc (cty c))) (all_comps r a g)).
    { intros. unfold all_comps. now rewrite !map_app, concat_map. }
    cbn [enc]. rewrite !C, !nth_error_map, E, E'. cbn [option_map].
    rewrite Forall_forall in IH. rewrite (IH c (nth_error_In _ _ E) (cty c') v (proj1 (proj2 (proj2 L))) Kn).
    destruct (enc (cty c') v) as [body|]; [|reflexivity]. cbn [bind]. f_equal.
    pose proof L as (N & _). rewrite <- N. unfold encode_choice. unfold zlen.
    rewrite <- (f2_len _ _ _ Hr), <- (later_index _ _ _ Hr). destruct e; cbn [negb]; auto.
    destruct (index_of (cname c) r) as [j|] eqn:J; auto.
    assert (I : In (cname c) (map cname (a ++ List.concat g))).
    { apply nth_error_In in E. unfold all_comps in E. apply in_app_or in E as [X|X].
      - apply (in_map cname) in X. destruct (index_of_in _ _ X) as (k & Ek). congruence.
      - now apply in_map. }
    assert (I' : In (cname c) (map cname same)).
    { clear - I Hs. induction Hs as [|d d' l l' L F IH]; auto. destruct L as (N & _). cbn [map In] in *.
      rewrite <- N. tauto. }
    rewrite Eq, (index_more (cname c) same more I'), <- (later_index _ _ _ Hs).
    assert (X : isnil a && isnil g = false).
    { destruct a; auto. destruct g; auto. destruct I. }
    assert (X' : isnil a' && isnil g' = false).
    { destruct a'; auto. destruct g'; auto. cbn in Eq. destruct same; [destruct I'|discriminate]. }
    now rewrite X, X'.
Qed.

(** * What the earlier decoder makes of the same octets *)

(** Where the later decoder answers with something known, the earlier one
    answers the same; otherwise it raises. *)
Definition follows {A} (ok : A -> bool) (d d' : D A) : Prop :=
  forall p, match d' p with
            | Ok (a, q) => if ok a then d p = Ok (a, q) else exists e, d p = Err e
            | Err _ => exists e, d p = Err e
            end.

Lemma follows_same {A} (ok : A -> bool) d : (forall p a q, d p = Ok (a, q) -> ok a = true) -> follows ok d d.
Proof. intros N p. destruct (d p) as [[a q]|] eqn:E; eauto. now rewrite (N p a q E). Qed.

Lemma follows_refl {A} (d : D A) : follows (fun _ => true) d d.
Proof. now apply follows_same. Qed.

Lemma follows_bind {A B} ok1 ok2 (d d' : D A) (k k' : A -> D B) : follows ok1 d d' ->
  (forall a, ok1 a = true -> follows ok2 (k a) (k' a)) ->
  (forall a p b q, ok1 a = false -> k' a p = Ok (b, q) -> ok2 b = false) ->
  follows ok2 (dbind d k) (dbind d' k').
Proof.
  intros F1 F2 N p. specialize (F1 p). unfold dbind. destruct (d' p) as [[a q]|]; [|destruct F1 as (er & ->); eauto].
  destruct (ok1 a) eqn:O.
  - rewrite F1. apply F2, O.
  - destruct F1 as (er & ->). destruct (k' a q) as [[b q']|] eqn:Ek; eauto. rewrite (N a q b q' O Ek). eauto.
Qed.

Lemma follows_bind0 {A B} ok2 (d : D A) (k k' : A -> D B) : (forall a, follows ok2 (k a) (k' a)) ->
  follows ok2 (dbind d k) (dbind d k').
Proof. intros F. apply (follows_bind (fun _ => true)); auto using follows_refl. discriminate. Qed.

Lemma follows_open {A} ok (d d' : D A) : follows ok d d' ->
  follows ok (decode_open_type_field d) (decode_open_type_field d').
Proof.
  intros F. unfold decode_open_type_field. do 4 (apply follows_bind0; intros ?). intros q.
  specialize (F a2). destruct (d' a2) as [[x y]|]; [|destruct F as (er & ->); eauto].
  destruct (ok x); [now rewrite F|]. destruct F as (er & ->). eauto.
Qed.

Definition dok (t : ty) (d : dval) : bool := match d with DVal v => known t v | DEmpty => true end.

Lemma cast_later t t' d : grown t t' -> cast t d = cast t' d.
Proof. intros G. destruct d; auto. destruct t, t'; cbn [grown] in G; try tauto; subst; auto. Qed.

Lemma cast_known t d v : cast t d = Ok v -> known t v = dok t d.
Proof.
  destruct d as [x|]; cbn [cast dok]; [now intros [= <-]|].
  destruct t; try discriminate; destruct (ctest c 0); try discriminate; now intros [= <-].
Qed.

(** Decoding a component and converting it. *)
Lemma follows_cast {B} t t' d d' (k : val -> D B) ok : grown t t' -> follows (dok t) d d' ->
  (forall v, known t v = true -> follows ok (k v) (k v)) ->
  (forall v p b q, known t v = false -> k v p = Ok (b, q) -> ok b = false) ->
  follows ok (do x <- d; do v <- lift (cast t x); k v) (do x <- d'; do v <- lift (cast t' x); k v).
Proof.
  intros G F K1 K2. apply (follows_bind (dok t)); auto.
  - intros x O. rewrite (cast_later t t' x G). destruct (cast t' x) as [v|] eqn:E.
    + rewrite <- (cast_later t t' x G) in E. unfold dbind, lift. intros p. apply K1.
      now rewrite (cast_known _ _ _ E).
    + intros p. unfold dbind, lift. eauto.
  - intros x p b q O. rewrite <- (cast_later t t' x G). unfold dbind, lift.
    destruct (cast t x) as [v|] eqn:E; [|discriminate]. apply K2. now rewrite (cast_known _ _ _ E).
Qed.

(** The assignments of a SEQUENCE, each under its name. *)
Definition okl (cs : list (comp ty)) (l : list assign) : bool :=
  forallb (fun x => match index_of (fst x) cs with Some i => known (comp_ty cs i) (snd x) | None => true end) l.

Section SeqDec.
Variable cs : list (comp ty).
Hypothesis names : NoDup (map cname cs).

Definition dec_fine (c : comp ty) : Prop :=
  In c cs /\ forall t', grown (cty c) t' -> follows (dok (cty c)) (dec (cty c)) (dec t').

Lemma okl_one c v : In c cs -> okl cs [(cname c, v)] = known (cty c) v.
Proof.
  intros I. destruct (In_nth_error _ _ I) as (i & E). unfold okl. cbn [forallb fst snd].
  rewrite (index_of_nth cs i c names E). unfold comp_ty. rewrite E. apply andb_true_r.
Qed.

Lemma okl_app l m : okl cs (l ++ m) = okl cs l && okl cs m.
Proof. apply forallb_app. Qed.

Lemma follows_app (d d' e e' : D (list assign)) : follows (okl cs) d d' -> follows (okl cs) e e' ->
  follows (okl cs) (do a <- d; do r <- e; ret (a ++ r)) (do a <- d'; do r <- e'; ret (a ++ r)).
Proof.
  intros F1 F2. apply (follows_bind (okl cs)); auto.
  - intros a O. apply (follows_bind (okl cs)); auto.
    + intros r O'. apply follows_same. unfold ret. intros p x q [= <- _]. now rewrite okl_app, O, O'.
    + unfold ret. intros r p b q O' [= <- _]. now rewrite okl_app, O', andb_false_r.
  - intros a p b q O. unfold dbind, ret. destruct (e' p) as [[r q']|]; [|discriminate]. intros [= <- _].
    now rewrite okl_app, O.
Qed.

Lemma follows_nil : follows (okl cs) (ret []) (ret []).
Proof. apply follows_same. unfold ret. now intros p a q [= <- _]. Qed.

Lemma follows_take c c' d d' : later c c' -> In c cs -> follows (dok (cty c)) d d' ->
  follows (okl cs) (do x <- d; do v <- lift (cast (cty c) x); ret [(cname c, v)])
                   (do x <- d'; do v <- lift (cast (cty c') x); ret [(cname c', v)]).
Proof.
  intros (N & _ & G & _) I F. rewrite <- N. apply follows_cast; auto.
  - intros v O. apply follows_same. unfold ret. intros p a q [= <- _]. now rewrite okl_one.
  - unfold ret. intros v p b q O [= <- _]. now rewrite okl_one.
Qed.

Lemma root_follows l l' : Forall2 later l l' -> Forall dec_fine l ->
  forall bm, follows (okl cs) (dec_root dec l bm) (dec_root dec l' bm).
Proof.
  induction 1 as [|c c' l l' L F IH]; intros Fi bm; [apply follows_nil|].
  inversion Fi as [|? ? (I1 & F1) F2]; subst. specialize (IH F2). cbn [dec_root].
  rewrite <- (later_mand c c' L). pose proof (follows_take c c' _ _ L I1 (F1 (cty c') (proj1 (proj2 (proj2 L))))) as T.
  destruct (is_mandatory c); [apply follows_app; auto; apply IH|].
  destruct bm as [|b bm]; [intros p; unfold fail; eauto|].
  destruct b; apply follows_app; auto using follows_nil; apply IH.
Qed.

Lemma count_later l l' : Forall2 later l l' -> optional_count l = optional_count l'.
Proof.
  unfold optional_count. induction 1 as [|c c' l l' L F IH]; [reflexivity|]. cbn [filter].
  rewrite <- (later_opt c c' L), <- (later_dflt c c' L). destruct (is_optional c || is_defaulted c); cbn [List.length]; auto.
Qed.

Lemma part_follows l l' : Forall2 later l l' -> Forall dec_fine l ->
  follows (okl cs) (dec_root_part dec l) (dec_root_part dec l').
Proof.
  intros L F. unfold dec_root_part. rewrite <- (count_later l l' L). cbv zeta.
  destruct (Nat.eqb (optional_count l) 0); [now apply root_follows|].
  destruct (Z.of_nat (optional_count l) <? 65536); [|intros p; unfold fail; eauto].
  do 2 (apply follows_bind0; intros ?). now apply root_follows.
Qed.

Lemma adds_follows l l' : Forall2 later l l' -> Forall dec_fine l ->
  forall bm, follows (okl cs) (dec_adds dec l bm) (dec_adds dec l' bm).
Proof.
  induction 1 as [|c c' l l' L F IH]; intros Fi bm; [apply follows_nil|].
  inversion Fi as [|? ? (I1 & F1) F2]; subst. specialize (IH F2). cbn [dec_adds].
  destruct bm as [|b bm]; [apply follows_nil|]. apply follows_app; [|apply IH].
  destruct b; [|apply follows_nil]. apply follows_take; auto. apply follows_open, F1, L.
Qed.

Lemma groups_follow g g' : Forall2 (Forall2 later) g g' -> Forall dec_fine (List.concat g) ->
  forall bm, follows (okl cs) (dec_groups dec g bm) (dec_groups dec g' bm).
Proof.
  induction 1 as [|l l' g g' L F IH]; intros Fi bm; [apply follows_nil|].
  cbn [List.concat] in Fi. apply Forall_app in Fi as (F1 & F2). specialize (IH F2). cbn [dec_groups].
  destruct bm as [|b bm]; [apply follows_nil|]. apply follows_app; [|apply IH].
  destruct b; [|apply follows_nil]. now apply follows_open, part_follows.
Qed.

End SeqDec.

(** What the loops answer is one assignment at most for each component. *)
Definition listed (cs : list (comp ty)) (d : D (list assign)) : Prop :=
  forall p l q, d p = Ok (l, q) -> exists os, len os = len cs /\ l = assigns cs os.

Lemma listed_nil cs : listed cs (ret []).
Proof.
  unfold ret. intros p l q [= <- _]. exists (map (fun _ => None) cs). now rewrite map_length, assigns_none.
Qed.

Lemma listed_app cs cs' d e : listed cs d -> listed cs' e ->
  listed (cs ++ cs') (do a <- d; do r <- e; ret (a ++ r)).
Proof.
  intros L1 L2 p l q. unfold dbind, ret. destruct (d p) as [[a q1]|] eqn:E1; [|discriminate].
  destruct (e q1) as [[r q2]|] eqn:E2; [|discriminate]. intros [= <- _].
  destruct (L1 _ _ _ E1) as (o1 & N1 & ->), (L2 _ _ _ E2) as (o2 & N2 & ->).
  exists (o1 ++ o2). rewrite !app_length, assigns_app by auto. split; auto.
Qed.

Lemma listed_bind {A} cs (d : D A) k : (forall a, listed cs (k a)) -> listed cs (dbind d k).
Proof. intros L p l q. unfold dbind. destruct (d p) as [[a q1]|]; [apply L|discriminate]. Qed.

Lemma listed_take c d : listed [c] (do x <- d; do v <- lift (cast (cty c) x); ret [(cname c, v)]).
Proof.
  do 2 (apply listed_bind; intros ?). unfold ret. intros p l q [= <- _]. now exists [Some a0].
Qed.

Lemma listed_open cs d : listed cs d -> listed cs (decode_open_type_field d).
Proof.
  intros L. unfold decode_open_type_field. do 4 (apply listed_bind; intros ?). intros p l q.
  destruct (d a2) as [[x y]|] eqn:E; [|discriminate]. intros [= <- _]. eapply L, E.
Qed.

Lemma listed_root cs bm : listed cs (dec_root dec cs bm).
Proof.
  revert bm. induction cs as [|c cs IH]; intros bm; [apply listed_nil|]. cbn [dec_root].
  pose proof (fun b => listed_app [c] cs _ _ (listed_take c (dec (cty c))) (IH b)) as T.
  destruct (is_mandatory c); [apply T|]. destruct bm as [|b bm]; [intros p; discriminate|].
  destruct b; [apply T|]. apply (listed_app [c] cs); [apply listed_nil|apply IH].
Qed.

Lemma listed_part cs : listed cs (dec_root_part dec cs).
Proof.
  unfold dec_root_part. cbv zeta. destruct (Nat.eqb _ 0); [apply listed_root|].
  destruct (_ <? 65536); [|intros p; discriminate]. do 2 (apply listed_bind; intros ?). apply listed_root.
Qed.

Lemma listed_adds cs bm : listed cs (dec_adds dec cs bm).
Proof.
  revert bm. induction cs as [|c cs IH]; intros bm; [apply listed_nil|]. cbn [dec_adds].
  destruct bm as [|b bm]; [apply listed_nil|]. apply (listed_app [c] cs); [|apply IH].
  destruct b; [apply listed_take|apply listed_nil].
Qed.

Lemma listed_groups g bm : listed (List.concat g) (dec_groups dec g bm).
Proof.
  revert bm. induction g as [|l g IH]; intros bm; [apply listed_nil|]. cbn [dec_groups].
  destruct bm as [|b bm]; [apply listed_nil|]. cbn [List.concat]. apply listed_app; [|apply IH].
  destruct b; [apply listed_open, listed_part|apply listed_nil].
Qed.

Lemma okl_assigns cs os : NoDup (map cname cs) -> len os = len cs ->
  okl cs (assigns cs os) = forallb (fun b => b) (zipw known_slot (att known cs) os).
Proof.
  intros ND.
  assert (X : forall cs1 cs2 os, cs = cs1 ++ cs2 -> len os = len cs2 ->
     okl cs (assigns cs2 os) = forallb (fun b => b) (zipw known_slot (att known cs2) os)).
  { intros cs1 cs2. revert cs1. induction cs2 as [|c l IH]; intros cs1 [|o os1] E L; try discriminate; [reflexivity|].
    rewrite assigns_cons, okl_app. cbn [att map zipw forallb]. f_equal.
    - destruct o as [v|]; [|reflexivity]. cbn [assign1]. rewrite okl_one; auto. rewrite E. apply in_or_app. right. now left.
    - apply (IH (cs1 ++ [c])); [now rewrite <- app_assoc|]. now injection L. }
  intros L. now apply (X [] cs).
Qed.

Lemma assign_later l l' cs cs' : Forall2 later cs cs' -> forall slots,
  l = l' -> assign_all cs slots l = assign_all cs' slots l'.
Proof.
  intros F slots <-. revert slots. induction l as [|(nm, v) l IH]; intros slots; [reflexivity|]. cbn [assign_all].
  rewrite <- (later_index nm _ _ F). destruct (index_of nm cs); auto. now rewrite <- (f2_len _ _ _ F).
Qed.

Lemma assigned_known e r a g os : NoDup (map cname (all_comps r a g)) -> len os = len (all_comps r a g) ->
  exists slots, assign_all (all_comps r a g) None (assigns (all_comps r a g) os) = Ok slots /\
    known (TSeq e r a g) (VSeq slots) = okl (all_comps r a g) (assigns (all_comps r a g) os).
Proof.
  intros ND L. exists (slots_of os). split.
  - apply (assign_all_ok [] (all_comps r a g) [] os); auto.
  - rewrite okl_assigns by auto. unfold slots_of. destruct (forallb is_none os) eqn:N; [|apply known_seq].
    cbn [known]. apply forallb_none_repeat in N. rewrite N. generalize (len os). clear.
    intros n. generalize (att known (all_comps r a g)). induction n as [|n IH]; intros [|x l]; cbn [repeat zipw forallb]; auto.
    rewrite <- IH. reflexivity.
Qed.

Lemma assigns_later cs cs' os : Forall2 later cs cs' -> assigns cs os = assigns cs' os.
Proof.
  intros F. revert os. induction F as [|c c' l l' (N & _) F IH]; intros [|o os]; auto.
  rewrite !assigns_cons, IH. f_equal. unfold assign1. now rewrite N.
Qed.

Definition same_answer (t : ty) : Prop := forall t', grown t t' -> follows (dok t) (dec t) (dec t').

Lemma seq_answer e r a g : Forall (fun c => same_answer (cty c)) (all_comps r a g) -> same_answer (TSeq e r a g).
Proof.
  intros IH t' G. destruct (seq_later _ _ _ _ _ G) as (r' & a' & g' & -> & ND & Hr & Ha & Hg & F).
  set (cs := all_comps r a g) in *.
  assert (DF : Forall (dec_fine cs) cs).
  { rewrite Forall_forall in *. intros c I. split; auto. now apply IH. }
  change cs with (r ++ a ++ List.concat g) in DF at 2. apply Forall_app in DF as (D1 & D2). apply Forall_app in D2 as (D2 & D3).
  cbn [dec]. unfold decode_sequence. apply follows_bind0. intros eb.
  set (tl := fun (dr : D (list assign)) (ads : list (comp ty)) grs => 
     if negb (eb =? 0) then
       do n <- dec_length_normally_small;
       do v <- next_bits (Z.to_nat n);
       do bm <- lift (bin_zfill v (zlen ads + zlen grs));
       do _ <- align;
       do x <- dec_adds dec ads (firstn (List.length ads) bm);
       do y <- dec_groups dec grs (skipn (List.length ads) bm);
       ret (x ++ y)
     else ret []).
  assert (T : follows (okl cs) (tl (ret []) a g) (tl (ret []) a' g')).
  { unfold tl. destruct (negb (eb =? 0)); [|apply follows_nil].
    unfold zlen. rewrite <- (f2_len _ _ _ Ha), <- (f2_len _ _ _ Hg). do 4 (apply follows_bind0; intros ?).
    apply follows_app; [now apply adds_follows|now apply groups_follow]. }
  assert (LT : forall a g, listed (a ++ List.concat g) (tl (ret []) a g)).
  { clear. intros a g. unfold tl. destruct (negb (eb =? 0)); [|apply listed_nil].
    do 4 (apply listed_bind; intros ?). apply listed_app; [apply listed_adds|apply listed_groups]. }
  assert (W : forall r a g (k : list assign -> D dval) p,
     (do x <- dec_root_part dec r; do y <- tl (ret []) a g; k (x ++ y)) p =
     (do l <- (do x <- dec_root_part dec r; do y <- tl (ret []) a g; ret (x ++ y)); k l) p).
  { clearbody tl. clear. intros r a g k p. unfold dbind. destruct (dec_root_part dec r p) as [[x q]|]; auto.
    destruct (tl (ret []) a g q) as [[y q']|]; auto. }
  pose proof (follows_app cs _ _ _ _ (part_follows cs ND r r' Hr D1) T) as FA.
  pose proof (listed_app r' _ _ _ (listed_part r') (LT a' g')) as LA.
  intros p.
  change (match (do x <- dec_root_part dec r'; do y <- tl (ret []) a' g';
      (fun l => do slots <- lift (assign_all (all_comps r' a' g') None l); ret (DVal (VSeq slots))) (x ++ y)) p with
    | Ok (x, q) => if dok (TSeq e r a g) x then (do x <- dec_root_part dec r; do y <- tl (ret []) a g;
      (fun l => do slots <- lift (assign_all cs None l); ret (DVal (VSeq slots))) (x ++ y)) p = Ok (x, q)
      else exists er, (do x <- dec_root_part dec r; do y <- tl (ret []) a g;
      (fun l => do slots <- lift (assign_all cs None l); ret (DVal (VSeq slots))) (x ++ y)) p = Err er
    | Err _ => exists er, (do x <- dec_root_part dec r; do y <- tl (ret []) a g;
      (fun l => do slots <- lift (assign_all cs None l); ret (DVal (VSeq slots))) (x ++ y)) p = Err er
    end).
  rewrite (W r a g (fun l => do slots <- lift (assign_all cs None l); ret (DVal (VSeq slots)))).
  rewrite (W r' a' g' (fun l => do slots <- lift (assign_all (all_comps r' a' g') None l); ret (DVal (VSeq slots)))).
  specialize (FA p). specialize (LA p).
  revert FA LA. generalize (do x <- dec_root_part dec r'; do y <- tl (ret []) a' g'; ret (x ++ y)).
  generalize (do x <- dec_root_part dec r; do y <- tl (ret []) a g; ret (x ++ y)). intros d d' FA LA.
  unfold dbind, lift, ret. destruct (d' p) as [[l q]|].
  2:{ destruct FA as (er & ->). eauto. }
  destruct (LA l q eq_refl) as (os & N & El). fold (all_comps r' a' g') in N, El.
  rewrite <- (f2_len _ _ _ F) in N. rewrite <- (assigns_later _ _ _ F) in El. subst l.
  destruct (assigned_known e r a g os ND N) as (slots & As & Kn). fold cs in As, Kn.
  rewrite <- (assign_later _ _ cs (all_comps r' a' g') F None eq_refl), As.
  cbn [dok]. rewrite Kn. destruct (okl cs (assigns cs os)).
  - now rewrite FA, As.
  - destruct FA as (er & ->). eauto.
Qed.

Lemma n_follows t (d d' : D val) n : follows (known t) d d' ->
  follows (forallb (known t)) (dec_n d n) (dec_n d' n).
Proof.
  intros F. induction n as [|n IH]; cbn [dec_n].
  - apply follows_same. unfold ret. now intros p a q [= <- _].
  - apply (follows_bind (known t)); auto.
    + intros v O. apply (follows_bind (forallb (known t))); auto.
      * intros r O'. apply follows_same. unfold ret. intros p a q [= <- _]. cbn [forallb]. now rewrite O, O'.
      * unfold ret. intros r p b q O' [= <- _]. cbn [forallb]. now rewrite O', andb_false_r.
    + intros v p b q O. unfold dbind, ret. destruct (dec_n d' n p) as [[r q']|]; [|discriminate].
      intros [= <- _]. cbn [forallb]. now rewrite O.
Qed.

Lemma follows_ret {A B} ok ok' (d d' : D A) (k : A -> B) : follows ok d d' -> (forall a, ok' (k a) = ok a) ->
  follows ok' (do x <- d; ret (k x)) (do x <- d'; ret (k x)).
Proof.
  intros F Q. apply (follows_bind ok); auto.
  - intros a O. apply follows_same. unfold ret. intros p b q [= <- _]. now rewrite Q.
  - unfold ret. intros a p b q O [= <- _]. now rewrite Q.
Qed.

Lemma seqof_answer c t : same_answer t -> same_answer (TSeqOf c t).
Proof.
  intros IH t' G. destruct t' as [| | | | | |c' t'|]; cbn [grown] in G; try tauto. destruct G as (<- & G).
  cbn [dec]. unfold decode_sequence_of. apply follows_bind0. intros n.
  apply (follows_ret (forallb (known t))); auto. apply n_follows.
  apply (follows_bind (dok t)); [now apply IH| |].
  - intros d O. rewrite (cast_later t t' d G). apply follows_same. intros p v q. unfold lift.
    destruct (cast t' d) as [w|] eqn:E; [|discriminate]. intros [= <- _]. rewrite <- (cast_later t t' d G) in E.
    now rewrite (cast_known _ _ _ E).
  - intros d p v q O. unfold lift. destruct (cast t' d) as [w|] eqn:E; [|discriminate]. intros [= <- _].
    rewrite <- (cast_later t t' d G) in E. now rewrite (cast_known _ _ _ E).
Qed.

Definition decs (l : list (comp ty)) : list (ty * D dval) := map (fun c => (cty c, dec (cty c))) l.

Lemma follows_fail {A} ok er (d' : D A) : (forall p a q, d' p = Ok (a, q) -> ok a = false) -> follows ok (fail er) d'.
Proof.
  intros N p. destruct (d' p) as [[a q]|] eqn:E; [|unfold fail; eauto]. rewrite (N p a q E). unfold fail. eauto.
Qed.

(** An alternative that both versions have. *)
Lemma alt_follows e r a g j c c' d d' : nth_error (all_comps r a g) j = Some c -> later c c' ->
  follows (dok (cty c)) d d' ->
  follows (dok (TChoice e r a g))
    (do x <- d; do v <- lift (cast (cty c) x); ret (DVal (VChoice (Some (j, v)))))
    (do x <- d'; do v <- lift (cast (cty c') x); ret (DVal (VChoice (Some (j, v))))).
Proof.
  intros E (_ & _ & G & _) F. apply follows_cast; auto.
  - intros v O. apply follows_same. unfold ret. intros p x q [= <- _]. cbn [dok]. now rewrite known_choice, E.
  - unfold ret. intros v p x q O [= <- _]. cbn [dok]. now rewrite known_choice, E.
Qed.

Lemma choice_answer e r a g : Forall (fun c => same_answer (cty c)) (all_comps r a g) ->
  same_answer (TChoice e r a g).
Proof.
  intros IH t' G. destruct (choice_later _ _ _ _ _ G) as (r' & a' & g' & same & more & -> & Hr & Hs & Eq).
  rewrite Forall_forall in IH. cbn [dec]. unfold decode_choice. cbv zeta.
  set (ra := fun r : list (comp ty) =>
    do i <- (if Nat.eqb (List.length (decs r)) 1 then ret 0
             else decode_constrained_from_field_list (Some 0) (Some (zlen (decs r) - 1)));
    do x <- pick (decs r) i;
    do d <- snd x;
    do v <- lift (cast (fst x) d);
    ret (DVal (VChoice (Some (Z.to_nat i, v))))).
  assert (RA : follows (dok (TChoice e r a g)) (ra r) (ra r')).
  { unfold ra. unfold zlen, decs. rewrite !map_length, <- (f2_len _ _ _ Hr). apply follows_bind0. intros i.
    unfold pick. rewrite !nth_error_map. destruct (nth_error r (Z.to_nat i)) as [c|] eqn:E.
    - destruct (Forall2_nth _ _ _ _ _ Hr E) as (c' & -> & L). cbn [option_map].
      assert (E' : nth_error (all_comps r a g) (Z.to_nat i) = Some c).
      { unfold all_comps. rewrite nth_error_app1; auto. apply nth_error_Some. now rewrite E. }
      intros p. apply (alt_follows e r a g (Z.to_nat i) c c' _ _ E' L).
      apply (IH c (nth_error_In _ _ E')), L.
    - apply nth_error_None in E. rewrite (f2_len _ _ _ Hr) in E. apply nth_error_None in E. rewrite E.
      intros p. unfold dbind, fail. cbn [option_map]. eauto. }
  fold (decs r) (decs a) (decs r') (decs a').
  change (List.concat (map (map (fun c => (cty c, dec (cty c)))) g)) with (List.concat (map decs g)).
  change (List.concat (map (map (fun c => (cty c, dec (cty c)))) g')) with (List.concat (map decs g')).
  assert (DC : forall g, List.concat (map decs g) = decs (List.concat g)).
  { intros x. unfold decs. now rewrite concat_map. }
  rewrite !DC. fold (ra r) (ra r'). destruct e; cbn [negb]; [|exact RA].
  apply follows_bind0. intros b. destruct (b =? 0); [exact RA|].
  apply follows_bind0. intros i.
  assert (LN : forall l, List.length (decs l) = List.length l) by (intros; apply map_length).
  set (alt := fun l (r : list (ty * D dval)) => 
    do x <- pick (decs l) i;
    do d <- decode_open_type_field (snd x);
    do v <- lift (cast (fst x) d);
    ret (DVal (VChoice (Some ((List.length r + Z.to_nat i)%nat, v))))).
  assert (M : follows (dok (TChoice true r a g)) (alt (a ++ List.concat g) (decs r)) (alt (a' ++ List.concat g') (decs r'))).
  { rewrite Eq. unfold alt, pick. rewrite !LN, <- (f2_len _ _ _ Hr). unfold decs. rewrite !nth_error_map.
    destruct (nth_error (a ++ List.concat g) (Z.to_nat i)) as [c|] eqn:E.
    - destruct (Forall2_nth _ _ _ _ _ Hs E) as (c' & E1 & L).
      assert (E2 : nth_error (same ++ more) (Z.to_nat i) = Some c').
      { rewrite nth_error_app1; auto. apply nth_error_Some. now rewrite E1. }
      rewrite E2. cbn [option_map].
      assert (E' : nth_error (all_comps r a g) (len r + Z.to_nat i) = Some c).
      { unfold all_comps. rewrite nth_error_app2 by lia. now replace (len r + Z.to_nat i - len r)%nat with (Z.to_nat i) by lia. }
      intros p. apply (alt_follows true r a g (len r + Z.to_nat i) c c' _ _ E' L).
      apply follows_open, (IH c (nth_error_In _ _ E')), L.
    - cbn [option_map]. intros p.
      assert (X0 : exists er, (do x <- fail PyIndexError; do d <- decode_open_type_field (snd x);
         do v <- lift (cast (fst x) d); ret (DVal (VChoice (Some ((len r + Z.to_nat i)%nat, v))))) p = Err er).
      { eexists. reflexivity. }
      match goal with |- match ?x with _ => _ end => destruct x as [[x0 q]|] eqn:X end; [|exact X0].
      assert (O : dok (TChoice true r a g) x0 = false); [|rewrite O; exact X0].
      assert (NK : forall v, known (TChoice true r a g) (VChoice (Some ((len r + Z.to_nat i)%nat, v))) = false).
      { intros v. rewrite known_choice. unfold all_comps. rewrite nth_error_app2 by lia.
        replace (len r + Z.to_nat i - len r)%nat with (Z.to_nat i) by lia. now rewrite E. }
      revert X. destruct (option_map _ _) as [y|]; [|discriminate]. unfold dbind, ret.
      destruct (decode_open_type_field (snd y) p) as [[z q1]|]; [|discriminate]. unfold lift.
      destruct (cast (fst y) z) as [w|]; [|discriminate]. intros [= <- _]. apply NK. }
  assert (DA : forall l m, decs (l ++ m) = decs l ++ decs m) by (intros; apply map_app).
  unfold alt in M. rewrite !DA in M. intros p. specialize (M p).
  set (m := do x <- pick (decs a ++ decs (List.concat g)) i; do d <- decode_open_type_field (snd x);
     do v <- lift (cast (fst x) d); ret (DVal (VChoice (Some ((List.length (decs r) + Z.to_nat i)%nat, v))))) in *.
  set (m' := do x <- pick (decs a' ++ decs (List.concat g')) i; do d <- decode_open_type_field (snd x);
     do v <- lift (cast (fst x) d); ret (DVal (VChoice (Some ((List.length (decs r') + Z.to_nat i)%nat, v))))) in *.
  assert (X : isnil (decs a) && isnil (decs (List.concat g)) = true -> exists er, m p = Err er).
  { intros Y. apply andb_true_iff in Y as (Y1 & Y2). destruct (decs a); [|discriminate].
    destruct (decs (List.concat g)); [|discriminate]. unfold m, pick. cbn [app]. eexists.
    destruct (Z.to_nat i); reflexivity. }
  destruct (isnil (decs a) && isnil (decs (List.concat g))) eqn:Y.
  - destruct (X eq_refl) as (er & Ee). clearbody m. destruct (isnil (decs a') && isnil (decs (List.concat g'))).
    + cbv [fail]. eauto.
    + destruct (m' p) as [[x0 q]|]; [|unfold fail; eauto]. destruct (dok _ x0); [congruence|unfold fail; eauto].
  - destruct (isnil (decs a') && isnil (decs (List.concat g'))) eqn:Y'; [|exact M].
    exfalso. apply andb_true_iff in Y' as (Y1 & Y2).
    destruct a' as [|? ?]; [|discriminate]. destruct (List.concat g') as [|? ?]; [|discriminate].
    cbn [app] in Eq. destruct same as [|? ?]; [|discriminate]. apply f2_len in Hs.
    rewrite app_length in Hs. cbn [List.length] in Hs. destruct a; [|discriminate].
    destruct (List.concat g); discriminate.
Qed.

Lemma enum_answer e r a t' : grown (TEnum e r a) t' -> follows (dok (TEnum e r a)) (dec (TEnum e r a)) (dec t').
Proof.
  destruct t' as [| |e' r' a'| | | | |]; cbn [grown]; try tauto. intros (<- & <- & H0).
  assert (MK : forall m i, follows (dok (TEnum e r a)) (lift (mk_enum r a i)) (lift (mk_enum r (a ++ m) i))).
  { intros m i p. unfold lift, mk_enum. rewrite app_assoc, existsb_app.
    destruct (existsb (Z.eqb i) (r ++ a)) eqn:X; cbn [orb].
    - cbn [dok known]. now rewrite X.
    - destruct (existsb (Z.eqb i) m); [cbn [dok known]; rewrite X|]; eauto. }
  cbn [dec]. destruct H0 as [<-|(-> & m & ->)].
  - pose proof (fun i => MK [] i) as MK0. rewrite app_nil_r in MK0. unfold decode_enumerated. destruct e; cbn [negb].
    + apply follows_bind0. intros b. destruct (b =? 0); apply follows_bind0; auto.
    + apply follows_bind0; auto.
  - unfold decode_enumerated. cbn [negb].
    apply follows_bind0. intros b. destruct (b =? 0); apply follows_bind0; auto.
Qed.

Lemma same_answer_all t : same_answer t.
Proof.
  induction t as [t S0|e r a g IH|c t IH|e r a g IH] using ty_ind2.
  - intros t' G. destruct t as [|c|e r a|c|c| | |]; try discriminate S0; try (now apply enum_answer);
      destruct t' as [|c'|e' r' a'|c'|c'| | |]; cbn [grown] in G; try tauto; subst; apply follows_same; intros p x q _;
      now destruct x.
  - now apply seq_answer.
  - now apply seqof_answer.
  - now apply choice_answer.
Qed.

(** * The theorems *)

(** Whatever an object of the earlier version says, both versions send the same
    octets for it, or both raise the same. *)
Theorem C56_same_octets : forall t t' v, grown t t' -> known t v = true -> encode t v = encode t' v.
Proof. intros t t' v G Kn. rewrite !encode_spec. now rewrite (same_fields_all t t' v G Kn). Qed.

Lemma from_empty_later t t' : grown t t' -> from_empty t = from_empty t'.
Proof. destruct t, t'; cbn [grown]; try tauto; intros G; subst; auto. Qed.

Lemma from_empty_known t v : from_empty t = Ok v -> known t v = true.
Proof. destruct t; try discriminate; cbn; destruct (ctest c 0); try discriminate; now intros [= <-]. Qed.

Lemma decode_pos_later t t' bs : grown t t' ->
  match decode_pos bs t' with
  | Ok (v, q) => if known t v then decode_pos bs t = Ok (v, q) else exists e, decode_pos bs t = Err e
  | Err _ => exists e, decode_pos bs t = Err e
  end.
Proof.
  intros G. unfold decode_pos. destruct (per_init (PyBase.hexlify bs)) as [p|]; cbn [bind]; [|eauto].
  pose proof (same_answer_all t t' G p) as F. destruct (dec t' p) as [[d q]|]; cbn [bind fst snd].
  2:{ destruct F as (er & ->). cbn [bind]. eauto. }
  rewrite <- (from_empty_later t t' G). destruct d as [v|]; cbn [dok] in F.
  - destruct (eq_empty v) eqn:Em.
    + destruct (from_empty t) as [v'|] eqn:Fe; cbn [bind].
      * rewrite (from_empty_known t v' Fe).
        assert (Kn : known t v = true).
        { destruct v as [| | | |s| | | |[[i v]|]]; try discriminate Em; destruct t; try discriminate Fe; auto. }
        rewrite Kn in F. rewrite F. cbn [bind fst snd]. rewrite Em, ?Fe. reflexivity.
      * destruct (known t v); [rewrite F|destruct F as (er & ->)]; cbn [bind fst snd]; rewrite ?Em, ?Fe; cbn [bind]; eauto.
    + destruct (known t v); [rewrite F|destruct F as (er & ->)]; cbn [bind fst snd]; rewrite ?Em; eauto.
  - rewrite F. cbn [bind fst snd]. destruct (from_empty t) as [v'|] eqn:Fe; cbn [bind]; [|eauto].
    now rewrite (from_empty_known t v' Fe).
Qed.

Lemma decode_later t t' bs : grown t t' ->
  match decode bs t' with
  | Ok v => if known t v then decode bs t = Ok v else exists e, decode bs t = Err e
  | Err _ => exists e, decode bs t = Err e
  end.
Proof.
  intros G. pose proof (decode_pos_later t t' bs G) as F. unfold decode.
  destruct (decode_pos bs t') as [[v q]|]; cbn [bind fst].
  - destruct (known t v); [now rewrite F|]. destruct F as (er & ->). cbn [bind]. eauto.
  - destruct F as (er & ->). cbn [bind]. eauto.
Qed.

(** The later receiver reads whatever the earlier one reads. *)
Theorem C56_new_reads_old : forall t t' bs v, grown t t' -> decode bs t = Ok v -> decode bs t' = Ok v.
Proof.
  intros t t' bs v G E. pose proof (decode_later t t' bs G) as F. destruct (decode bs t') as [w|].
  - destruct (known t w); [congruence|]. destruct F as (er & F). congruence.
  - destruct F as (er & F). congruence.
Qed.

(** The earlier receiver reads what it knows as the later one does, and raises
    when it does not know something, whatever the octets are. *)
Theorem C56_old_reads_new : forall t t' bs v, grown t t' -> decode bs t' = Ok v ->
  (known t v = true -> decode bs t = Ok v) /\ (known t v = false -> exists e, decode bs t = Err e).
Proof.
  intros t t' bs v G E. pose proof (decode_later t t' bs G) as F. rewrite E in F.
  destruct (known t v); split; auto; discriminate.
Qed.

(** An octet string that the later receiver refuses is refused by the earlier. *)
Theorem C56_refused : forall t t' bs e', grown t t' -> decode bs t' = Err e' -> exists e, decode bs t = Err e.
Proof. intros t t' bs e' G E. pose proof (decode_later t t' bs G) as F. now rewrite E in F. Qed.

Definition C56_old : ty :=
  TSeq true
    [Comp "c" Mand (TChoice true [Comp "a" Mand TBool] [Comp "b" Mand (TInt CNone)] []);
     Comp "e" (Dflt (VEnum 0)) (TEnum true [0; 1] [])] 
    [Comp "l" Opt (TSeqOf (CSeqSize false (Some 0) None) (TEnum true [0; 1] [2]))] [].

Definition C56_new : ty :=
  TSeq true
    [Comp "c" Mand (TChoice true [Comp "a" Mand TBool]
        [Comp "b" Mand (TInt CNone); Comp "d" Mand TBool] [[Comp "f" Mand TBool]]);
     Comp "e" (Dflt (VEnum 0)) (TEnum true [0; 1] [2; 3])] 
    [Comp "l" Opt (TSeqOf (CSeqSize false (Some 0) None) (TEnum true [0; 1] [2; 3]))] [].

Definition C56_msg : val :=
  VSeq (Some [Some (VChoice (Some (1%nat, VInt 7))); Some (VEnum 1); Some (VSeqOf [VEnum 0; VEnum 2])]).
Definition C56_deep : val :=
  VSeq (Some [Some (VChoice (Some (1%nat, VInt 7))); Some (VEnum 1); Some (VSeqOf [VEnum 0; VEnum 3])]).
Definition C56_choice : val :=
  VSeq (Some [Some (VChoice (Some (3%nat, VBool true))); Some (VEnum 1); None]).

Example C56_case :
  grown C56_old C56_new /\ known C56_old C56_msg = true /\
  encode C56_old C56_msg = encode C56_new C56_msg /\
  (let bs := [224; 0; 2; 1; 7; 64; 64; 3; 2; 32; 0] in
   encode C56_new C56_msg = Ok bs /\ decode bs C56_old = Ok C56_msg /\ decode bs C56_new = Ok C56_msg) /\
  known C56_old C56_deep = false /\ known C56_old C56_choice = false /\
  (let bs := [224; 0; 2; 1; 7; 64; 64; 3; 2; 32; 64] in
   encode C56_new C56_deep = Ok bs /\ decode bs C56_new = Ok C56_deep /\ decode bs C56_old = Err PyTypeError) /\
  (let bs := [96; 128; 1; 128; 64] in
   encode C56_new C56_choice = Ok bs /\ decode bs C56_new = Ok C56_choice /\ decode bs C56_old = Err PyIndexError).
Proof.
  split.
  { cbn [grown C56_old C56_new att map all_comps List.concat app]. split; [reflexivity|].
    split; [repeat constructor; cbn; intuition discriminate|].
    assert (P : forall n p t t', grown t t' -> (forall d, p = Dflt d -> known t d = true) ->
        kept (Comp n p t, grown t) (Comp n p t')) by (intros; repeat (split; auto)).
    split; [|split; [|constructor]]; repeat (apply Forall2_cons; [apply P|]); try apply Forall2_nil;
      try discriminate; cbn [grown att map]; repeat (split; [reflexivity|]).
    - split; [repeat constructor; discriminate|]. exists [Comp "b" Mand (TInt CNone)], [Comp "d" Mand TBool; Comp "f" Mand TBool].
      split; [reflexivity|]. repeat constructor; discriminate.
    - right. split; auto. exists [2; 3]. reflexivity.
    - intros d [= <-]. reflexivity.
    - right. split; auto. exists [3]. reflexivity. }
  split; [reflexivity|]. split; [vm_compute; reflexivity|].
  split; [vm_compute; repeat split; reflexivity|].
  split; [reflexivity|]. split; [reflexivity|].
  split; vm_compute; repeat split; reflexivity.
Qed.
