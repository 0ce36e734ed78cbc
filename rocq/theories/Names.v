(** The names of components are not sent: types that differ only in them have the
    same encodings (property C63). *)
From Coq Require Import ZArith List String Bool Lia Arith.
Import ListNotations.
From Verif Require Import PyBase Schema Encoder Decoder RoundTrip Objects.
Open Scope Z_scope.

(** * Types that differ in names only *)

(** The same types, markers, presence and DEFAULT values at every place; the names
    are arbitrary but distinct within each SEQUENCE and CHOICE. *)
Inductive twin : ty -> ty -> Prop :=
| twin_simple t : is_simple t = true -> twin t t
| twin_seq e r a g r' a' g' :
    NoDup (map cname (all_comps r a g)) -> NoDup (map cname (all_comps r' a' g')) ->
    Forall2 (fun c c' => cpres c = cpres c' /\ twin (cty c) (cty c')) r r' ->
    Forall2 (fun c c' => cpres c = cpres c' /\ twin (cty c) (cty c')) a a' ->
    Forall2 (Forall2 (fun c c' => cpres c = cpres c' /\ twin (cty c) (cty c'))) g g' ->
    twin (TSeq e r a g) (TSeq e r' a' g')
| twin_seqof c t t' : twin t t' -> twin (TSeqOf c t) (TSeqOf c t')
| twin_choice e r a g r' a' g' :
    NoDup (map cname (all_comps r a g)) -> NoDup (map cname (all_comps r' a' g')) ->
    Forall2 (fun c c' => cpres c = cpres c' /\ twin (cty c) (cty c')) r r' ->
    Forall2 (fun c c' => cpres c = cpres c' /\ twin (cty c) (cty c')) a a' ->
    Forall2 (Forall2 (fun c c' => cpres c = cpres c' /\ twin (cty c) (cty c'))) g g' ->
    twin (TChoice e r a g) (TChoice e r' a' g').

Definition twins (c c' : comp ty) : Prop := cpres c = cpres c' /\ twin (cty c) (cty c').

(** Two of the errors carry the name of a component. *)
Definition nameless (e : exn) : exn :=
  match e with
  | MandatoryExtensionFieldNotPresent _ => MandatoryExtensionFieldNotPresent ""
  | MandatoryFieldNotPresentInExtensionGroup _ => MandatoryFieldNotPresentInExtensionGroup ""
  | e => e
  end.

(** An outcome but for the name in an error. *)
Definition outcome {A} (r : res A) : res A :=
  match r with Ok a => Ok a | Err e => Err (nameless e) end.

Lemma outcome_bind {A B} (x y : res A) (f g : A -> res B) : outcome x = outcome y ->
  (forall a, outcome (f a) = outcome (g a)) -> outcome (bind x f) = outcome (bind y g).
Proof.
  intros E F. destruct x as [a|e], y as [b|e']; cbn [outcome bind] in *; try discriminate.
  - injection E as <-. apply F.
  - injection E as E. now rewrite E.
Qed.

(** * Parts *)

Lemma Forall2_mono {A B} (P Q : A -> B -> Prop) l l' : (forall a b, P a b -> Q a b) -> Forall2 P l l' -> Forall2 Q l l'.
Proof. intros X. induction 1; constructor; auto. Qed.

Lemma Forall2_concat {A B} (P : A -> B -> Prop) l l' : Forall2 (Forall2 P) l l' ->
  Forall2 P (List.concat l) (List.concat l').
Proof. induction 1; cbn [List.concat]; [constructor|]. now apply Forall2_app. Qed.

Lemma twins_all r a g r' a' g' : Forall2 twins r r' -> Forall2 twins a a' ->
  Forall2 (Forall2 twins) g g' -> Forall2 twins (all_comps r a g) (all_comps r' a' g').
Proof. intros. unfold all_comps. apply Forall2_app; auto. apply Forall2_app; auto. now apply Forall2_concat. Qed.

Lemma twin_comps t t' : twin t t' -> Forall2 twins (comps_of t) (comps_of t').
Proof.
  intros [u U| | |]; cbn [comps_of]; try constructor; try (now apply twins_all).
  destruct u; try discriminate U; constructor.
Qed.

Lemma twin_elem t t' : twin t t' -> twin (elem_of t) (elem_of t').
Proof. intros [u U| | |]; cbn [elem_of]; auto; try (now constructor). destruct u; try discriminate U; now constructor. Qed.

Lemma Forall2_nth' {A B} (P : A -> B -> Prop) l l' : Forall2 P l l' -> forall i,
  match nth_error l i, nth_error l' i with Some a, Some b => P a b | None, None => True | _, _ => False end.
Proof. induction 1 as [|a b l l' Pab F IH]; intros [|i]; cbn [nth_error]; auto. apply IH. Qed.

Lemma twin_comp_ty cs cs' i : Forall2 twins cs cs' -> twin (comp_ty cs i) (comp_ty cs' i).
Proof.
  intros F. unfold comp_ty. pose proof (Forall2_nth' _ _ _ F i) as N.
  destruct (nth_error cs i), (nth_error cs' i); try tauto; [apply N|now constructor].
Qed.

Lemma twin_fresh t t' : twin t t' -> fresh t = fresh t'.
Proof. now intros [| | |]. Qed.

Lemma twin_cast t t' d : twin t t' -> cast t d = cast t' d.
Proof. now intros [| | |]. Qed.

Lemma twin_from_empty t t' : twin t t' -> from_empty t = from_empty t'.
Proof. now intros [| | |]. Qed.

Lemma twins_mand c c' : twins c c' -> is_mandatory c = is_mandatory c'.
Proof. intros (E & _). unfold is_mandatory. now rewrite E. Qed.

Lemma twins_opt c c' : twins c c' -> is_optional c = is_optional c'.
Proof. intros (E & _). unfold is_optional. now rewrite E. Qed.

Lemma twins_get c c' s : twins c c' -> slot_get c s = slot_get c' s.
Proof. intros (E & T). unfold slot_get. rewrite E, (twin_fresh _ _ T). reflexivity. Qed.

Lemma twins_all_mand cs cs' : Forall2 twins cs cs' ->
  forallb (fun c => negb (is_mandatory c)) cs = forallb (fun c => negb (is_mandatory c)) cs'.
Proof. induction 1 as [|c c' cs cs' T F IH]; [reflexivity|]. cbn [forallb]. now rewrite IH, (twins_mand _ _ T). Qed.

(** * What has a value *)

Lemma twin_is_value : forall v t t', twin t t' -> is_value t v = is_value t' v.
Proof.
  fix IH 1. intros v t t' T. pose proof (twin_comps _ _ T) as F. pose proof (twin_elem _ _ T) as E.
  destruct v as [| | | | | |[ss|]|vs|[[i v]|]]; cbn [is_value]; try reflexivity.
  - revert F. generalize (comps_of t), (comps_of t'). clear T E t t'. intros l l' F. f_equal.
    + revert l l' F. induction ss as [|s ss IHs]; intros l l' F; [now apply twins_all_mand|].
      destruct F as [|c c' l l' T F]; [reflexivity|]. rewrite (twins_mand _ _ T). f_equal; [|now apply IHs].
      f_equal. destruct s as [v|]; auto. apply IH, T.
    + revert l l' F. induction ss as [|s ss IHs]; intros l l' F; [reflexivity|].
      destruct F as [|c c' l l' T F]; [reflexivity|]. f_equal; [|now apply IHs].
      destruct s as [v|]; auto. apply IH, T.
  - pose proof (twins_all_mand _ _ F) as Q. now destruct F.
  - destruct vs as [|v0 vs0]; auto. cbn [forallb]. f_equal; [now apply IH|].
    induction vs0 as [|v l IHl]; auto. cbn [forallb]. f_equal; [now apply IH|exact IHl].
  - apply IH. now apply twin_comp_ty.
Qed.

(** * Positions *)

Lemma twins_length cs cs' : Forall2 twins cs cs' -> List.length cs = List.length cs'.
Proof. intros F. exact (Forall2_length _ _ _ F). Qed.

(** Names that stand for the same thing in the two lists. *)
Definition places (cs cs' : list (comp ty)) (nm nm' : string) : Prop := index_of nm cs = index_of nm' cs'.

Lemma places_all cs cs' : NoDup (map cname cs) -> NoDup (map cname cs') -> Forall2 twins cs cs' ->
  Forall2 (fun c c' => twins c c' /\ places cs cs' (cname c) (cname c')) cs cs'.
Proof.
  intros N N' F.
  assert (X : forall l l' l1 l1', cs = l1 ++ l -> cs' = l1' ++ l' -> List.length l1 = List.length l1' ->
     Forall2 twins l l' -> Forall2 (fun c c' => twins c c' /\ places cs cs' (cname c) (cname c')) l l').
  { induction l as [|c l IH]; intros l' l1 l1' E E' L Q; inversion Q; subst; constructor.
    - split; auto. unfold places. rewrite (index_of_nth (l1 ++ c :: l) (List.length l1) c); auto.
      + rewrite (index_of_nth (l1' ++ y :: l'0) (List.length l1) y); auto.
        rewrite L, nth_error_app2, Nat.sub_diag by lia. reflexivity.
      + rewrite nth_error_app2, Nat.sub_diag by lia. reflexivity.
    - apply (IH _ (l1 ++ [c]) (l1' ++ [y])); auto; rewrite <- ?app_assoc; auto. rewrite !app_length, L. reflexivity. }
  apply (X cs cs' [] []); auto.
Qed.

Lemma places_look cs cs' slots nm nm' : Forall2 twins cs cs' -> places cs cs' nm nm' ->
  get_by_name cs slots nm = get_by_name cs' slots nm'.
Proof.
  intros F P. unfold get_by_name. rewrite <- P. destruct (index_of nm cs) as [i|]; auto.
  pose proof (Forall2_nth' _ _ _ F i) as N. destruct (nth_error cs i), (nth_error cs' i); try tauto.
  now rewrite (twins_get c c0).
Qed.

(** * Encoding *)

Definition same_enc (t : ty) : Prop := forall t' v, twin t t' -> outcome (enc t v) = outcome (enc t' v).

Definition paired (look look' : string -> res val) (c c' : comp ty) : Prop :=
  twins c c' /\ look (cname c) = look' (cname c').

Lemma root_twins look look' cs cs' : Forall2 (paired look look') cs cs' -> Forall (fun c => same_enc (cty c)) cs ->
  outcome (enc_root enc look cs) = outcome (enc_root enc look' cs').
Proof.
  induction 1 as [|c c' cs cs' (T & L) F IH]; intros S; [reflexivity|]. apply Forall_cons_iff in S as (S1 & S2).
  cbn [enc_root]. destruct T as (E & T). apply outcome_bind; [now rewrite L|]. intros v.
  apply outcome_bind; [|intros bf; apply outcome_bind; [now apply IH|reflexivity]].
  rewrite <- E. destruct (cpres c) as [| |d].
  - apply outcome_bind; [now apply S1|reflexivity].
  - rewrite (twin_is_value v _ _ T). destruct (is_value (cty c') v && comp_values_ok v); [|reflexivity].
    apply outcome_bind; [now apply S1|reflexivity].
  - apply outcome_bind; [reflexivity|]. intros [|]; [|reflexivity]. apply outcome_bind; [now apply S1|reflexivity].
Qed.

Definition like (p q : prev_comp) : Prop := ppresent p = ppresent q /\ poptional p = poptional q.

Definition like_opt (p q : option prev_comp) : Prop :=
  match p, q with Some p, Some q => like p q | None, None => True | _, _ => False end.

Lemma like_missing p q : like_opt p q ->
  match prev_missing p, prev_missing q with Some _, Some _ => True | None, None => True | _, _ => False end.
Proof.
  intros L. destruct p as [p|], q as [q|]; cbn [like_opt prev_missing] in *; try tauto.
  destruct L as (-> & ->). now destruct (_ && _).
Qed.

Lemma adds_twins look look' cs cs' : Forall2 (paired look look') cs cs' -> Forall (fun c => same_enc (cty c)) cs ->
  forall p q, like_opt p q -> outcome (enc_adds enc look p cs) = outcome (enc_adds enc look' q cs').
Proof.
  induction 1 as [|c c' cs cs' (T & L) F IH]; intros S p q PQ; [reflexivity|]. apply Forall_cons_iff in S as (S1 & S2).
  cbn [enc_adds]. apply outcome_bind; [now rewrite L|]. intros v.
  apply outcome_bind; [|intros bf; apply outcome_bind; [|reflexivity]].
  - rewrite (twin_is_value v _ _ (proj2 T)). destruct (is_value (cty c') v); [|reflexivity].
    pose proof (like_missing p q PQ) as M. destruct (prev_missing p), (prev_missing q); try contradiction; [reflexivity|].
    destruct (comp_values_ok v); [|reflexivity]. apply outcome_bind; [apply S1, T|reflexivity].
  - apply IH; auto. cbn [like_opt]. split; cbn [ppresent poptional]; auto. now apply twins_opt.
Qed.

(** Outcomes with records of components. *)
Definition scans (x y : res (list prev_comp)) : Prop :=
  match x, y with
  | Ok l, Ok m => Forall2 like l m
  | Err e, Err e' => nameless e = nameless e'
  | _, _ => False
  end.

Lemma scan_twins look look' cs cs' : Forall2 (paired look look') cs cs' ->
  forall p q, like_opt p q -> scans (group_scan look p cs) (group_scan look' q cs').
Proof.
  induction 1 as [|c c' cs cs' (T & L) F IH]; intros p q PQ; [constructor|].
  cbn [group_scan]. rewrite <- L. destruct (look (cname c)) as [v|e]; [|reflexivity]. cbn [bind].
  rewrite (twin_is_value v _ _ (proj2 T)). rewrite (twins_opt _ _ T).
  assert (X : forall b : bool, scans
     (let* r := group_scan look (Some (Prev (cname c) b (is_optional c'))) cs in Ok (Prev (cname c) b (is_optional c') :: r))
     (let* r := group_scan look' (Some (Prev (cname c') b (is_optional c'))) cs' in Ok (Prev (cname c') b (is_optional c') :: r))).
  { intros b. assert (Lk : like (Prev (cname c) b (is_optional c')) (Prev (cname c') b (is_optional c'))) by (split; reflexivity).
    specialize (IH (Some (Prev (cname c) b (is_optional c'))) (Some (Prev (cname c') b (is_optional c'))) Lk).
    destruct (group_scan look (Some (Prev (cname c) b (is_optional c'))) cs), (group_scan look' (Some (Prev (cname c') b (is_optional c'))) cs');
      cbn [scans bind] in *; auto. }
  destruct (is_value (cty c') v); [|apply X].
  pose proof (like_missing p q PQ) as M. destruct (prev_missing p), (prev_missing q); try contradiction; [reflexivity|]. apply X.
Qed.

Lemma like_exists f l m : (forall p q, like p q -> f p = f q) -> Forall2 like l m -> existsb f l = existsb f m.
Proof. intros E. induction 1; [reflexivity|]. cbn [existsb]. now rewrite IHForall2, (E x y). Qed.

Definition like_groups (p q : option (list prev_comp)) : Prop :=
  match p, q with Some p, Some q => Forall2 like p q | None, None => True | _, _ => False end.

Lemma groups_twins look look' gs gs' : Forall2 (Forall2 (paired look look')) gs gs' ->
  Forall (fun c => same_enc (cty c)) (List.concat gs) ->
  forall p q, like_groups p q -> outcome (enc_groups enc look p gs) = outcome (enc_groups enc look' q gs').
Proof.
  induction 1 as [|g g' gs gs' P F IH]; intros S p q PQ; [reflexivity|].
  cbn [List.concat] in S. apply Forall_app in S as (S1 & S2). cbn [enc_groups].
  pose proof (scan_twins _ _ _ _ P None None Logic.I) as Sc.
  destruct (group_scan look None g) as [ps|e], (group_scan look' None g') as [qs|e']; cbn [scans] in Sc; try tauto;
    [|cbn [bind outcome]; now rewrite Sc].
  cbn [bind]. apply outcome_bind; [|intros bf; apply outcome_bind; [now apply IH|reflexivity]].
  rewrite (like_exists ppresent ps qs) by (auto; intros x y X; apply X). destruct (existsb ppresent qs); [|reflexivity].
  apply outcome_bind.
  - destruct p as [p|], q as [q|]; cbn [like_groups] in PQ; try tauto.
    rewrite (like_exists (fun z => ppresent z || poptional z) p q) by (auto; intros x y (X & Y); now rewrite X, Y).
    destruct (existsb _ q); [reflexivity|]. destruct PQ as [|x y p q X PQ]; [reflexivity|]. reflexivity.
  - intros _. apply outcome_bind; [now apply root_twins|]. reflexivity.
Qed.

Lemma isnil_pair {A B} (P : A -> B -> Prop) l l' : Forall2 P l l' -> isnil l = isnil l'.
Proof. now intros [|]. Qed.

Lemma cut_same {A} (l m x y : list A) : l ++ x = m ++ y -> List.length l = List.length m -> l = m /\ x = y.
Proof.
  revert m. induction l as [|a l IH]; intros [|b m] E L; cbn [List.length app] in *; try discriminate; auto.
  injection E as -> E. apply IH in E as (-> & ->); auto.
Qed.

Lemma pair_split {A B} (P : A -> B -> Prop) r a g r' a' g' : Forall2 P (r ++ a ++ List.concat g) (r' ++ a' ++ List.concat g') ->
  List.length r = List.length r' -> List.length a = List.length a' ->
  Forall2 P r r' /\ Forall2 P a a' /\ Forall2 P (List.concat g) (List.concat g').
Proof.
  intros F L M. apply Forall2_app_inv_l in F as (x & y & Fx & F & E). apply Forall2_app_inv_l in F as (y1 & y2 & Fy & F & E2).
  subst y. pose proof (Forall2_length _ _ _ Fx) as Lx. pose proof (Forall2_length _ _ _ Fy) as Ly.
  apply cut_same in E as (<- & E); [|congruence]. apply cut_same in E as (<- & <-); [|congruence]. auto.
Qed.

Lemma pair_groups {A B} (P Q : A -> B -> Prop) g g' : Forall2 (Forall2 Q) g g' -> Forall2 P (List.concat g) (List.concat g') ->
  Forall2 (Forall2 P) g g'.
Proof.
  induction 1 as [|x y g g' X F IH]; intros C; [constructor|]. cbn [List.concat] in C.
  apply Forall2_app_inv_l in C as (y1 & y2 & C1 & C2 & E). pose proof (Forall2_length _ _ _ C1) as L1. pose proof (Forall2_length _ _ _ X) as L2.
  apply cut_same in E as (<- & <-); [|congruence]. constructor; auto.
Qed.

Lemma pairs_all r a g r' a' g' slots :
  NoDup (map cname (all_comps r a g)) -> NoDup (map cname (all_comps r' a' g')) ->
  Forall2 twins r r' -> Forall2 twins a a' -> Forall2 (Forall2 twins) g g' ->
  let look := get_by_name (all_comps r a g) slots in
  let look' := get_by_name (all_comps r' a' g') slots in
  Forall2 (paired look look') r r' /\ Forall2 (paired look look') a a' /\ Forall2 (Forall2 (paired look look')) g g'.
Proof.
  intros N N' R A G look look'. pose proof (twins_all _ _ _ _ _ _ R A G) as F.
  assert (P : Forall2 (paired look look') (all_comps r a g) (all_comps r' a' g')).
  { eapply Forall2_mono; [|exact (places_all _ _ N N' F)]. intros c c' (T & P). split; auto. now apply places_look. }
  unfold all_comps in P. apply pair_split in P as (P1 & P2 & P3);
    [|exact (twins_length _ _ R)|exact (twins_length _ _ A)].
  split; [exact P1|]. split; [exact P2|]. exact (pair_groups _ _ _ _ G P3).
Qed.

Lemma enc_list_twins e e' vs : (forall v, outcome (e v) = outcome (e' v)) ->
  outcome (enc_list e vs) = outcome (enc_list e' vs).
Proof.
  intros E. induction vs as [|v vs IH]; [reflexivity|]. cbn [enc_list].
  apply outcome_bind; [apply E|]. intros x. apply outcome_bind; [apply IH|reflexivity].
Qed.

(** The alternatives with their encoders, in the model of CHOICE. *)
Lemma alternatives r a g : map (fun c => (cname c, enc (cty c))) r
    ++ map (fun c => (cname c, enc (cty c))) a
    ++ List.concat (map (map (fun c => (cname c, enc (cty c)))) g)
  = map (fun c => (cname c, enc (cty c))) (all_comps r a g).
Proof. unfold all_comps. now rewrite !map_app, concat_map. Qed.

(** A name of a prefix of the list is at the same place in it. *)
Lemma index_app {T} nm (l m : list (comp T)) : index_of nm (l ++ m) =
  match index_of nm l with Some i => Some i | None => option_map (Nat.add (List.length l)) (index_of nm m) end.
Proof.
  induction l as [|c l IH]; cbn [app index_of List.length]; [now destruct (index_of nm m)|].
  destruct (String.eqb (cname c) nm); [reflexivity|]. rewrite IH. destruct (index_of nm l); [reflexivity|].
  now destruct (index_of nm m).
Qed.

Lemma index_lt {T} nm (l : list (comp T)) i : index_of nm l = Some i -> (i < List.length l)%nat.
Proof.
  revert i. induction l as [|c l IH]; cbn [index_of List.length]; [discriminate|]. intros i.
  destruct (String.eqb (cname c) nm); [intros [= <-]; lia|]. destruct (index_of nm l); [|discriminate].
  intros [= <-]. pose proof (IH n eq_refl). lia.
Qed.

Lemma places_split l m l' m' nm nm' : List.length l = List.length l' ->
  index_of nm (l ++ m) = index_of nm' (l' ++ m') :> option nat ->
  @index_of ty nm l = @index_of ty nm' l' /\ (index_of nm l = None -> @index_of ty nm m = @index_of ty nm' m').
Proof.
  intros L. rewrite !index_app. destruct (index_of nm l) as [i|] eqn:E, (index_of nm' l') as [j|] eqn:E'; auto.
  - intros [= <-]. split; auto. discriminate.
  - pose proof (index_lt _ _ _ E). destruct (index_of nm' m'); [|discriminate]. cbn [option_map]. intros [= ->]. lia.
  - pose proof (index_lt _ _ _ E'). destruct (index_of nm m); [|discriminate]. cbn [option_map]. intros [= <-]. lia.
  - intros X. split; auto. intros _. rewrite L in X. destruct (index_of nm m), (index_of nm' m'); cbn [option_map] in X;
      try discriminate; auto. injection X as X. f_equal. lia.
Qed.

Lemma twin_choice_index e r a g r' a' g' nm nm' body :
  Forall2 twins r r' -> Forall2 twins a a' -> Forall2 (Forall2 twins) g g' ->
  places (all_comps r a g) (all_comps r' a' g') nm nm' ->
  encode_choice e r a g nm body = encode_choice e r' a' g' nm' body.
Proof.
  intros R A G P. unfold places, all_comps in P. apply places_split in P as (P1 & P2); [|exact (twins_length _ _ R)].
  unfold encode_choice, zlen. rewrite <- (twins_length _ _ R), <- P1.
  rewrite <- (isnil_pair _ _ _ A), <- (isnil_pair _ _ _ G).
  destruct (index_of nm r) as [i|]; [reflexivity|]. now rewrite <- P2.
Qed.

Lemma enc_twin : forall t, same_enc t.
Proof.
  induction t as [t St|e r a g IH|k t IH|e r a g IH] using ty_ind2; intros t' v T.
  - inversion T; subst; try discriminate St. reflexivity.
  - inversion T as [x X|e' r0 a0 g0 r' a' g' N N' R A G| |]; subst; [discriminate X|].
    destruct v as [| | | | | |slots|vs|sel]; try reflexivity. cbn [enc].
    destruct (pairs_all _ _ _ _ _ _ slots N N' R A G) as (Pr & Pa & Pg). unfold encode_sequence.
    unfold all_comps in IH. apply Forall_app in IH as (I1 & IH). apply Forall_app in IH as (I2 & I3).
    apply outcome_bind; [now apply root_twins|]. intros rf. apply outcome_bind; [reflexivity|]. intros fs.
    destruct e; [|reflexivity]. rewrite <- (isnil_pair _ _ _ A), <- (isnil_pair _ _ _ G).
    destruct (isnil a && isnil g); [reflexivity|].
    apply outcome_bind; [now apply adds_twins|]. intros x. apply outcome_bind; [now apply groups_twins|]. reflexivity.
  - inversion T as [x X| |k' u u' U|]; subst; [discriminate X|].
    destruct v as [| | | | | |slots|vs|sel]; try reflexivity. cbn [enc].
    apply outcome_bind; [|reflexivity]. apply enc_list_twins. intros v. now apply IH.
  - inversion T as [x X| | |e' r0 a0 g0 r' a' g' N N' R A G]; subst; [discriminate X|].
    destruct v as [| | | | | |slots|vs|[[i v]|]]; try reflexivity. cbn [enc]. rewrite !alternatives, !nth_error_map.
    pose proof (Forall2_nth' _ _ _ (places_all _ _ N N' (twins_all _ _ _ _ _ _ R A G)) i) as P.
    destruct (nth_error (all_comps r a g) i) as [c|] eqn:E, (nth_error (all_comps r' a' g') i) as [c'|]; try contradiction;
      [|reflexivity].
    cbn [option_map]. destruct P as (Tc & P). rewrite Forall_forall in IH.
    apply outcome_bind; [apply (IH c); [now apply nth_error_In in E|apply Tc]|]. intros body.
    now rewrite (twin_choice_index e r a g r' a' g' _ _ body R A G P).
Qed.

(** * Decoding *)

(** The same outcome, with results related by [P]. *)
Definition sim {A B} (P : A -> B -> Prop) (d : D A) (d' : D B) : Prop :=
  forall p, match d p, d' p with
            | Ok (a, q), Ok (b, q') => P a b /\ q = q'
            | Err e, Err e' => e = e'
            | _, _ => False
            end.

Lemma sim_refl {A} (d : D A) : sim eq d d.
Proof. intros p. destruct (d p) as [[a q]|e]; auto. Qed.

Lemma sim_ret {A B} (P : A -> B -> Prop) a b : P a b -> sim P (ret a) (ret b).
Proof. intros X p. now split. Qed.

Lemma sim_bind {A B C E} (P : A -> B -> Prop) (Q : C -> E -> Prop) d d' k k' : sim P d d' ->
  (forall a b, P a b -> sim Q (k a) (k' b)) -> sim Q (dbind d k) (dbind d' k').
Proof.
  intros X Y p. unfold dbind. specialize (X p). destruct (d p) as [[a q]|e], (d' p) as [[b q']|e']; cbn [bind] in *; try tauto.
  destruct X as (X & <-). now apply Y.
Qed.

Lemma sim_bind' {A C E} (Q : C -> E -> Prop) (d : D A) k k' :
  (forall a, sim Q (k a) (k' a)) -> sim Q (dbind d k) (dbind d k').
Proof. intros Y. eapply sim_bind; [apply sim_refl|]. intros a b <-. apply Y. Qed.

Lemma sim_open {A B} (P : A -> B -> Prop) d d' : sim P d d' ->
  sim P (decode_open_type_field d) (decode_open_type_field d').
Proof.
  intros X. unfold decode_open_type_field. do 4 (apply sim_bind'; intros ?). intros q. specialize (X a2).
  destruct (d a2) as [[a3 q3]|e], (d' a2) as [[b3 q4]|e']; try tauto.
Qed.

Definition same_dec (t : ty) : Prop := forall t', twin t t' -> sim eq (dec t) (dec t').

(** Assignments of the same values to corresponding components. *)
Definition assigned (cs cs' : list (comp ty)) (l l' : list assign) : Prop :=
  Forall2 (fun x y => snd x = snd y /\ places cs cs' (fst x) (fst y)) l l'.

Lemma assigned_all cs cs' l l' : List.length cs = List.length cs' -> assigned cs cs' l l' ->
  forall slots, assign_all cs slots l = assign_all cs' slots l'.
Proof.
  intros L. induction 1 as [|(nm & v) (nm' & v') l l' (V & P) F IH]; intros slots; [reflexivity|].
  cbn [fst snd assign_all] in *. subst v'. rewrite <- P. destruct (index_of nm cs); [|reflexivity]. now rewrite IH, L.
Qed.

Section Assigned.
Variables cs cs' : list (comp ty).

Definition mates (c c' : comp ty) : Prop := twins c c' /\ places cs cs' (cname c) (cname c').

Lemma take_twins c c' (d d' : D dval) : mates c c' -> sim eq d d' ->
  sim (assigned cs cs') (do x <- d; do v <- lift (cast (cty c) x); ret [(cname c, v)])
                        (do x <- d'; do v <- lift (cast (cty c') x); ret [(cname c', v)]).
Proof.
  intros (T & P) X. eapply sim_bind; [exact X|]. intros x y <-. rewrite (twin_cast _ _ x (proj2 T)).
  apply sim_bind'. intros v. apply sim_ret. constructor; [|constructor]. now split.
Qed.

Lemma app_twins (d e d' e' : D (list assign)) : sim (assigned cs cs') d d' -> sim (assigned cs cs') e e' ->
  sim (assigned cs cs') (do a <- d; do r <- e; ret (a ++ r)) (do a <- d'; do r <- e'; ret (a ++ r)).
Proof.
  intros X Y. eapply sim_bind; [exact X|]. intros a b AB. eapply sim_bind; [exact Y|]. intros r s RS.
  apply sim_ret. now apply Forall2_app.
Qed.

Lemma sim_nil : sim (assigned cs cs') (ret []) (ret []).
Proof. apply sim_ret. constructor. Qed.

Lemma dec_root_twins l l' : Forall2 mates l l' -> Forall (fun c => same_dec (cty c)) l -> forall bm,
  sim (assigned cs cs') (dec_root dec l bm) (dec_root dec l' bm).
Proof.
  induction 1 as [|c c' l l' M F IH]; intros S bm; [apply sim_nil|]. apply Forall_cons_iff in S as (S1 & S2).
  cbn [dec_root]. rewrite <- (twins_mand _ _ (proj1 M)). destruct (is_mandatory c).
  - apply app_twins; [|now apply IH]. apply take_twins; auto. apply S1, M.
  - destruct bm as [|b bm]; [intros p; reflexivity|]. apply app_twins; [|now apply IH].
    destruct b; [|apply sim_nil]. apply take_twins; auto. apply S1, M.
Qed.

Lemma count_twins l l' : Forall2 mates l l' -> optional_count l = optional_count l'.
Proof.
  unfold optional_count. induction 1 as [|c c' l l' M F IH]; [reflexivity|]. cbn [filter].
  assert (E : is_defaulted c = is_defaulted c') by (unfold is_defaulted; now rewrite (proj1 (proj1 M))).
  rewrite <- (twins_opt _ _ (proj1 M)), <- E. destruct (is_optional c || is_defaulted c); cbn [List.length]; congruence.
Qed.

Lemma dec_root_part_twins l l' : Forall2 mates l l' -> Forall (fun c => same_dec (cty c)) l ->
  sim (assigned cs cs') (dec_root_part dec l) (dec_root_part dec l').
Proof.
  intros F S. unfold dec_root_part. rewrite <- (count_twins _ _ F).
  destruct (Nat.eqb (optional_count l) 0); [now apply dec_root_twins|].
  destruct (_ <? 65536); [|intros p; reflexivity]. do 2 (apply sim_bind'; intros ?). now apply dec_root_twins.
Qed.

Lemma dec_adds_twins l l' : Forall2 mates l l' -> Forall (fun c => same_dec (cty c)) l -> forall bm,
  sim (assigned cs cs') (dec_adds dec l bm) (dec_adds dec l' bm).
Proof.
  induction 1 as [|c c' l l' M F IH]; intros S bm; [apply sim_nil|]. apply Forall_cons_iff in S as (S1 & S2).
  destruct bm as [|b bm]; cbn [dec_adds]; [apply sim_nil|]. apply app_twins; [|now apply IH].
  destruct b; [|apply sim_nil]. apply take_twins; auto. apply sim_open. apply S1, M.
Qed.

Lemma dec_groups_twins g g' : Forall2 (Forall2 mates) g g' -> Forall (fun c => same_dec (cty c)) (List.concat g) ->
  forall bm, sim (assigned cs cs') (dec_groups dec g bm) (dec_groups dec g' bm).
Proof.
  induction 1 as [|l l' g g' M F IH]; intros S bm; [apply sim_nil|]. cbn [List.concat] in S. apply Forall_app in S as (S1 & S2).
  destruct bm as [|b bm]; cbn [dec_groups]; [apply sim_nil|]. apply app_twins; [|now apply IH].
  destruct b; [|apply sim_nil]. apply sim_open. now apply dec_root_part_twins.
Qed.
End Assigned.

Lemma pick_twins {A B} (P : A -> B -> Prop) l l' i : Forall2 P l l' -> sim P (pick l i) (pick l' i).
Proof.
  intros F p. unfold pick. pose proof (Forall2_nth' _ _ _ F (Z.to_nat i)) as N.
  destruct (nth_error l (Z.to_nat i)), (nth_error l' (Z.to_nat i)); try contradiction; [now split|reflexivity].
Qed.

(** An alternative with its decoder. *)
Definition arms (x y : ty * D dval) : Prop := (forall d, cast (fst x) d = cast (fst y) d) /\ sim eq (snd x) (snd y).

Lemma arms_all l l' : Forall2 twins l l' -> Forall (fun c => same_dec (cty c)) l ->
  Forall2 arms (map (fun c => (cty c, dec (cty c))) l) (map (fun c => (cty c, dec (cty c))) l').
Proof.
  induction 1 as [|c c' l l' T F IH]; intros S; cbn [map]; [constructor|]. apply Forall_cons_iff in S as (S1 & S2).
  constructor; auto. split; cbn [fst snd]; [intros d; apply twin_cast, T|apply S1, T].
Qed.

Lemma decode_choice_twins e r a g r' a' g' : Forall2 arms r r' -> Forall2 arms a a' -> Forall2 arms g g' ->
  sim eq (decode_choice e r a g) (decode_choice e r' a' g').
Proof.
  intros R A G. unfold decode_choice, zlen.
  rewrite <- (Forall2_length _ _ _ R), <- (isnil_pair _ _ _ A), <- (isnil_pair _ _ _ G).
  assert (X : forall i, sim eq (do a <- pick r i; do d <- snd a; do v <- lift (cast (fst a) d); ret (DVal (VChoice (Some (Z.to_nat i, v)))))
                   (do a <- pick r' i; do d <- snd a; do v <- lift (cast (fst a) d); ret (DVal (VChoice (Some (Z.to_nat i, v)))))).
  { intros i. eapply sim_bind; [exact (pick_twins _ _ _ i R)|]. intros x y (C & S).
    eapply sim_bind; [exact S|]. intros d d' <-. rewrite C. apply sim_refl. }
  cbv zeta. destruct (negb e); [apply sim_bind'; apply X|]. apply sim_bind'. intros b.
  destruct (b =? 0); [apply sim_bind'; apply X|]. apply sim_bind'. intros i.
  destruct (isnil a && isnil g); [apply sim_refl|].
  eapply sim_bind; [exact (pick_twins _ _ _ i (Forall2_app A G))|]. intros x y (C & S).
  eapply sim_bind; [exact (sim_open _ _ _ S)|]. intros d d' <-. rewrite C. apply sim_refl.
Qed.

Lemma dec_n_twins (d d' : D val) n : sim eq d d' -> sim eq (dec_n d n) (dec_n d' n).
Proof.
  intros X. induction n as [|n IH]; cbn [dec_n]; [apply sim_refl|].
  eapply sim_bind; [exact X|]. intros v w <-. eapply sim_bind; [exact IH|]. intros r s <-. apply sim_refl.
Qed.

Lemma dec_twin : forall t, same_dec t.
Proof.
  induction t as [t St|e r a g IH|k t IH|e r a g IH] using ty_ind2; intros t' T.
  - inversion T; subst; try discriminate St. apply sim_refl.
  - inversion T as [x X|e' r0 a0 g0 r' a' g' N N' R A G| |]; subst; [discriminate X|]. cbn [dec].
    set (cs := all_comps r a g) in *. set (cs' := all_comps r' a' g') in *.
    pose proof (twins_all _ _ _ _ _ _ R A G) as F. fold cs cs' in F.
    pose proof (places_all _ _ N N' F) as P. unfold cs at 2, cs' at 2 in P. unfold all_comps in P.
    apply pair_split in P as (P1 & P2 & P3); [|exact (twins_length _ _ R)|exact (twins_length _ _ A)].
    pose proof (pair_groups _ _ _ _ G P3) as P4.
    unfold cs, all_comps in IH. apply Forall_app in IH as (I1 & IH). apply Forall_app in IH as (I2 & I3).
    unfold decode_sequence, zlen. rewrite <- (twins_length _ _ A), <- (Forall2_length _ _ _ G).
    apply sim_bind'. intros ext. eapply sim_bind; [exact (dec_root_part_twins cs cs' _ _ P1 I1)|]. intros x y XY.
    eapply sim_bind with (P := assigned cs cs').
    + destruct (negb (ext =? 0)); [|apply sim_nil]. do 4 (apply sim_bind'; intros ?).
      apply app_twins; [now apply dec_adds_twins|now apply dec_groups_twins].
    + intros x' y' XY'. fold cs cs'.
      rewrite (assigned_all cs cs' (x ++ x') (y ++ y') (twins_length _ _ F)); [apply sim_refl|]. now apply Forall2_app.
  - inversion T as [x X| |k' u u' U|]; subst; [discriminate X|]. cbn [dec].
    unfold decode_sequence_of. apply sim_bind'. intros n. eapply sim_bind; [apply dec_n_twins|intros x y <-; apply sim_refl].
    eapply sim_bind; [now apply IH|]. intros x y <-. rewrite (twin_cast t u') by auto. apply sim_refl.
  - inversion T as [x X| | |e' r0 a0 g0 r' a' g' N N' R A G]; subst; [discriminate X|]. cbn [dec].
    unfold all_comps in IH. apply Forall_app in IH as (I1 & IH). apply Forall_app in IH as (I2 & I3).
    rewrite <- !concat_map. apply decode_choice_twins; apply arms_all; auto. now apply Forall2_concat.
Qed.

(** * C63 *)

(** Renaming components keeps the octets. *)
Theorem C63_octets : forall t t' v bs, twin t t' -> encode t v = Ok bs <-> encode t' v = Ok bs.
Proof.
  intros t t' v bs T.
  assert (E : outcome (encode t v) = outcome (encode t' v)).
  { unfold encode. apply outcome_bind; [now apply enc_twin|reflexivity]. }
  destruct (encode t v), (encode t' v); cbn [outcome] in E; try discriminate E; [|split; discriminate].
  injection E as <-. reflexivity.
Qed.

(** What is refused is refused with the same error, but for the name in it. *)
Theorem C63_refusals : forall t t' v, twin t t' -> outcome (encode t v) = outcome (encode t' v).
Proof. intros t t' v T. unfold encode. apply outcome_bind; [now apply enc_twin|reflexivity]. Qed.

(** Octets are read as the same values at the same places, or refused with the same
    error. *)
Theorem C63_decode : forall t t' bs, twin t t' -> decode bs t = decode bs t'.
Proof.
  intros t t' bs T. unfold decode, decode_pos. destruct (per_init (hexlify bs)) as [p|e]; [|reflexivity]. cbn [bind].
  pose proof (dec_twin t t' T p) as X.
  destruct (dec t p) as [[d q]|e], (dec t' p) as [[d' q']|e']; try contradiction; [|now rewrite X].
  destruct X as (<- & <-). cbn [bind fst snd]. rewrite (twin_from_empty t t' T). reflexivity.
Qed.

Definition case_ship : ty := TSeq true
  [Comp "hull" Mand (TInt CNone); Comp "sail" Opt TBool]
  [Comp "mast" Mand (TChoice false [Comp "pine" Mand TBool; Comp "oak" Mand (TInt CNone)] [] [])] [].
Definition case_boat : ty := TSeq true
  [Comp "x" Mand (TInt CNone); Comp "hull" Opt TBool]
  [Comp "sail" Mand (TChoice false [Comp "mast" Mand TBool; Comp "x" Mand (TInt CNone)] [] [])] [].

Example C63_case : twin case_ship case_boat /\
  exists bs, encode case_ship (VSeq (Some [Some (VInt 300); None; Some (VChoice (Some (1%nat, VInt 7)))])) = Ok bs /\
    encode case_boat (VSeq (Some [Some (VInt 300); None; Some (VChoice (Some (1%nat, VInt 7)))])) = Ok bs /\
    decode bs case_boat = decode bs case_ship.
Proof.
  split.
  - repeat first [ apply twin_seq | apply twin_choice | apply twin_simple; reflexivity | apply NoDup_cons | apply NoDup_nil
                 | apply Forall2_cons | apply Forall2_nil | split; [reflexivity|]
                 | cbn [all_comps map app cname cty List.concat In]; intuition discriminate ].
  - set (bs := ltac:(let r := eval vm_compute in (encode case_ship (VSeq (Some [Some (VInt 300); None; Some (VChoice (Some (1%nat, VInt 7)))]))) in
      match r with Ok ?b => exact b end)).
    exists bs. repeat split; vm_compute; reflexivity.
Qed.
