(** C18-C26: SEQUENCE presence, defaults, extension additions, sizes, holes. *)
From Coq Require Import ZArith List String Bool Lia ZifyBool ZifyNat ZifyN.
Import ListNotations.
From Verif Require Import PyBase Schema Encoder Decoder BitFacts Stream Prims Spec SimpleTypes RoundTrip
  Reading Totality Layout.
Open Scope string_scope.
Open Scope list_scope.
Open Scope Z_scope.
Ltac Zify.zify_post_hook ::= Z.div_mod_to_equations.

(** * Specification vocabulary *)

(** A SEQUENCE object that fits its type: distinct component names, one slot
    per component. *)
Definition well_formed (root adds : list (comp ty)) (groups : list (list (comp ty)))
    (slots : option (list (option val))) : Prop :=
  NoDup (map cname (root ++ adds ++ List.concat groups)) /\
  match slots with
  | Some l => List.length l = List.length (root ++ adds ++ List.concat groups)
  | None => True
  end.

(** The object found at position [i] (from the start of the component list). *)
Definition found (slots : option (list (option val))) (i : nat) (c : comp ty) : val :=
  match slots with
  | Some l => match nth i l None with
              | Some v => v
              | None => match cpres c with Dflt d => d | _ => fresh (cty c) end
              end
  | None => match cpres c with Dflt d => d | _ => fresh (cty c) end
  end.

(** The object has something to send: it has a value and is not a SEQUENCE
    without components, or one that was never touched. *)
Definition has_content (t : ty) (v : val) : Prop :=
  is_value t v = true /\ v <> VSeq (Some []) /\ v <> VSeq None.

Lemma has_content_iff t v : has_content t v <-> present t v = true.
Proof.
  unfold has_content, present. rewrite andb_true_iff.
  split; intros (A & B); split; auto.
  - destruct B as (B1 & B2). destruct v as [| | | | | |[[|]|]|[|]|[[? ?]|]]; cbn in *; congruence.
  - split; intros ->; discriminate.
Qed.

Lemma found_slot slots i c n : found slots i c = slot_get c (nth i (slots_list n slots) None).
Proof.
  unfold found, slots_list, slot_get. destruct slots as [l|]; auto. now rewrite nth_repeat_none.
Qed.

Lemma wf_looks root adds groups slots : well_formed root adds groups slots ->
  let cs := all_comps root adds groups in
  Forall2 (looks (get_by_name cs slots)) cs (slots_list (len cs) slots).
Proof.
  intros (N & L). apply looks_all; auto. unfold slots_list. destruct slots; auto. now rewrite repeat_length.
Qed.

Lemma Forall2_app_l {A B} (R : A -> B -> Prop) l1 l2 m : Forall2 R (l1 ++ l2) m ->
  Forall2 R l1 (firstn (len l1) m) /\ Forall2 R l2 (skipn (len l1) m).
Proof.
  intros H. apply Forall2_app_inv_l in H as (m1 & m2 & H1 & H2 & ->).
  pose proof (Forall2_length _ _ _ H1) as L. rewrite L, firstn_app, skipn_app, firstn_all, skipn_all,
    Nat.sub_diag. cbn [firstn skipn app]. rewrite app_nil_r. auto.
Qed.

(** * The loops of encode_sequence, for arbitrary objects *)

(** What one root component contributes: [None] when nothing is sent. *)
Definition part_ok (c : comp ty) (v : val) (o : option (list field)) : Prop :=
  match o with
  | Some fs => enc (cty c) v = Ok fs
  | None => cpres c <> Mand
  end.

Definition flag_of (c : comp ty) (o : option (list field)) : bits :=
  match cpres c with Mand => [] | _ => [match o with Some _ => true | None => false end] end.

Definition sent_fields (o : option (list field)) : list field :=
  match o with Some fs => fs | None => [] end.

(** The criterion for sending an OPTIONAL / a DEFAULT component. *)
Definition part_why (c : comp ty) (v : val) (o : option (list field)) : Prop :=
  match cpres c with
  | Mand => o <> None
  | Opt => o <> None <-> has_content (cty c) v
  | Dflt d => raw_ne d v = Ok (match o with Some _ => true | None => false end)
  end.

Lemma enc_root_parts look cs : forall ss bm fs, Forall2 (looks look) cs ss ->
  enc_root enc look cs = Ok (bm, fs) ->
  exists parts, Forall2 (fun cs' o => part_ok (fst cs') (snd cs') o /\ part_why (fst cs') (snd cs') o)
                        (zipw (fun c s => (c, slot_get c s)) cs ss) parts /\
    bm = List.concat (zipw flag_of cs parts) /\ fs = List.concat (map sent_fields parts).
Proof.
  induction cs as [|c cs IH]; intros ss bm fs L E; inversion L as [|? s ? ss' L1 L2]; subst; clear L.
  - injection E as <- <-. exists []. repeat split; constructor.
  - cbn [enc_root] in E. rewrite L1 in E. cbn [bind] in E.
    set (v := slot_get c s) in *.
    match type of E with bind ?x _ = _ => destruct x as [[b1 f1]|] eqn:E1; [|discriminate] end.
    cbn [bind] in E. destruct (enc_root enc look cs) as [[b2 f2]|] eqn:E2; [|discriminate].
    cbn [bind fst snd] in E. injection E as <- <-.
    destruct (IH ss' b2 f2 L2 eq_refl) as (parts & P & -> & ->).
    assert (K : exists o, part_ok c v o /\ part_why c v o /\ b1 = flag_of c o /\ f1 = sent_fields o).
    { unfold part_ok, part_why, flag_of. destruct (cpres c) as [| |d] eqn:EP.
      - destruct (enc (cty c) v) as [fs|] eqn:EV; [|discriminate]. injection E1 as <- <-.
        exists (Some fs). repeat split; auto; discriminate.
      - pose proof (has_content_iff (cty c) v) as HC. rewrite <- present_eq in E1. destruct (present (cty c) v).
        + destruct (enc (cty c) v) as [fs|] eqn:EV; [|discriminate]. injection E1 as <- <-.
          exists (Some fs). repeat split; auto; try discriminate; apply HC; auto.
        + injection E1 as <- <-. exists None. repeat split; try discriminate; try congruence.
          intros X. apply HC in X. discriminate.
      - destruct (raw_ne d v) as [b|] eqn:ER; [|discriminate]. cbn [bind] in E1. destruct b.
        + destruct (enc (cty c) v) as [fs|] eqn:EV; [|discriminate]. injection E1 as <- <-.
          exists (Some fs). repeat split; auto.
        + injection E1 as <- <-. exists None. repeat split; auto; discriminate. }
    destruct K as (o & K1 & K2 & -> & ->). exists (o :: parts). cbn [zipw map List.concat].
    repeat split; auto.
Qed.

(** Extension additions: the bitmap and the check against the predecessor. *)
Fixpoint chained (prev : option (bool * bool)) (l : list (bool * (bool * bool))) : Prop :=
  match l with
  | [] => True
  | (val, fl) :: r =>
      (val = true -> match prev with Some (o, p) => p = true \/ o = true | None => True end) /\
      chained (Some fl) r
  end.

Definition add_entry (c : comp ty) (s : option val) : bool * (bool * bool) :=
  let v := slot_get c s in (is_value (cty c) v, (is_optional c, sent_add c v)).

Definition prev_flags (p : option prev_comp) : option (bool * bool) :=
  match p with Some q => Some (poptional q, ppresent q) | None => None end.

Lemma prev_missing_none p : prev_missing p = None ->
  match prev_flags p with Some (o, q) => q = true \/ o = true | None => True end.
Proof.
  destruct p as [q|]; cbn [prev_missing prev_flags]; auto.
  destruct (ppresent q), (poptional q); cbn; auto. discriminate.
Qed.

Lemma enc_adds_flags look cs : forall ss prev bm fs, Forall2 (looks look) cs ss ->
  enc_adds enc look prev cs = Ok (bm, fs) ->
  bm = zipw (fun c s => sent_add c (slot_get c s)) cs ss /\
  chained (prev_flags prev) (zipw add_entry cs ss).
Proof.
  induction cs as [|c cs IH]; intros ss prev bm fs L E; inversion L as [|? s ? ss' L1 L2]; subst; clear L.
  - injection E as <- <-. split; [reflexivity|exact I].
  - cbn [enc_adds] in E. rewrite L1 in E. cbn [bind] in E. set (v := slot_get c s) in *.
    match type of E with bind ?x _ = _ => destruct x as [[b1 f1]|] eqn:E1; [|discriminate] end.
    cbn [bind fst snd] in E.
    destruct (enc_adds enc look (Some (Prev (cname c) b1 (is_optional c))) cs) as [[b2 f2]|] eqn:E2; [|discriminate].
    cbn [bind fst snd] in E. injection E as <- <-.
    destruct (IH ss' _ b2 f2 L2 E2) as (-> & CH). cbn [zipw].
    assert (K : b1 = sent_add c v /\ (is_value (cty c) v = true -> prev_missing prev = None)).
    { unfold sent_add. rewrite present_eq. destruct (is_value (cty c) v); cbn [andb].
      - destruct (prev_missing prev); [discriminate|]. destruct (comp_values_ok v).
        + destruct (enc (cty c) v); [|discriminate]. cbn [bind] in E1.
          destruct (encode_open_type_field a); [|discriminate]. injection E1 as <- <-. auto.
        + injection E1 as <- <-. auto.
      - injection E1 as <- <-. split; auto. discriminate. }
    destruct K as (-> & K). split; [reflexivity|]. cbn [chained].
    unfold add_entry at 1. fold v. split; [|exact CH].
    intros V. apply prev_missing_none. auto.
Qed.

Lemma group_scan_flags look cs : forall ss prev ps, Forall2 (looks look) cs ss ->
  group_scan look prev cs = Ok ps ->
  ps = zipw (fun c s => Prev (cname c) (sent_add c (slot_get c s)) (is_optional c)) cs ss /\
  chained (prev_flags prev) (zipw add_entry cs ss).
Proof.
  induction cs as [|c cs IH]; intros ss prev ps L E; inversion L as [|? s ? ss' L1 L2]; subst; clear L.
  - injection E as <-. split; [reflexivity|exact I].
  - cbn [group_scan] in E. rewrite L1 in E. cbn [bind] in E. set (v := slot_get c s) in *.
    match type of E with bind ?x _ = _ => destruct x as [b1|] eqn:E1; [|discriminate] end.
    cbn [bind fst snd] in E.
    destruct (group_scan look (Some (Prev (cname c) b1 (is_optional c))) cs) as [r|] eqn:E2; [|discriminate].
    cbn [bind] in E. injection E as <-.
    destruct (IH ss' _ r L2 E2) as (-> & CH). cbn [zipw].
    assert (K : b1 = sent_add c v /\ (is_value (cty c) v = true -> prev_missing prev = None)).
    { unfold sent_add. rewrite present_eq. destruct (is_value (cty c) v); cbn [andb].
      - destruct (prev_missing prev); [discriminate|]. injection E1 as <-. auto.
      - injection E1 as <-. split; auto. discriminate. }
    destruct K as (-> & K). split; [reflexivity|]. cbn [chained].
    unfold add_entry at 1. fold v. split; [|exact CH].
    intros V. apply prev_missing_none. auto.
Qed.

(** Which groups are sent. *)
Fixpoint groups_sent (gs : list (list (comp ty))) (ss : list (option val)) : list bool :=
  match gs with
  | [] => []
  | g :: gs' => group_sent g ss :: groups_sent gs' (skipn (len g) ss)
  end.

Lemma group_sent_firstn g ss : group_sent g (firstn (len g) ss) = group_sent g ss.
Proof. unfold group_sent. now rewrite zipw_firstn. Qed.

Lemma enc_groups_flags look gs : forall ss prevg bm fs, Forall2 (looks look) (List.concat gs) ss ->
  enc_groups enc look prevg gs = Ok (bm, fs) -> bm = groups_sent gs ss.
Proof.
  induction gs as [|g gs IH]; intros ss prevg bm fs L E.
  - injection E as <- <-. reflexivity.
  - cbn [List.concat] in L. apply Forall2_app_l in L as (L1 & L2). cbn [enc_groups] in E.
    destruct (group_scan look None g) as [ps|] eqn:E0; [|discriminate]. cbn [bind] in E.
    pose proof (group_scan_present look g _ None ps L1 E0) as P. rewrite group_sent_firstn in P.
    match type of E with bind ?x _ = _ => destruct x as [[b1 f1]|] eqn:E1; [|discriminate] end.
    cbn [bind fst snd] in E.
    destruct (enc_groups enc look (Some ps) gs) as [[b2 f2]|] eqn:E2; [|discriminate].
    cbn [bind fst snd] in E. injection E as <- <-. cbn [groups_sent].
    rewrite (IH _ _ _ _ L2 E2). f_equal. rewrite <- P.
    destruct (existsb ppresent ps); [|now injection E1 as <- <-].
    match type of E1 with bind ?x _ = _ => destruct x; [|discriminate] end. cbn [bind] in E1.
    match type of E1 with bind ?x _ = _ => destruct x; [|discriminate] end. cbn [bind] in E1.
    match type of E1 with bind ?x _ = _ => destruct x; [|discriminate] end. cbn [bind] in E1.
    match type of E1 with bind ?x _ = _ => destruct x; [|discriminate] end. cbn [bind] in E1.
    now injection E1 as <- <-.
Qed.

(** * C18-C19 *)

(** Some extension addition, or a component of an addition group, has
    something to send. *)
Definition addition_set (root adds : list (comp ty)) (groups : list (list (comp ty)))
    (slots : option (list (option val))) : Prop :=
  exists i c, nth_error (adds ++ List.concat groups) i = Some c /\
              has_content (cty c) (found slots (List.length root + i) c).

Lemma nth_error_zipw {A B C} (f : A -> B -> C) l m i : nth_error (zipw f l m) i =
  match nth_error l i, nth_error m i with Some a, Some b => Some (f a b) | _, _ => None end.
Proof.
  revert m i. induction l as [|a l IH]; intros [|b m] [|i]; cbn; auto. destruct (nth_error l i); auto.
Qed.

Lemma nth_error_skipn {A} k (l : list A) i : nth_error (skipn k l) i = nth_error l (k + i).
Proof. revert l. induction k as [|k IH]; intros [|a l]; cbn; auto. destruct i; auto. Qed.

Lemma bval_pos bm : 0 < bval bm <-> In true bm.
Proof.
  induction bm as [|b bm IH]; [cbn; lia|]. rewrite bval_cons. pose proof (bval_range bm).
  pose proof (pow2_pos (len bm)). cbn [In]. rewrite <- IH. destruct b; cbn [Z.b2z]; intuition (try lia; try congruence).
Qed.

Lemma groups_sent_in gs : forall ss, In true (groups_sent gs ss) <->
  exists i c s, nth_error (List.concat gs) i = Some c /\ nth_error ss i = Some s /\
                sent_add c (slot_get c s) = true.
Proof.
  induction gs as [|g gs IH]; intros ss; cbn [groups_sent In List.concat].
  - split; [tauto|]. intros (i & c & s & H & _). destruct i; discriminate.
  - rewrite IH. unfold group_sent. split.
    + intros [H|(i & c & s & A & B & C)].
      * apply existsb_exists in H as (b & Hin & ->). apply In_nth_error in Hin as (i & Hi).
        rewrite nth_error_zipw in Hi. destruct (nth_error g i) as [c|] eqn:G; [|discriminate].
        destruct (nth_error ss i) as [s|] eqn:S; [|discriminate]. injection Hi as Hi.
        exists i, c, s. rewrite nth_error_app1 by (apply nth_error_Some; congruence). auto.
      * exists (len g + i)%nat, c, s. rewrite nth_error_app2 by lia.
        replace (len g + i - len g)%nat with i by lia. rewrite nth_error_skipn in B. auto.
    + intros (i & c & s & A & B & C). destruct (Nat.lt_ge_cases i (len g)) as [L|L].
      * left. rewrite nth_error_app1 in A by auto. apply existsb_exists. exists true. split; auto.
        apply (nth_error_In _ i). rewrite nth_error_zipw, A, B. congruence.
      * right. rewrite nth_error_app2 in A by auto. exists (i - len g)%nat, c, s.
        rewrite nth_error_skipn. replace (len g + (i - len g))%nat with i by lia. auto.
Qed.

Lemma sent_add_content c v : sent_add c v = true <-> has_content (cty c) v.
Proof. symmetry. apply has_content_iff. Qed.

Lemma nth_error_nth' {A} (l : list A) i a d : nth_error l i = Some a -> nth i l d = a.
Proof. intros H. now apply nth_error_nth with (d := d) in H. Qed.

(** Which bits the extension bitmap has. *)
Lemma bitmap_set root adds groups slots : well_formed root adds groups slots ->
  let ss := slots_list (ncomps root adds groups) slots in
  In true (zipw (fun c s => sent_add c (slot_get c s)) adds (firstn (len adds) (skipn (len root) ss)) ++
           groups_sent groups (skipn (len adds) (skipn (len root) ss))) <->
  addition_set root adds groups slots.
Proof.
  intros W ss. assert (L : len ss = ncomps root adds groups).
  { apply wf_looks, Forall2_length in W. auto. }
  unfold ncomps, all_comps in L. rewrite !app_length in L.
  rewrite in_app_iff, groups_sent_in. unfold addition_set. split.
  - intros [H|(i & c & s & A & B & C)].
    + apply In_nth_error in H as (i & Hi). rewrite zipw_firstn, nth_error_zipw in Hi.
      destruct (nth_error adds i) as [c|] eqn:G; [|discriminate].
      rewrite nth_error_skipn in Hi. destruct (nth_error ss (len root + i)) as [s|] eqn:S; [|discriminate].
      injection Hi as Hi. exists i, c. rewrite nth_error_app1 by (apply nth_error_Some; congruence).
      split; auto. rewrite (found_slot _ _ _ (ncomps root adds groups)). fold ss.
      rewrite (nth_error_nth' _ _ _ None S). now apply sent_add_content.
    + rewrite !nth_error_skipn in B. exists (len adds + i)%nat, c. rewrite nth_error_app2 by lia.
      replace (len adds + i - len adds)%nat with i by lia. split; auto.
      rewrite (found_slot _ _ _ (ncomps root adds groups)). fold ss.
      rewrite (nth_error_nth' _ _ s None B). now apply sent_add_content.
  - intros (i & c & A & B). rewrite (found_slot _ _ _ (ncomps root adds groups)) in B. fold ss in B.
    assert (Hi : (i < len (adds ++ List.concat groups))%nat) by (apply nth_error_Some; congruence).
    rewrite app_length in Hi.
    destruct (nth_error ss (len root + i)) as [s|] eqn:S;
      [|apply nth_error_None in S; lia].
    rewrite (nth_error_nth' _ _ _ None S) in B. apply sent_add_content in B.
    destruct (Nat.lt_ge_cases i (len adds)) as [K|K].
    + left. rewrite nth_error_app1 in A by auto. apply (nth_error_In _ i).
      rewrite zipw_firstn, nth_error_zipw, A, nth_error_skipn, S. congruence.
    + right. rewrite nth_error_app2 in A by auto. exists (i - len adds)%nat, c, s.
      rewrite !nth_error_skipn. replace (len root + (len adds + (i - len adds)))%nat with (len root + i)%nat by lia.
      auto.
Qed.

(** encode_sequence taken apart. *)
Lemma seq_parts ext root adds groups slots fs : well_formed root adds groups slots ->
  enc (TSeq ext root adds groups) (VSeq slots) = Ok fs ->
  let look := get_by_name (all_comps root adds groups) slots in
  exists (bm : bits) rfs rf, enc_root enc look root = Ok (bm, rfs) /\ root_fields (bm, rfs) = Ok rf /\
  if ext then
    exists b tail, fs = F false [b] :: rf ++ tail /\ (b = true <-> addition_set root adds groups slots) /\
                   (b = false -> tail = [])
  else fs = rf.
Proof.
  intros W E look. cbn [enc] in E. unfold encode_sequence in E. fold look in E.
  destruct (enc_root enc look root) as [[bm rfs]|] eqn:ER; [|discriminate]. cbn [bind] in E.
  destruct (root_fields (bm, rfs)) as [rf|] eqn:EF; [|discriminate]. cbn [bind] in E.
  exists bm, rfs, rf. split; [reflexivity|]. split; [exact EF|].
  destruct ext; [|now injection E].
  pose proof (bitmap_set root adds groups slots W) as B. cbv zeta in B.
  destruct (isnil adds && isnil groups) eqn:EN.
  - apply andb_true_iff in EN as (N1 & N2). destruct adds; [|discriminate]. destruct groups; [|discriminate].
    injection E as <-. exists false, []. rewrite app_nil_r. split; [reflexivity|]. split; auto.
    split; [discriminate|]. intros (i & c & H & _). destruct i; discriminate.
  - destruct (enc_adds enc look None adds) as [[ab af]|] eqn:EA; [|discriminate]. cbn [bind] in E.
    destruct (enc_groups enc look None groups) as [[gb gf]|] eqn:EG; [|discriminate]. cbn [bind fst snd] in E.
    pose proof (wf_looks _ _ _ _ W) as L. cbv zeta in L. unfold all_comps at 2 in L.
    apply Forall2_app_l in L as (_ & L). apply Forall2_app_l in L as (L1 & L2).
    destruct (enc_adds_flags _ _ _ _ _ _ L1 EA) as (-> & _).
    rewrite (enc_groups_flags _ _ _ _ _ _ L2 EG) in E.
    match type of E with (if 0 <? bval ?x then _ else _) = _ => set (bb := x) in * end.
    assert (BB : 0 < bval bb <-> addition_set root adds groups slots).
    { rewrite bval_pos. exact B. }
    destruct (Z.ltb_spec 0 (bval bb)) as [P|P].
    + destruct (length_normally_small (zlen bb)) as [det|]; [|discriminate]. cbn [bind] in E.
      injection E as <-. exists true, (det ++ F false bb :: af ++ gf).
      split; [reflexivity|]. split; [|discriminate]. split; auto. intros _. now apply BB.
    + injection E as <-. exists false, []. rewrite app_nil_r. split; [reflexivity|]. split; auto.
      split; [discriminate|]. intros X. apply BB in X. lia.
Qed.

Lemma flags_nil cs : forall parts, len cs = len parts ->
  List.concat (zipw flag_of cs parts) = [] <-> Forall (fun c => cpres c = Mand) cs.
Proof.
  induction cs as [|c cs IH]; intros [|o parts] L; try discriminate; cbn [zipw List.concat].
  - split; auto.
  - specialize (IH parts ltac:(cbn in L; lia)). rewrite Forall_cons_iff, <- IH. unfold flag_of.
    destruct (cpres c); cbn [app]; split; try tauto; try discriminate; intros (X & _); discriminate.
Qed.

Lemma Forall2_nth {A B} (R : A -> B -> Prop) l m i a b : Forall2 R l m ->
  nth_error l i = Some a -> nth_error m i = Some b -> R a b.
Proof.
  intros H. revert i. induction H as [|x y l m H1 H2 IH]; intros [|i] Ha Hb; try discriminate; cbn in Ha, Hb.
  - congruence.
  - exact (IH i Ha Hb).
Qed.

Definition presence_bits (root : list (comp ty)) (parts : list (option (list field))) : bits :=
  List.concat (zipw (fun c (o : option (list field)) =>
    match cpres c with
    | Mand => []
    | _ => [match o with Some _ => true | None => false end]
    end) root parts).

Lemma seq_decomposed ext root adds groups slots fs :
  well_formed root adds groups slots ->
  enc (TSeq ext root adds groups) (VSeq slots) = Ok fs ->
  exists parts first presence tail,
    len parts = len root /\
    (forall i c o, nth_error root i = Some c -> nth_error parts i = Some o ->
       part_ok c (found slots i c) o /\ part_why c (found slots i c) o) /\
    fs = first ++ presence ++ List.concat (map sent_fields parts) ++ tail /\
    (if ext then exists b, first = [F false [b]] /\ (b = true <-> addition_set root adds groups slots) /\
                           (b = false -> tail = [])
     else first = [] /\ tail = []) /\
    presence = match presence_bits root parts with [] => [] | bm => [F false bm] end.
Proof.
  intros W E.
  destruct (seq_parts _ _ _ _ _ _ W E) as (bm & rfs & rf & ER & EF & X).
  pose proof (wf_looks _ _ _ _ W) as L. cbv zeta in L. unfold all_comps at 2 in L.
  apply Forall2_app_l in L as (L & _).
  destruct (enc_root_parts _ _ _ _ _ L ER) as (parts & P & Hb & Hf).
  set (ss := slots_list (len (all_comps root adds groups)) slots) in *.
  pose proof (Forall2_length _ _ _ L) as LL.
  assert (LP : len parts = len root).
  { apply Forall2_length in P. rewrite zipw_length in P by auto. auto. }
  assert (RF : rf = match bm with [] => [] | _ => [F false bm] end ++ rfs).
  { unfold root_fields in EF. cbn [fst snd] in EF. destruct bm; [now injection EF as <-|].
    destruct (_ <? _) in EF; [now injection EF as <-|discriminate]. }
  set (presence := match bm with [] => [] | _ => [F false bm] end) in *.
  assert (PO : forall i c o, nth_error root i = Some c -> nth_error parts i = Some o ->
     part_ok c (found slots i c) o /\ part_why c (found slots i c) o).
  { intros i c o Hc Ho. rewrite (found_slot _ _ _ (len (all_comps root adds groups))). fold ss.
    destruct (nth_error (firstn (len root) ss) i) as [s|] eqn:Es.
    - assert (N : nth i ss None = s).
      { assert (i < len root)%nat by (apply nth_error_Some; congruence).
        apply nth_error_nth'. rewrite <- (firstn_skipn (len root) ss).
        rewrite nth_error_app1; auto. apply nth_error_Some. congruence. }
      rewrite N. refine (Forall2_nth _ _ _ i (c, slot_get c s) o P _ Ho).
      now rewrite nth_error_zipw, Hc, Es.
    - apply nth_error_None in Es. assert (i < len root)%nat by (apply nth_error_Some; congruence). lia. }
  assert (PR : presence = match presence_bits root parts with [] => [] | bm => [F false bm] end).
  { subst presence bm. change (List.concat (zipw flag_of root parts)) with (presence_bits root parts).
    destruct (presence_bits root parts); reflexivity. }
  destruct ext.
  - destruct X as (b & tail & -> & B & T). exists parts, [F false [b]], presence, tail.
    split; [exact LP|]. split; [exact PO|]. split; [subst rf rfs; rewrite <- !app_assoc; reflexivity|].
    split; [exists b; auto|exact PR].
  - subst fs. exists parts, [], presence, []. split; [exact LP|]. split; [exact PO|].
    split; [subst rf rfs; now rewrite app_nil_r|]. split; [auto|exact PR].
Qed.

(** For every SEQUENCE that encode accepts there is one part per root component
    (nothing, or the fields of the component), such that the presence bits are
    the parts of the components that are not mandatory, in order, and the body is
    the parts in order; a mandatory component is always sent, an OPTIONAL one
    exactly when it has something to send. *)
Theorem C19_presence_bitmap : forall ext root adds groups slots fs,
  well_formed root adds groups slots ->
  enc (TSeq ext root adds groups) (VSeq slots) = Ok fs ->
  exists parts first presence tail,
    List.length parts = List.length root /\
    (forall i c o, nth_error root i = Some c -> nth_error parts i = Some o ->
       (forall ff, o = Some ff -> enc (cty c) (found slots i c) = Ok ff) /\
       (o = None -> cpres c <> Mand) /\
       (cpres c = Opt -> (o <> None <-> has_content (cty c) (found slots i c)))) /\
    fs = first ++ presence ++ List.concat (map sent_fields parts) ++ tail /\
    (if ext then exists b, first = [F false [b]] /\ (b = false -> tail = []) else first = [] /\ tail = []) /\
    presence = match presence_bits root parts with [] => [] | bm => [F false bm] end.
Proof.
  intros ext root adds groups slots fs W E.
  destruct (seq_decomposed _ _ _ _ _ _ W E) as (parts & first & presence & tail & A & B & C & D & P).
  exists parts, first, presence, tail. split; [exact A|]. split; [|split; [exact C|split; [|exact P]]].
  - intros i c o Hc Ho. destruct (B i c o Hc Ho) as (K1 & K2). unfold part_ok, part_why in *.
    split; [intros ff ->; exact K1|]. split; [intros ->; exact K1|]. intros X. now rewrite X in K2.
  - destruct ext; auto. destruct D as (b & D1 & D2 & D3). eauto.
Qed.

Example C19_case :
  let t := TSeq false [Comp "a" Opt TBool; Comp "b" Mand TBool; Comp "c" (Dflt (VInt 1)) (TInt CNone)] [] [] in
  let v := Some [None; Some (VBool true); Some (VInt 2)] in
  well_formed [Comp "a" Opt TBool; Comp "b" Mand TBool; Comp "c" (Dflt (VInt 1)) (TInt CNone)] [] [] v /\
  enc t (VSeq v) = Ok [F false [false; true]; F false [true]; F true (bytes_bits [1; 2])].
Proof.
  cbv zeta. split; [|reflexivity]. split; [|reflexivity]. repeat constructor; cbn; intuition discriminate.
Qed.

(** ** C18 *)

Definition ext_of (t : ty) : bool :=
  match t with
  | TBool => false
  | TInt c | TBits c | TOcts c | TSeqOf c _ => cext c
  | TEnum e _ _ | TSeq e _ _ _ | TChoice e _ _ _ => e
  end.

Definition between (c : constr) (n : Z) : Prop :=
  exists l h, clo c = Some l /\ chi c = Some h /\ l <= n <= h.

(** The value lies in the extension root. *)
Definition in_root (t : ty) (v : val) : Prop :=
  match t, v with
  | TInt c, VInt z => between c z
  | TEnum _ root _, VEnum z => In z root
  | TBits c, VBits s => between c (zlen s)
  | TOcts c, VOcts bs => between c (zlen bs)
  | TSeqOf c _, VSeqOf vs => between c (zlen vs)
  | TChoice _ root _ _, VChoice (Some (i, _)) => (i < List.length root)%nat
  | TSeq _ root adds groups, VSeq slots => ~ addition_set root adds groups slots
  | _, _ => False
  end.

(** Objects of the API: octets, distinct names; and not the two cases that are
    refuted below (SIZE (0, ...) and the empty BIT STRING). *)
Definition root_bit_hyp (t : ty) (v : val) : Prop :=
  match t, v with
  | TBits c, VBits s => chi c <> Some 0 /\ s <> []
  | TOcts c, VOcts bs => chi c <> Some 0 /\ Forall (fun b => 0 <= b < 256) bs
  | TSeq _ root adds groups, VSeq slots => well_formed root adds groups slots
  | TChoice _ root adds groups, _ => NoDup (map cname (root ++ adds ++ List.concat groups))
  | _, _ => True
  end.

Lemma chain_between c n b : chain_le (clo c) n (chi c) = Ok b -> (negb b = false <-> between c n).
Proof.
  unfold chain_le, between. destruct (clo c) as [l|]; [|discriminate]. cbn [need bind].
  destruct (Z.leb_spec l n) as [H|H].
  - destruct (chi c) as [h|]; [|discriminate]. cbn [need bind]. intros [= <-].
    destruct (Z.leb_spec n h); cbn; split; try discriminate.
    + intros _. exists l, h. auto.
    + auto.
    + intros (l' & h' & [= <-] & [= <-] & X). lia.
  - intros [= <-]. cbn. split; [discriminate|]. intros (l' & h' & [= <-] & _ & X). lia.
Qed.

Lemma opt_is_0 o : o <> Some 0 -> opt_is o 0 = false.
Proof. destruct o as [z|]; cbn; auto. intros H. destruct (Z.eqb_spec z 0); congruence. Qed.

Lemma bits_after_some c s o : chi c <> Some 0 -> bits_after c s = Ok o -> o <> None.
Proof.
  intros H. unfold bits_after. rewrite opt_is_0 by auto. destruct (some_eq (clo c) (chi c)).
  - destruct (_ <=? _); [congruence|]. destruct (_ && _); congruence.
  - destruct (truthy _ && _).
    + destruct (length_constrained _ _ _); cbn; congruence.
    + destruct (length_unconstrained _); cbn; congruence.
Qed.

Lemma octs_after_some c s o : chi c <> Some 0 -> octs_after c s = Ok o -> o <> None.
Proof.
  intros H. unfold octs_after. rewrite opt_is_0 by auto. destruct (some_eq (clo c) (chi c)).
  - destruct (_ <=? _); [congruence|]. destruct (_ && _); congruence.
  - destruct (truthy _).
    + destruct (length_constrained _ _ _); cbn; congruence.
    + destruct (length_unconstrained _); cbn; congruence.
Qed.

Lemma index_of_some {T} nm (cs : list (comp T)) i : index_of nm cs = Some i -> In nm (map cname cs).
Proof.
  revert i. induction cs as [|c cs IH]; intros i; cbn; [discriminate|].
  destruct (String.eqb_spec (cname c) nm); auto. destruct (index_of nm cs); [|discriminate]. right. eauto.
Qed.

Lemma index_of_in {T} nm (cs : list (comp T)) : In nm (map cname cs) -> exists i, index_of nm cs = Some i.
Proof.
  induction cs as [|c cs IH]; cbn; [tauto|]. intros [H|H].
  - rewrite H, String.eqb_refl. eauto.
  - destruct (String.eqb (cname c) nm); eauto. destruct (IH H) as (i & ->). eauto.
Qed.

Lemma nth_root_in {T} (root rest : list (comp T)) i c : NoDup (map cname (root ++ rest)) ->
  nth_error (root ++ rest) i = Some c -> (In (cname c) (map cname root) <-> (i < len root)%nat).
Proof.
  intros N H. split.
  - intros Hin. destruct (Nat.lt_ge_cases i (len root)) as [|K]; auto. exfalso.
    rewrite nth_error_app2 in H by auto. apply nth_error_In in H. rewrite map_app in N.
    apply in_map with (f := cname) in H. revert N Hin H. generalize (map cname root) (map cname rest).
    intros l m N A B. induction l as [|x l IH]; [destruct A|]. cbn in N. apply NoDup_cons_iff in N as (N1 & N2).
    destruct A as [->|A]; auto. apply N1, in_or_app. auto.
  - intros K. rewrite nth_error_app1 in H by auto. apply nth_error_In in H. now apply in_map.
Qed.

(** Missing: the two cases excluded by [root_bit_hyp]. *)
Theorem C18_extension_bit_partial : forall t v fs,
  ext_of t = true -> root_bit_hyp t v -> enc t v = Ok fs ->
  exists b rest, fs = F false [b] :: rest /\ (b = false <-> in_root t v).
Proof.
  intros t v fs X H E. destruct t as [|c|e root adds|c|c|e root adds groups|c t|e root adds groups];
    cbn [ext_of] in X; try discriminate.
  - destruct v; try discriminate. cbn [enc] in E. unfold encode_integer in E. rewrite X in E.
    destruct (chain_le (clo c) z (chi c)) as [b|] eqn:C; [|discriminate]. cbn [bind] in E.
    apply chain_between in C. destruct b.
    + destruct (create_field_list_for_constrained_whole_number _ _ _) as [r|]; [|discriminate].
      injection E as <-. exists false, r. auto.
    + destruct (create_field_list_for_unconstrained_whole_number _) as [r|]; [|discriminate].
      injection E as <-. exists true, r. auto.
  - destruct v; try discriminate. cbn [enc] in E. unfold encode_enumerated in E. rewrite X in E. cbn [negb] in E.
    cbn [in_root]. pose proof (existsb_Zeqb z root) as IR. destruct (existsb (Z.eqb z) root) eqn:C.
    + destruct (create_field_list_for_constrained_whole_number _ _ _) as [r|]; [|discriminate].
      injection E as <-. exists false, r. split; auto. intuition congruence.
    + destruct (zindex z adds); [|discriminate]. cbn [bind] in E.
      destruct (encode_normally_small _ _) as [r|]; [|discriminate].
      injection E as <-. exists true, r. split; auto. intuition congruence.
  - destruct v; try discriminate. destruct H as (H1 & H2). cbn [enc] in E. rewrite encode_bits_eq in E.
    cbv zeta in E. rewrite as_binary_id, X in E by auto.
    destruct (chain_le (clo c) (zlen s) (chi c)) as [b|] eqn:C; [|discriminate]. cbn [bind fill] in E.
    apply chain_between in C. destruct b.
    + destruct (bits_after c s) as [[r|]|] eqn:A; [| |discriminate].
      * injection E as <-. exists false, r. auto.
      * now apply bits_after_some in A.
    + destruct (length_unconstrained _) as [r|]; [|discriminate]. injection E as <-. eexists true, _. auto.
  - destruct v; try discriminate. destruct H as (H1 & H2). cbn [enc] in E. rewrite encode_octs_eq in E by auto.
    rewrite X in E.
    destruct (chain_le (clo c) (zlen bs) (chi c)) as [b|] eqn:C; [|discriminate]. cbn [bind fill] in E.
    apply chain_between in C. destruct b.
    + destruct (octs_after c bs) as [[r|]|] eqn:A; [| |discriminate].
      * injection E as <-. exists false, r. auto.
      * now apply octs_after_some in A.
    + destruct (length_unconstrained _) as [r|]; [|discriminate]. injection E as <-. eexists true, _. auto.
  - destruct v; try discriminate. cbn [root_bit_hyp] in H. subst e.
    destruct (seq_parts _ _ _ _ _ _ H E) as (bm & rfs & rf & _ & _ & b & tail & -> & B & _).
    exists b, (rf ++ tail). split; auto. cbn [in_root]. rewrite <- B. destruct b; intuition congruence.
  - destruct v; try discriminate. cbn [enc] in E. destruct (enc_list (enc t) vs) as [body|]; [|discriminate].
    cbn [bind] in E. unfold encode_sequence_of in E. rewrite X in E.
    destruct (chain_le (clo c) (zlen vs) (chi c)) as [b|] eqn:C; [|discriminate]. cbn [bind] in E.
    apply chain_between in C. destruct b.
    + destruct (length_constrained _ _ _) as [r|]; [|discriminate]. injection E as <-. eexists false, _. auto.
    + destruct (length_unconstrained _) as [r|]; [|discriminate]. injection E as <-. eexists true, _. auto.
  - destruct v; try discriminate. destruct sel as [[i v]|]; [|discriminate]. cbn [root_bit_hyp] in H.
    subst e. cbn [enc] in E.
    assert (M : forall l, map (fun c => (cname c, enc (cty c))) l =
                          map (fun ca => (cname (fst ca), snd ca)) (att enc l)).
    { intros l. unfold att. rewrite map_map. reflexivity. }
    match type of E with match nth_error ?l i with _ => _ end = _ =>
      assert (Q : l = map (fun c => (cname c, enc (cty c))) (all_comps root adds groups)) end.
    { unfold all_comps. rewrite !map_app, concat_map. reflexivity. }
    rewrite Q, nth_error_map in E. clear Q M.
    destruct (nth_error (all_comps root adds groups) i) as [c|] eqn:N; [|discriminate].
    cbn [option_map] in E. destruct (enc (cty c) v) as [body|]; [|discriminate]. cbn [bind] in E.
    pose proof (nth_root_in root (adds ++ List.concat groups) i c H N) as R. cbn [in_root].
    unfold encode_choice in E. cbn [negb] in E.
    destruct (index_of (cname c) root) as [k|] eqn:IX.
    + apply index_of_some in IX. destruct (Nat.eqb (len root) 1).
      * injection E as <-. exists false, body. tauto.
      * destruct (create_field_list_for_constrained_whole_number _ _ _) as [r|]; [|discriminate].
        injection E as <-. eexists false, _. tauto.
    + assert (NI : ~ In (cname c) (map cname root)).
      { intros Y. apply index_of_in in Y as (k & Y). congruence. }
      destruct (isnil adds && isnil groups); [discriminate|].
      destruct (index_of (cname c) (adds ++ List.concat groups)) as [k|] eqn:IY.
      * destruct (encode_normally_small _ _) as [r|]; [|discriminate]. cbn [bind] in E.
        destruct (encode_open_type_field body) as [r2|]; [|discriminate]. injection E as <-.
        eexists true, _. split; [reflexivity|]. split; [discriminate|intuition congruence].
      * exfalso. assert (Y : In (cname c) (map cname (adds ++ List.concat groups))).
        { apply nth_error_In in N. apply in_map with (f := cname) in N. unfold all_comps in N.
          rewrite map_app in N. apply in_app_or in N. tauto. }
        apply index_of_in in Y as (k & Y). congruence.
Qed.

(** On the wire: it is the first bit of the message. *)
Theorem C18_first_bit_partial : forall t v bs,
  ext_of t = true -> root_bit_hyp t v -> encode t v = Ok bs ->
  exists b rest, bytes_bits bs = b :: rest /\ (b = false <-> in_root t v).
Proof.
  intros t v bs X H E. apply encode_inv in E as (fs & E & _ & O & _).
  destruct (C18_extension_bit_partial t v fs X H E) as (b & rest & -> & R).
  destruct (produce_spec (F false [b] :: rest)) as (k & P & _).
  rewrite bytes_bits_obits, O, P. cbn [render fpad falign fbits app]. eexists b, _. split; [reflexivity|exact R].
Qed.

Example C18_case_root :
  let t := TSeqOf (CSeqSize true (Some 1) (Some 3)) TBool in
  in_root t (VSeqOf [VBool true]) /\ encode t (VSeqOf [VBool true]) = Ok [16].
Proof. cbv zeta. split; [exists 1, 3; repeat split; discriminate|reflexivity]. Qed.

Example C18_case_extended :
  let t := TSeqOf (CSeqSize true (Some 1) (Some 3)) TBool in
  ~ in_root t (VSeqOf []) /\ encode t (VSeqOf []) = Ok [128; 0].
Proof. cbv zeta. split; [intros (l & h & [= <-] & [= <-] & H); cbn in H; lia|reflexivity]. Qed.

(** OCTET STRING (SIZE (0, ...)): the extension bit of the empty root value is
    missing, what follows takes its place. *)
Theorem C18_missing_bit_refuted : exists c t v fs,
  ext_of (TOcts c) = true /\ in_root (TOcts c) (VOcts []) /\ enc (TOcts c) (VOcts []) = Ok [] /\
  t = TSeq false [Comp "a" Mand (TOcts c); Comp "b" Mand TBool] [] [] /\
  v = VSeq (Some [Some (VOcts []); Some (VBool true)]) /\ enc t v = Ok fs /\ fs = [F false [true]].
Proof.
  exists (CRange true (Some 0) (Some 0)). eexists _, _, _. split; [reflexivity|]. split.
  - exists 0, 0. cbn. repeat split; discriminate.
  - repeat split.
Qed.

(** BIT STRING (SIZE (1..4, ...)): the empty string is outside the root and is
    sent as a root value. *)
Theorem C18_empty_bits_refuted : exists c bs rest,
  ext_of (TBits c) = true /\ ~ in_root (TBits c) (VBits []) /\
  encode (TBits c) (VBits []) = Ok bs /\ bytes_bits bs = false :: rest.
Proof.
  exists (CRange true (Some 1) (Some 4)). eexists _, _. split; [reflexivity|]. split.
  - intros (l & h & [= <-] & [= <-] & H). cbn in H. lia.
  - split; vm_compute; reflexivity.
Qed.
