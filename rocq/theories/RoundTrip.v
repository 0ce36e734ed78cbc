(** Round trip of the constructed types. *)
From Coq Require Import ZArith List String Bool Lia Arith.
From Coq Require Import ZifyBool ZifyNat ZifyN.
Import ListNotations.
From Verif Require Import PyBase Schema Encoder Decoder BitFacts Stream Prims Spec SimpleTypes.
Open Scope Z_scope.

Ltac Zify.zify_post_hook ::= Z.div_mod_to_equations.

(** Induction on types, through the component lists. *)
Definition ty_rect' (P : ty -> Prop)
  (HBool : P TBool) (HInt : forall c, P (TInt c)) (HEnum : forall e r a, P (TEnum e r a))
  (HBits : forall c, P (TBits c)) (HOcts : forall c, P (TOcts c))
  (HSeq : forall e r a g, Forall (fun c => P (cty c)) r -> Forall (fun c => P (cty c)) a ->
     Forall (Forall (fun c => P (cty c))) g -> P (TSeq e r a g))
  (HSeqOf : forall c t, P t -> P (TSeqOf c t))
  (HChoice : forall e r a g, Forall (fun c => P (cty c)) r -> Forall (fun c => P (cty c)) a ->
     Forall (Forall (fun c => P (cty c))) g -> P (TChoice e r a g)) : forall t, P t :=
  fix go (t : ty) : P t :=
    let cs := fix cs (l : list (comp ty)) : Forall (fun c => P (cty c)) l :=
      match l with
      | [] => Forall_nil _
      | c :: r => Forall_cons c (go (cty c)) (cs r)
      end in
    let gs := fix gs (l : list (list (comp ty))) : Forall (Forall (fun c => P (cty c))) l :=
      match l with
      | [] => Forall_nil _
      | c :: r => Forall_cons c (cs c) (gs r)
      end in
    match t with
    | TBool => HBool
    | TInt c => HInt c
    | TEnum e r a => HEnum e r a
    | TBits c => HBits c
    | TOcts c => HOcts c
    | TSeq e r a g => HSeq e r a g (cs r) (cs a) (gs g)
    | TSeqOf c t' => HSeqOf c t' (go t')
    | TChoice e r a g => HChoice e r a g (cs r) (cs a) (gs g)
    end.

(** * What the decoder delivers *)

Lemma present_eq t v : present t v = is_value t v && comp_values_ok v.
Proof. destruct v as [ | | | | | |[[|? ?]|]|[|? ?]|[[? ?]|]]; reflexivity. Qed.

Lemma present_value t v : present t v = true -> is_value t v = true.
Proof. rewrite present_eq. intros H. apply andb_true_iff in H. tauto. Qed.

Definition sent_root (c : comp ty) (v : val) : bool :=
  match cpres c with
  | Mand => true
  | Opt => present (cty c) v
  | Dflt d => match raw_ne d v with Ok b => b | Err _ => false end
  end.

Definition sent_add (c : comp ty) (v : val) : bool := present (cty c) v.

Definition canon_root (ca : comp ty * (val -> val)) (s : option val) : option val :=
  let v := slot_get (fst ca) s in
  if sent_root (fst ca) v then Some (snd ca v) else None.

Definition canon_add (ca : comp ty * (val -> val)) (s : option val) : option val :=
  let v := slot_get (fst ca) s in
  if sent_add (fst ca) v then Some (snd ca v) else None.

Definition group_sent (g : list (comp ty)) (ss : list (option val)) : bool :=
  existsb (fun b => b) (zipw (fun c s => sent_add c (slot_get c s)) g ss).

Definition canon_group (g : list (comp ty * (val -> val))) (ss : list (option val)) :
  list (option val) :=
  if group_sent (map fst g) ss then zipw canon_root g ss else map (fun _ => None) g.

Fixpoint canon_groups (gs : list (list (comp ty * (val -> val)))) (ss : list (option val)) :
  list (option val) :=
  match gs with
  | [] => []
  | g :: gs' => canon_group g ss ++ canon_groups gs' (skipn (len g) ss)
  end.

Definition is_none {A} (o : option A) : bool := match o with None => true | _ => false end.

Definition slots_of (os : list (option val)) : option (list (option val)) :=
  if forallb is_none os then None else Some os.

(** What a message is delivered as: components that are not sent are absent,
    and OCTET STRINGs arrive as [w] tells. *)
Fixpoint canon_by (w : constr -> list Z -> list Z) (t : ty) (v : val) {struct t} : val :=
  match t, v with
  | TOcts c, VOcts bs => VOcts (w c bs)
  | TSeq _ root adds groups, VSeq slots =>
      let ss := slots_list (ncomps root adds groups) slots in
      VSeq (slots_of (zipw canon_root (att (canon_by w) root) ss
                      ++ zipw canon_add (att (canon_by w) adds) (skipn (len root) ss)
                      ++ canon_groups (map (att (canon_by w)) groups) (skipn (len root + len adds) ss)))
  | TSeqOf _ t', VSeqOf vs => VSeqOf (map (canon_by w t') vs)
  | TChoice _ root adds groups, VChoice (Some (i, v')) =>
      match nth_error (att (canon_by w) root ++ att (canon_by w) adds ++ List.concat (map (att (canon_by w)) groups)) i with
      | Some ca => VChoice (Some (i, snd ca v'))
      | None => VChoice None
      end
  | _, _ => v
  end.

(** OCTET STRINGs that arrive as they are. *)
Notation canon := (canon_by (fun _ bs => bs)).

Section Arrive.
Context {kept : constr -> list Z -> Prop} {shift : constr -> list Z -> list Z}
  (KW : forall c bs fs, kept c bs -> fill (encode_octetstring c bs) = Ok fs ->
     reads_as (TOcts c) fs (VOcts (shift c bs))).
Local Notation supported := (supported_by kept).
Local Notation canon := (canon_by shift).

Definition rt_by (t : ty) : Prop :=
  forall v fs, supported t v -> enc t v = Ok fs -> reads_as t fs (canon t v).

(** * Lists *)

Lemma all_of_nil : all_of [].
Proof. intros p []. Qed.

Lemma all_of_cons p l : all_of (p :: l) <-> p /\ all_of l.
Proof.
  unfold all_of. split.
  - intros H. split; [apply H; now left|]. intros q Hq. apply H. now right.
  - intros (H & Hl) q [<-|Hq]; [exact H|exact (Hl q Hq)].
Qed.

Lemma some_of_nil : ~ some_of [].
Proof. intros (p & [] & _). Qed.

Lemma some_of_cons p l : some_of (p :: l) <-> p \/ some_of l.
Proof.
  unfold some_of. split.
  - intros (q & [<-|Hq] & Q); eauto.
  - intros [H|(q & Hq & Q)]; [exists p|exists q]; cbn; auto.
Qed.

Lemma some_of_app l m : some_of (l ++ m) <-> some_of l \/ some_of m.
Proof.
  unfold some_of. split.
  - intros (p & Hp & P). apply in_app_or in Hp as [|]; [left|right]; eauto.
  - intros [(p & Hp & P)|(p & Hp & P)]; exists p; split; auto; apply in_or_app; auto.
Qed.

Lemma att_length {A} (f : ty -> A) l : len (att f l) = len l.
Proof. apply map_length. Qed.

Lemma att_fst {A} (f : ty -> A) l : map fst (att f l) = l.
Proof. unfold att. rewrite map_map. cbn [fst]. apply map_id. Qed.

Lemma zipw_app_r {A B C} (f : A -> B -> C) l m r : (len l <= len m)%nat -> zipw f l (m ++ r) = zipw f l m.
Proof.
  revert m. induction l as [|a l IH]; intros m H; [reflexivity|].
  destruct m as [|b m]; cbn [List.length] in H; [lia|]. cbn [zipw app]. f_equal. apply IH. lia.
Qed.

Lemma zipw_length {A B C} (f : A -> B -> C) l m : len l = len m -> len (zipw f l m) = len l.
Proof.
  revert m. induction l as [|a l IH]; intros [|b m] H; cbn [List.length zipw] in *; try lia.
  f_equal. apply IH. lia.
Qed.

Lemma zipw_nil_r {A B C} (f : A -> B -> C) l : zipw f l [] = [].
Proof. destruct l; reflexivity. Qed.

(** * Assignments *)

Definition assign1 (c : comp ty) (o : option val) : list assign :=
  match o with Some v => [(cname c, v)] | None => [] end.

Definition assigns (cs : list (comp ty)) (os : list (option val)) : list assign :=
  List.concat (zipw assign1 cs os).

Lemma assigns_cons c cs o os : assigns (c :: cs) (o :: os) = assign1 c o ++ assigns cs os.
Proof. reflexivity. Qed.

Lemma assigns_app cs cs' os os' : len cs = len os ->
  assigns (cs ++ cs') (os ++ os') = assigns cs os ++ assigns cs' os'.
Proof.
  revert os. induction cs as [|c cs IH]; intros [|o os] H; cbn [List.length] in H; try lia; [reflexivity|].
  cbn [app]. rewrite !assigns_cons, IH by lia. now rewrite app_assoc.
Qed.

Lemma assigns_none cs : assigns cs (map (fun _ => None) cs) = [].
Proof. induction cs; [reflexivity|]. cbn [map]. rewrite assigns_cons, IHcs. reflexivity. Qed.

Lemma index_of_app {T} nm (cs cs' : list (comp T)) : ~ In nm (map cname cs) ->
  index_of nm (cs ++ cs') = match index_of nm cs' with Some i => Some (len cs + i)%nat | None => None end.
Proof.
  induction cs as [|c cs IH]; intros H; cbn [app index_of List.length].
  - destruct (index_of nm cs'); reflexivity.
  - cbn [map In] in H. destruct (String.eqb_spec (cname c) nm) as [E|E]; [tauto|].
    rewrite IH by tauto. destruct (index_of nm cs'); reflexivity.
Qed.

Lemma index_of_here {T} (cs cs' : list (comp T)) c : ~ In (cname c) (map cname cs) ->
  index_of (cname c) (cs ++ c :: cs') = Some (len cs).
Proof.
  intros H. rewrite index_of_app by auto. cbn [index_of]. rewrite String.eqb_refl. f_equal. lia.
Qed.

Lemma index_of_none {T} nm (cs : list (comp T)) : ~ In nm (map cname cs) -> index_of nm cs = None.
Proof.
  induction cs as [|c cs IH]; intros H; [reflexivity|]. cbn [index_of map In] in *.
  destruct (String.eqb_spec (cname c) nm); [tauto|]. now rewrite IH by tauto.
Qed.

Lemma update_mid {A} (l : list A) x y r : update (len l) x (l ++ y :: r) = l ++ x :: r.
Proof. induction l as [|a l IH]; cbn [List.length update app]; [reflexivity|]. now rewrite IH. Qed.

Lemma forallb_none_repeat (os : list (option val)) : forallb is_none os = true -> os = repeat None (len os).
Proof.
  induction os as [|o os IH]; [reflexivity|]. cbn [forallb List.length repeat]. intros H.
  apply andb_true_iff in H as (H1 & H2). destruct o; [discriminate|]. f_equal. auto.
Qed.

Lemma assign_all_ok cs1 cs2 os1 os2 : NoDup (map cname (cs1 ++ cs2)) ->
  len cs1 = len os1 -> len cs2 = len os2 ->
  assign_all (cs1 ++ cs2) (if forallb is_none os1 then None else Some (os1 ++ repeat None (len os2)))
             (assigns cs2 os2) = Ok (slots_of (os1 ++ os2)).
Proof.
  revert cs1 os1 os2. induction cs2 as [|c cs2 IH]; intros cs1 os1 os2 ND L1 L2.
  - destruct os2; [|discriminate]. rewrite app_nil_r. cbn [List.length repeat]. unfold slots_of.
    rewrite !app_nil_r. reflexivity.
  - destruct os2 as [|o os2]; [discriminate|]. cbn [List.length] in *.
    specialize (IH (cs1 ++ [c]) (os1 ++ [o]) os2). rewrite <- !app_assoc in IH. cbn [app] in IH.
    rewrite forallb_app in IH. cbn [forallb] in IH. rewrite !app_length in IH. cbn [List.length] in IH.
    specialize (IH ND ltac:(lia) ltac:(lia)). rewrite assigns_cons. destruct o as [v|].
    + cbn [assign1 app assign_all is_none andb] in *. rewrite andb_false_r in IH.
      assert (NI : ~ In (cname c) (map cname cs1)).
      { rewrite map_app in ND. cbn [map] in ND. apply NoDup_remove_2 in ND.
        intros H. apply ND, in_or_app. now left. }
      rewrite index_of_here by auto. rewrite <- IH. f_equal. unfold slot_set. f_equal.
      destruct (forallb is_none os1) eqn:N.
      * apply forallb_none_repeat in N. rewrite N at 1.
        replace (len (cs1 ++ c :: cs2)) with (len os1 + S (len os2))%nat
          by (rewrite app_length; cbn [List.length]; lia).
        rewrite repeat_app. cbn [repeat]. rewrite L1.
        replace (len os1) with (len (@repeat (option val) None (len os1))) at 1 by apply repeat_length.
        apply update_mid.
      * rewrite L1. cbn [repeat]. apply update_mid.
    + cbn [assign1 app is_none andb] in *. rewrite andb_true_r in IH. rewrite <- IH. f_equal.
Qed.

(** * Slots by name *)

Definition looks (look : string -> res val) (c : comp ty) (s : option val) : Prop :=
  look (cname c) = Ok (slot_get c s).

Lemma nth_repeat_none i n : nth i (@repeat (option val) None n) None = None.
Proof. revert i. induction n; intros [|i]; cbn; auto. Qed.

Lemma looks_all cs slots : NoDup (map cname cs) ->
  len (slots_list (len cs) slots) = len cs ->
  Forall2 (looks (get_by_name cs slots)) cs (slots_list (len cs) slots).
Proof.
  intros ND L.
  assert (SA : forall i, slot_at slots i = nth i (slots_list (len cs) slots) None).
  { intros i. destruct slots as [l|]; cbn [slot_at slots_list]; [reflexivity|].
    now rewrite nth_repeat_none. }
  assert (G : forall cs1 cs2 l, cs = cs1 ++ cs2 -> len cs2 = len l ->
     (forall i, slot_at slots (len cs1 + i) = nth i l None) ->
     Forall2 (looks (get_by_name cs slots)) cs2 l).
  { intros cs1 cs2. revert cs1. induction cs2 as [|c cs2 IH]; intros cs1 l E Ll Hl.
    - destruct l; [constructor|discriminate].
    - destruct l as [|s l]; [discriminate|]. constructor.
      + unfold looks, get_by_name. rewrite E.
        rewrite index_of_here.
        * rewrite nth_error_app2, Nat.sub_diag by lia. cbn [nth_error]. do 2 f_equal.
          specialize (Hl 0%nat). rewrite Nat.add_0_r in Hl. exact Hl.
        * rewrite E, map_app in ND. cbn [map] in ND. apply NoDup_remove_2 in ND.
          intros H. apply ND, in_or_app. now left.
      + apply (IH (cs1 ++ [c])).
        * now rewrite <- app_assoc.
        * cbn [List.length] in Ll. lia.
        * intros i. rewrite app_length. cbn [List.length].
          specialize (Hl (S i)). cbn [nth] in Hl. rewrite <- Hl. f_equal. lia. }
  apply (G [] cs); auto.
Qed.

Lemma Forall2_length {A B} (R : A -> B -> Prop) l m : Forall2 R l m -> len l = len m.
Proof. induction 1; cbn [List.length]; auto. Qed.

(** * Root components *)

Lemma raw_ne_refl d b : raw_ne d d = Ok b -> b = false.
Proof.
  destruct d; cbn [raw_ne]; try discriminate; intros [= <-].
  - now rewrite Bool.eqb_reflx.
  - now rewrite Z.eqb_refl.
  - now rewrite Z.eqb_refl.
  - now rewrite Z.eqb_refl.
  - destruct (list_eq_dec Z.eq_dec bs bs); [reflexivity|congruence].
Qed.

Lemma reads_take c v fs pos : reads_as (cty c) fs v ->
  reads (do d <- dec (cty c); do v <- lift (cast (cty c) d); ret [(cname c, v)]) pos (render pos fs)
        [(cname c, v)].
Proof.
  intros (dv & C & R). eapply reads_bind_r; [apply R|].
  eapply reads_bind0; [apply reads_lift, C|]. apply reads_ret.
Qed.

Definition isopt (c : comp ty) : bool := is_optional c || is_defaulted c.

Lemma optional_count_cons c cs : optional_count (c :: cs) = ((if isopt c then 1 else 0) + optional_count cs)%nat.
Proof. unfold optional_count. cbn [filter]. unfold isopt. destruct (_ || _); reflexivity. Qed.

Lemma reads_bind_app {B} (d : D (list assign)) (k : list assign -> D B) pos f1 f2 a b :
  reads d pos (render pos f1) a ->
  (forall q, reads (k a) q (render q f2) b) -> reads (dbind d k) pos (render pos (f1 ++ f2)) b.
Proof. intros H1 H2. rewrite render_app. eapply reads_bind; [apply H1|apply H2]. Qed.

Lemma root_rt look cs : Forall (fun c => rt_by (cty c)) cs -> forall ss bm fs,
  Forall2 (looks look) cs ss ->
  all_of (zipw supp_root (att supported cs) ss) ->
  enc_root enc look cs = Ok (bm, fs) ->
  len bm = optional_count cs /\
  forall pos, reads (dec_root dec cs bm) pos (render pos fs)
                    (assigns cs (zipw canon_root (att canon cs) ss)).
Proof.
  induction 1 as [|c cs Hc Hcs IH]; intros ss bm fs HL HS E.
  - inversion HL; subst. cbn [enc_root] in E. injection E as <- <-. split; [reflexivity|].
    intros pos. apply reads_ret.
  - inversion HL as [|? s ? ss' Hl HL']; subst. cbn [enc_root] in E. rewrite Hl in E. cbn [bind] in E.
    cbn [att map zipw] in HS. fold (att supported cs) in HS. apply all_of_cons in HS as (HS1 & HS).
    unfold supp_root in HS1. cbn [fst snd] in HS1.
    cbn [att map zipw]. fold (att canon cs). rewrite assigns_cons.
    unfold canon_root at 1. cbn [fst snd]. set (v := slot_get c s) in *. cbv zeta in *.
    unfold sent_root. rewrite optional_count_cons. unfold isopt, is_optional, is_defaulted.
    destruct (cpres c) as [| |d] eqn:P; cbn [orb]; cbv iota in HS1.
    + destruct (enc (cty c) v) as [f1|] eqn:E1; [|discriminate]. cbn [bind] in E.
      destruct (enc_root enc look cs) as [[bm' f2]|] eqn:E2; [|discriminate].
      cbn [bind fst snd app] in E. injection E as <- <-.
      destruct (IH _ _ _ HL' HS eq_refl) as (B & R). split; [auto|]. intros pos. cbn [dec_root].
      unfold is_mandatory. rewrite P. eapply reads_bind_app.
      * apply reads_take. eapply Hc; eauto.
      * intros q. eapply reads_bind_r; [apply R|]. apply reads_ret.
    + rewrite <- present_eq in E. destruct (present (cty c) v) eqn:V.
      2:{ cbn [bind] in E. destruct (enc_root enc look cs) as [[bm' f2]|] eqn:E2; [|discriminate].
          cbn [bind fst snd app] in E. injection E as <- <-.
          destruct (IH _ _ _ HL' HS eq_refl) as (B & R). cbn [List.length]. split; [auto|].
          intros pos. cbn [dec_root]. unfold is_mandatory. rewrite P. cbn [assign1 app].
          eapply reads_bind0; [apply reads_ret|].
          eapply reads_bind_r; [apply R|]. apply reads_ret. }
      destruct (HS1 eq_refl) as (_ & Sv).
      destruct (enc (cty c) v) as [f1|] eqn:E1; [|discriminate]. cbn [bind] in E.
      destruct (enc_root enc look cs) as [[bm' f2]|] eqn:E2; [|discriminate].
      cbn [bind fst snd app] in E. injection E as <- <-.
      destruct (IH _ _ _ HL' HS eq_refl) as (B & R). cbn [List.length]. split; [auto|].
      intros pos. cbn [dec_root].
      unfold is_mandatory. rewrite P. eapply reads_bind_app.
      * apply reads_take. eapply Hc; eauto.
      * intros q. eapply reads_bind_r; [apply R|]. apply reads_ret.
    + destruct (raw_ne d v) as [ne|] eqn:Ne; [|discriminate]. cbn [bind] in E. destruct ne.
      * destruct HS1 as (_ & Sv).
        assert (Sv' : supported (cty c) v).
        { apply Sv. intros ->. apply raw_ne_refl in Ne. discriminate. }
        destruct (enc (cty c) v) as [f1|] eqn:E1; [|discriminate]. cbn [bind] in E.
        destruct (enc_root enc look cs) as [[bm' f2]|] eqn:E2; [|discriminate].
        cbn [bind fst snd app] in E. injection E as <- <-.
        destruct (IH _ _ _ HL' HS eq_refl) as (B & R). cbn [List.length]. split; [auto|].
        intros pos. cbn [dec_root].
        unfold is_mandatory. rewrite P. eapply reads_bind_app.
        -- apply reads_take. eapply Hc; eauto.
        -- intros q. eapply reads_bind_r; [apply R|]. apply reads_ret.
      * cbn [bind] in E. destruct (enc_root enc look cs) as [[bm' f2]|] eqn:E2; [|discriminate].
        cbn [bind fst snd app] in E. injection E as <- <-.
        destruct (IH _ _ _ HL' HS eq_refl) as (B & R). cbn [List.length]. split; [auto|].
        intros pos. cbn [dec_root]. unfold is_mandatory. rewrite P. cbn [assign1 app].
        eapply reads_bind0; [apply reads_ret|].
        eapply reads_bind_r; [apply R|]. apply reads_ret.
Qed.

Lemma root_part_rt look cs ss bm fs rf : Forall (fun c => rt_by (cty c)) cs ->
  Forall2 (looks look) cs ss ->
  all_of (zipw supp_root (att supported cs) ss) ->
  enc_root enc look cs = Ok (bm, fs) -> root_fields (bm, fs) = Ok rf ->
  forall pos, reads (dec_root_part dec cs) pos (render pos rf)
                    (assigns cs (zipw canon_root (att canon cs) ss)).
Proof.
  intros Hcs HL HS E Er pos. destruct (root_rt look cs Hcs ss bm fs HL HS E) as (B & R).
  unfold dec_root_part. cbv zeta. rewrite <- B. unfold root_fields in Er. cbn [fst snd] in Er.
  destruct bm as [|b bm].
  - injection Er as <-. cbn [List.length Nat.eqb]. apply R.
  - cbn [Nat.eqb List.length]. change (S (len bm)) with (len (b :: bm)).
    destruct (Z.ltb_spec (zlen (b :: bm)) 65536) as [Lt|]; [|discriminate]. injection Er as <-.
    unfold zlen in Lt. replace (Z.of_nat (len (b :: bm)) <? 65536) with true by lia.
    rewrite render_plain. eapply reads_bind.
    + apply reads_next_bits; [reflexivity|]. cbn [List.length]. lia.
    + eapply reads_bind0; [|apply R]. apply reads_lift.
      apply (bin_zfill_bits (b :: bm)). discriminate.
Qed.

(** * Open types *)

Definition starts_aligned (fs : list field) : Prop :=
  match fs with [] => True | f :: _ => falign f = true end.

Lemma open_rt {A} (inner : D A) fs o a : encode_open_type_field fs = Ok o ->
  zlen (octs_of (produce_complete_encoding fs)) < 16384 ->
  (forall pos, reads inner pos (render pos fs) a) ->
  o <> [] /\ starts_aligned o /\
  forall pos, reads (decode_open_type_field inner) pos (render pos o) a.
Proof.
  intros E Hs R. unfold encode_open_type_field in E.
  set (s := produce_complete_encoding fs) in *.
  pose proof (produce_mod8 fs) as M. pose proof (produce_nonempty fs) as N. fold s in M, N.
  assert (O : obits (octs_of s) = s) by (apply octs_of_obits; auto).
  assert (NE : octs_of s <> []) by (intros X; rewrite X in O; cbn in O; congruence).
  assert (OC : octets_of s = zlen (octs_of s)).
  { rewrite <- O at 1. apply octets_of_obits. }
  pose proof (zlen_pos _ NE) as Hp.
  rewrite OC, length_unconstrained_ok in E by lia. cbn [bind app] in E. injection E as <-.
  split; [discriminate|]. split; [cbn [starts_aligned]; apply len_field_align|].
  intros pos. rewrite render_cons2. unfold decode_open_type_field.
  eapply reads_bind; [apply reads_len; lia|].
  pose proof (fun q => reads_octs_al (octs_of s) q NE) as RO. rewrite O in RO.
  eapply reads_bind_r; [apply RO|]. clear RO.
  pose proof (hex_zfill_ok (octs_of s) (octs_of_octet s) NE) as HZ. rewrite O in HZ.
  eapply reads_bind0; [apply reads_lift, HZ|].
  destruct (per_init_ok (octs_of s)) as (p & Ep & Ap); auto using octs_of_octet.
  eapply reads_bind0; [apply reads_lift, Ep|].
  intros q pre rest HL Hq. rewrite O in Ap. unfold s in Ap.
  destruct (produce_spec fs) as (k & Ek & _). rewrite Ek in Ap.
  destruct (R 0%nat p [] (repeat false k)) as (p' & E' & _); auto.
  rewrite E'. exists q. split; auto. cbn [List.length app] in *. now rewrite Nat.add_0_r.
Qed.

Lemma open_small_enc t v fs : open_small t v -> enc t v = Ok fs ->
  zlen (octs_of (produce_complete_encoding fs)) < 16384.
Proof. intros H E. apply H. rewrite encode_spec, E. reflexivity. Qed.

Lemma app_aligned a b : starts_aligned a -> starts_aligned b -> starts_aligned (a ++ b).
Proof. destruct a; auto. Qed.

(** * Extension additions *)

Lemma adds_rt look cs : Forall (fun c => rt_by (cty c)) cs -> forall ss prev bm fs,
  Forall2 (looks look) cs ss ->
  all_of (zipw supp_add (att supported cs) ss) ->
  enc_adds enc look prev cs = Ok (bm, fs) ->
  len bm = len cs /\ starts_aligned fs /\ (0 < bval bm -> fs <> []) /\
  forall pos, reads (dec_adds dec cs bm) pos (render pos fs)
                    (assigns cs (zipw canon_add (att canon cs) ss)).
Proof.
  induction 1 as [|c cs Hc Hcs IH]; intros ss prev bm fs HL HS E.
  - inversion HL; subst. cbn [enc_adds] in E. injection E as <- <-.
    repeat split; auto; [cbn; lia|]. intros pos. apply reads_ret.
  - inversion HL as [|? s ? ss' Hl HL']; subst. cbn [enc_adds] in E. rewrite Hl in E. cbn [bind] in E.
    cbn [att map zipw] in HS. fold (att supported cs) in HS. apply all_of_cons in HS as (HS1 & HS).
    unfold supp_add in HS1. cbn [fst snd] in HS1.
    cbn [att map zipw]. fold (att canon cs). rewrite assigns_cons.
    unfold canon_add at 1. cbn [fst snd]. set (v := slot_get c s) in *. cbv zeta in *.
    unfold sent_add.
    destruct (present (cty c) v) eqn:V.
    + rewrite present_eq in V. apply andb_true_iff in V as (V1 & V2). rewrite V1, V2 in *.
      destruct (prev_missing prev); [discriminate|].
      destruct HS1 as (_ & HS1). destruct (HS1 eq_refl) as (_ & Sv & So).
      destruct (enc (cty c) v) as [f1|] eqn:E1; [|discriminate]. cbn [bind] in E.
      destruct (encode_open_type_field f1) as [o|] eqn:Eo; [|discriminate]. cbn [bind fst snd] in E.
      destruct (enc_adds enc look _ cs) as [[bm' f2]|] eqn:E2; [|discriminate].
      cbn [bind fst snd] in E. injection E as <- <-.
      destruct (IH _ _ _ _ HL' HS E2) as (B & Al & Nz & R).
      destruct (Hc _ _ Sv E1) as (dv & Cv & Rv).
      destruct (open_rt (dec (cty c)) f1 o dv Eo) as (On & Oa & Or); auto.
      { eapply open_small_enc; eauto. }
      cbn [List.length]. repeat split; auto using app_aligned.
      * intros _ X. apply app_eq_nil in X. tauto.
      * intros pos. cbn [dec_adds]. cbn [assign1]. eapply reads_bind_app.
        -- eapply reads_bind_r; [apply Or|]. eapply reads_bind0; [apply reads_lift, Cv|]. apply reads_ret.
        -- intros q. eapply reads_bind_r; [apply R|]. apply reads_ret.
    + assert (E' : (let* r := enc_adds enc look (Some (Prev (cname c) false (is_optional c))) cs in
                   Ok (false :: fst r, snd r)) = Ok (bm, fs)).
      { rewrite present_eq in V. destruct (is_value (cty c) v); cbn [andb] in V; [rewrite V in E; destruct (prev_missing prev)|]; auto;
          discriminate. }
      clear E. destruct (enc_adds enc look _ cs) as [[bm' f2]|] eqn:E2; [|discriminate].
      cbn [bind fst snd] in E'. injection E' as <- <-.
      destruct (IH _ _ _ _ HL' HS E2) as (B & Al & Nz & R).
      cbn [List.length]. split; [auto|]. split; [auto|]. split.
      * rewrite bval_cons. cbn [Z.b2z]. intros Hb. apply Nz. lia.
      * intros pos. cbn [dec_adds assign1 app]. eapply reads_bind0; [apply reads_ret|].
        eapply reads_bind_r; [apply R|]. apply reads_ret.
Qed.

(** * Addition groups *)

Lemma group_scan_present look cs : forall ss prev ps, Forall2 (looks look) cs ss ->
  group_scan look prev cs = Ok ps -> existsb ppresent ps = group_sent cs ss.
Proof.
  induction cs as [|c cs IH]; intros ss prev ps HL E; inversion HL as [|? s ? ss' Hl HL']; subst.
  - cbn [group_scan] in E. injection E as <-. reflexivity.
  - cbn [group_scan] in E. rewrite Hl in E. cbn [bind] in E.
    unfold group_sent. cbn [zipw existsb]. fold (group_sent cs ss'). unfold sent_add at 1. rewrite present_eq.
    set (v := slot_get c s) in *.
    destruct (is_value (cty c) v); cbn [andb]; [destruct (prev_missing prev); [discriminate|]|]; cbn [bind] in E;
      (destruct (group_scan look _ cs) as [ps'|] eqn:E2; [|discriminate]);
      cbn [bind] in E; injection E as <-; cbn [existsb ppresent]; erewrite (IH ss'); eauto.
Qed.

Lemma enc_root_ext look look' cs ss : Forall2 (looks look) cs ss -> Forall2 (looks look') cs ss ->
  enc_root enc look cs = enc_root enc look' cs.
Proof.
  intros H. induction H as [|c s cs ss Hl H IH]; intros H'; [reflexivity|].
  inversion H' as [|? ? ? ? Hl' H'']; subst. cbn [enc_root]. rewrite Hl, Hl'. cbn [bind].
  rewrite (IH H''). reflexivity.
Qed.

Lemma group_sent_some cs ss : group_sent cs ss = true ->
  group_valued cs ss = true.
Proof.
  revert ss. induction cs as [|c cs IH]; intros [|s ss]; try discriminate.
  unfold group_sent, group_valued. cbn [zipw existsb]. intros H. apply orb_true_iff in H as [H|H]; apply orb_true_iff.
  - left. exact H.
  - right. apply IH. exact H.
Qed.

Lemma group_valued_app g ss r : (len g <= len ss)%nat -> group_valued g (ss ++ r) = group_valued g ss.
Proof. intros H. unfold group_valued. now rewrite zipw_app_r. Qed.

Lemma zipw_firstn {A B C} (f : A -> B -> C) l m : zipw f l (firstn (len l) m) = zipw f l m.
Proof.
  revert m. induction l as [|a l IH]; intros m; [reflexivity|]. destruct m; [reflexivity|].
  cbn [List.length firstn zipw]. now rewrite IH.
Qed.

Lemma group_open look g ss bm fs rf : NoDup (map cname g) -> Forall2 (looks look) g ss ->
  enc_root enc look g = Ok (bm, fs) -> root_fields (bm, fs) = Ok rf ->
  open_small (TSeq false g [] []) (VSeq (Some ss)) ->
  zlen (octs_of (produce_complete_encoding rf)) < 16384.
Proof.
  intros ND HL E Er H. eapply open_small_enc; [exact H|]. cbn [enc]. unfold encode_sequence.
  unfold all_comps. cbn [List.concat]. rewrite !app_nil_r.
  rewrite <- (enc_root_ext look _ g ss); auto.
  - rewrite E. cbn [bind]. rewrite Er. reflexivity.
  - apply (looks_all g (Some ss)); auto. cbn [slots_list]. symmetry. eapply Forall2_length; eauto.
Qed.

Lemma group_sent_app g ss r : (len g <= len ss)%nat -> group_sent g (ss ++ r) = group_sent g ss.
Proof. intros H. unfold group_sent. now rewrite zipw_app_r. Qed.

Lemma NoDup_app_l {A} (l m : list A) : NoDup (l ++ m) -> NoDup l.
Proof.
  induction l as [|a l IH]; intros H; [constructor|]. inversion H; subst. constructor; auto.
  intros Hin. apply H2, in_or_app. now left.
Qed.

Lemma NoDup_app_r {A} (l m : list A) : NoDup (l ++ m) -> NoDup m.
Proof. induction l as [|a l IH]; intros H; auto. inversion H; auto. Qed.

Lemma groups_rt look gs : Forall (Forall (fun c => rt_by (cty c))) gs -> forall ss prevg bm fs,
  NoDup (map cname (List.concat gs)) ->
  Forall2 (looks look) (List.concat gs) ss ->
  supp_groups (map (att supported) gs) ss ->
  enc_groups enc look prevg gs = Ok (bm, fs) ->
  len bm = len gs /\ starts_aligned fs /\ (0 < bval bm -> fs <> []) /\
  len (canon_groups (map (att canon) gs) ss) = len (List.concat gs) /\
  forall pos, reads (dec_groups dec gs bm) pos (render pos fs)
                    (assigns (List.concat gs) (canon_groups (map (att canon) gs) ss)).
Proof.
  induction 1 as [|g gs Hg Hgs IH]; intros ss prevg bm fs ND HL HS E.
  - inversion HL; subst. cbn [enc_groups] in E. injection E as <- <-.
    repeat split; auto; [cbn; lia|]. intros pos. apply reads_ret.
  - cbn [List.concat] in HL, ND. apply Forall2_app_inv_l in HL as (s1 & s2 & HL1 & HL2 & ->).
    rewrite map_app in ND.
    assert (ND1 : NoDup (map cname g)) by (eapply NoDup_app_l; eauto).
    assert (ND2 : NoDup (map cname (List.concat gs))) by (eapply NoDup_app_r; eauto).
    pose proof (Forall2_length _ _ _ HL1) as L1.
    assert (SK : skipn (len g) (s1 ++ s2) = s2).
    { rewrite L1, skipn_app, skipn_all, Nat.sub_diag. reflexivity. }
    assert (FS : firstn (len g) (s1 ++ s2) = s1).
    { rewrite L1, firstn_app, firstn_all, Nat.sub_diag. cbn [firstn]. apply app_nil_r. }
    cbn [map supp_groups] in HS. rewrite att_length, SK in HS. destruct HS as (HS1 & HS2).
    cbn [map canon_groups List.concat]. rewrite att_length, SK.
    cbn [enc_groups] in E.
    destruct (group_scan look None g) as [ps|] eqn:Eps; [|discriminate]. cbn [bind] in E.
    rewrite (group_scan_present look g s1 None ps) in E by auto.
    unfold canon_group. rewrite att_fst. rewrite group_sent_app by lia.
    unfold supp_group in HS1. rewrite att_fst in HS1. rewrite group_valued_app, !zipw_app_r in HS1 by (rewrite ?att_length; lia).
    rewrite FS in HS1. destruct HS1 as (_ & HS1).
    destruct (group_sent g s1) eqn:GS.
    + destruct (HS1 (group_sent_some _ _ GS)) as (SR & _ & SO).
      assert (E' : (let* bf := (let* r := enc_root enc look g in
                                let* fs := root_fields r in
                                let* o := encode_open_type_field fs in Ok (true, o)) in
                    let* r := enc_groups enc look (Some ps) gs in
                    Ok (fst bf :: fst r, snd bf ++ snd r)) = Ok (bm, fs)).
      { destruct prevg as [pps|]; [|exact E].
        destruct (existsb _ pps) in E; [exact E|]. destruct pps; discriminate. }
      clear E. rename E' into E.
      destruct (enc_root enc look g) as [[rb rfs]|] eqn:Er; [|discriminate]. cbn [bind] in E.
      destruct (root_fields (rb, rfs)) as [rf|] eqn:Erf; [|discriminate]. cbn [bind] in E.
      destruct (encode_open_type_field rf) as [o|] eqn:Eo; [|discriminate]. cbn [bind fst snd] in E.
      destruct (enc_groups enc look (Some ps) gs) as [[bm' f2]|] eqn:E2; [|discriminate].
      cbn [bind fst snd] in E. injection E as <- <-.
      destruct (IH _ _ _ _ ND2 HL2 HS2 E2) as (B & Al & Nz & LC & R).
      destruct (open_rt (dec_root_part dec g) rf o
                  (assigns g (zipw canon_root (att canon g) s1)) Eo) as (On & Oa & Or).
      { exact (group_open look g s1 rb rfs rf ND1 HL1 Er Erf SO). }
      { exact (root_part_rt look g s1 rb rfs rf Hg HL1 SR Er Erf). }
      rewrite zipw_app_r by (rewrite att_length; lia).
      assert (LZ : len g = len (zipw canon_root (att canon g) s1)).
      { rewrite zipw_length; rewrite att_length; auto. }
      cbn [List.length]. repeat split; auto using app_aligned.
      * intros _ X. apply app_eq_nil in X. tauto.
      * rewrite !app_length, LC, <- LZ. reflexivity.
      * intros pos. rewrite assigns_app by auto. cbn [dec_groups]. eapply reads_bind_app; [apply Or|].
        intros q. eapply reads_bind_r; [apply R|]. apply reads_ret.
    + cbn [bind fst snd] in E.
      destruct (enc_groups enc look (Some ps) gs) as [[bm' f2]|] eqn:E2; [|discriminate].
      cbn [bind fst snd app] in E. injection E as <- <-.
      destruct (IH _ _ _ _ ND2 HL2 HS2 E2) as (B & Al & Nz & LC & R).
      assert (MN : map (fun _ : comp ty * (val -> val) => @None val) (att canon g) = map (fun _ => None) g).
      { unfold att. rewrite map_map. reflexivity. }
      rewrite MN. cbn [List.length]. split; [auto|]. split; [auto|]. split; [|split].
      * rewrite bval_cons. cbn [Z.b2z]. intros Hb. apply Nz. lia.
      * rewrite !app_length, LC, map_length. reflexivity.
      * intros pos. rewrite assigns_app by (rewrite map_length; auto). rewrite assigns_none.
        cbn [dec_groups app]. eapply reads_bind0; [apply reads_ret|].
        eapply reads_bind_r; [apply R|]. apply reads_ret.
Qed.

(** * The types *)

Lemma skipn_len_app {A} (l m : list A) n : n = len l -> skipn n (l ++ m) = m.
Proof. intros ->. rewrite skipn_app, skipn_all, Nat.sub_diag. reflexivity. Qed.

Lemma firstn_len_app {A} (l m : list A) n : n = len l -> firstn n (l ++ m) = l.
Proof. intros ->. rewrite firstn_app, firstn_all, Nat.sub_diag. cbn [firstn]. apply app_nil_r. Qed.

Lemma seq_rt ext root adds groups :
  Forall (fun c => rt_by (cty c)) root -> Forall (fun c => rt_by (cty c)) adds ->
  Forall (Forall (fun c => rt_by (cty c))) groups -> rt_by (TSeq ext root adds groups).
Proof.
  intros Hr Ha Hg v fs S E. cbn [supported_by] in S.
  destruct v as [| | | | | |slots| |]; try contradiction.
  cbv zeta in S. destruct S as (ND & L & Hext & SR & SA & SG).
  cbn [enc] in E. unfold encode_sequence in E. cbv zeta in E.
  pose proof (looks_all _ slots ND L) as HL.
  fold (ncomps root adds groups) in HL.
  set (ss := slots_list (ncomps root adds groups) slots) in *.
  set (look := get_by_name (all_comps root adds groups) slots) in *.
  unfold all_comps in HL. apply Forall2_app_inv_l in HL as (s1 & s23 & HL1 & HL & Es).
  apply Forall2_app_inv_l in HL as (s2 & s3 & HL2 & HL3 & ->).
  pose proof (Forall2_length _ _ _ HL1) as L1. pose proof (Forall2_length _ _ _ HL2) as L2.
  pose proof (Forall2_length _ _ _ HL3) as L3.
  assert (K1 : skipn (len root) ss = s2 ++ s3) by (rewrite Es; apply skipn_len_app; auto).
  assert (K2 : skipn (len root + len adds) ss = s3).
  { rewrite Es, app_assoc. apply skipn_len_app. rewrite app_length. lia. }
  rewrite K1 in SA. rewrite K2 in SG.
  rewrite Es, zipw_app_r in SR by (rewrite att_length; lia).
  rewrite zipw_app_r in SA by (rewrite att_length; lia).
  destruct (enc_root enc look root) as [[rb rfs]|] eqn:Er; [|discriminate]. cbn [bind] in E.
  destruct (root_fields (rb, rfs)) as [rf|] eqn:Erf; [|discriminate]. cbn [bind] in E.
  pose proof (root_part_rt look root s1 rb rfs rf Hr HL1 SR Er Erf) as RR.
  assert (ND3 : NoDup (map cname (List.concat groups))).
  { unfold all_comps in ND. rewrite !map_app in ND. eapply NoDup_app_r, NoDup_app_r; eauto. }
  exists (DVal (canon (TSeq ext root adds groups) (VSeq slots))). split; [reflexivity|].
  cbn [canon_by]. cbv zeta. fold ss. rewrite K1, K2.
  rewrite Es, (zipw_app_r canon_root) by (rewrite att_length; lia).
  rewrite (zipw_app_r canon_add) by (rewrite att_length; lia).
  set (o1 := zipw canon_root (att canon root) s1) in *.
  set (o2 := zipw canon_add (att canon adds) s2) in *.
  set (o3 := canon_groups (map (att canon) groups) s3) in *.
  assert (LO1 : len root = len o1) by (unfold o1; rewrite zipw_length; rewrite att_length; lia).
  assert (LO2 : len adds = len o2) by (unfold o2; rewrite zipw_length; rewrite att_length; lia).
  intros pos. cbn [dec]. unfold decode_sequence.
  assert (AS : forall l, l = assigns (adds ++ List.concat groups) (o2 ++ o3) ->
            len o3 = len (List.concat groups) ->
            assign_all (all_comps root adds groups) None (assigns root o1 ++ l) =
            Ok (slots_of (o1 ++ o2 ++ o3))).
  { intros l -> LO3. rewrite <- assigns_app by auto.
    apply (assign_all_ok [] (all_comps root adds groups) [] (o1 ++ o2 ++ o3)); auto.
    unfold all_comps. rewrite !app_length. lia. }
  (* nothing is sent in the extension *)
  assert (QUIET : forall (b : bool) q, (b = false) ->
            assigns (adds ++ List.concat groups) (o2 ++ o3) = [] -> len o3 = len (List.concat groups) ->
            reads (do a <- dec_root_part dec root;
                   do b0 <- (if negb (Z.b2z b =? 0) then
                      do n <- dec_length_normally_small;
                      do v <- next_bits (Z.to_nat n);
                      do bm <- lift (bin_zfill v (zlen adds + zlen groups));
                      do _ <- align;
                      do x <- dec_adds dec adds (firstn (len adds) bm);
                      do y <- dec_groups dec groups (skipn (len adds) bm);
                      ret (x ++ y) else ret []);
                   do slots0 <- lift (assign_all (all_comps root adds groups) None (a ++ b0));
                   ret (DVal (VSeq slots0))) q (render q rf) (DVal (VSeq (slots_of (o1 ++ o2 ++ o3))))).
  { intros b q -> AN LO3. cbn [Z.b2z Z.eqb negb].
    eapply reads_bind_r; [apply RR|]. eapply reads_bind0; [apply reads_ret|].
    eapply reads_bind0; [apply reads_lift, AS; auto|]. apply reads_ret. }
  destruct ext.
  2:{ injection E as <-. destruct (Hext eq_refl) as (-> & ->).
      eapply reads_bind0; [apply reads_ret|]. apply (QUIET false); reflexivity. }
  destruct (isnil adds && isnil groups) eqn:Nil.
  - injection E as <-. destruct adds; [|discriminate]. destruct groups; [|discriminate].
    rewrite render_bit. eapply reads_bind; [apply reads_bit|].
    apply (QUIET false); reflexivity.
  - destruct (enc_adds enc look None adds) as [[ab af]|] eqn:Ea; [|discriminate]. cbn [bind] in E.
    destruct (enc_groups enc look None groups) as [[gb gf]|] eqn:Eg; [|discriminate].
    cbn [bind fst snd] in E.
    destruct (adds_rt look adds Ha s2 None ab af HL2 SA Ea) as (B2 & A2 & N2 & R2).
    destruct (groups_rt look groups Hg s3 None gb gf ND3 HL3 SG Eg) as (B3 & A3 & N3 & LO3 & R3).
    fold o2 in R2. fold o3 in R3, LO3.
    assert (V : bval (ab ++ gb) = bval ab * 2 ^ Z.of_nat (len gb) + bval gb) by apply bval_app.
    pose proof (bval_range ab) as [P2 _]. pose proof (bval_range gb) as [P3 _].
    pose proof (pow2_pos (len gb)) as PP.
    destruct (Z.ltb_spec 0 (bval (ab ++ gb))) as [Pos|NPos].
    + destruct (length_normally_small (zlen (ab ++ gb))) as [det|] eqn:Ed; [|discriminate].
      cbn [bind] in E. injection E as <-.
      assert (NN : ab ++ gb <> []) by (intros X; rewrite X in Pos; cbn in Pos; lia).
      pose proof (length_normally_small_inv _ _ Ed) as L64. pose proof (zlen_pos _ NN) as LP.
      rewrite length_normally_small_ok in Ed by lia. injection Ed as <-.
      assert (FN : af ++ gf <> []).
      { intros X. apply app_eq_nil in X as (X1 & X2). destruct (Z.eq_dec (bval ab) 0) as [Z0|].
        - apply N3; auto. rewrite V, Z0 in Pos. lia.
        - apply N2; auto. lia. }
      rewrite render_bit. eapply reads_bind; [apply reads_bit|]. cbn [Z.b2z Z.eqb negb List.length].
      rewrite render_app. eapply reads_bind; [apply RR|].
      eapply reads_bind_r with (a := assigns adds o2 ++ assigns (List.concat groups) o3).
      * rewrite render_app. eapply reads_bind; [apply reads_nsl; lia|].
        rewrite render_plain. eapply reads_bind.
        { apply reads_next_bits; unfold zlen in *; lia. }
        eapply reads_bind0.
        { apply reads_lift. replace (zlen adds + zlen groups) with (zlen (ab ++ gb)).
          - apply bin_zfill_bits; auto.
          - unfold zlen. rewrite app_length. lia. }
        rewrite firstn_len_app, skipn_len_app by auto.
        pose proof (app_aligned _ _ A2 A3) as AA.
        destruct (af ++ gf) as [|f0 fr] eqn:EF; [congruence|]. cbn [starts_aligned] in AA.
        rewrite render_aligned by auto. eapply reads_bind; [apply reads_align|].
        rewrite up8_pad. rewrite <- EF, render_app. eapply reads_bind; [apply R2|].
        eapply reads_bind_r; [apply R3|]. apply reads_ret.
      * eapply reads_bind0; [apply reads_lift, AS; auto|apply reads_ret].
        rewrite assigns_app by auto. reflexivity.
    + injection E as <-. rewrite render_bit. eapply reads_bind; [apply reads_bit|].
      apply (QUIET false); auto. rewrite assigns_app by auto.
      assert (Z2 : bval ab = 0) by nia. assert (Z3 : bval gb = 0) by nia.
      (* all bits are zero: nothing is assigned *)
      clear - Z2 Z3 R2 R3 B2 B3 Er.
      assert (ZB : forall s, bval s = 0 -> Forall (fun b => b = false) s).
      { induction s as [|b s IH]; intros H; constructor.
        - rewrite bval_cons in H. pose proof (bval_range s) as [? _]. pose proof (pow2_pos (len s)).
          destruct b; [cbn [Z.b2z] in H; nia|reflexivity].
        - apply IH. rewrite bval_cons in H. pose proof (bval_range s) as [? _]. pose proof (pow2_pos (len s)).
          destruct b; cbn [Z.b2z] in H; nia. }
      pose proof (ZB _ Z2) as F2. pose proof (ZB _ Z3) as F3.
      assert (D2 : forall cs bm, Forall (fun b => b = false) bm -> forall p, dec_adds dec cs bm p = Ok ([], p)).
      { induction cs as [|c cs IH]; intros bm Hb p; [destruct bm; reflexivity|].
        destruct Hb as [|b bm -> Hb]; [reflexivity|]. cbn [dec_adds]. unfold dbind, ret. now rewrite IH. }
      assert (D3 : forall cs bm, Forall (fun b => b = false) bm -> forall p, dec_groups dec cs bm p = Ok ([], p)).
      { induction cs as [|c cs IH]; intros bm Hb p; [destruct bm; reflexivity|].
        destruct Hb as [|b bm -> Hb]; [reflexivity|]. cbn [dec_groups]. unfold dbind, ret. now rewrite IH. }
      assert (PP : exists p, at_ p (render 0 af ++ render 0 gf) 0).
      { exists (PB (render 0 af ++ render 0 gf) off_init). repeat split. }
      assert (E2 : assigns adds o2 = []).
      { pose (p := PB (render 0 af) off_init).
        destruct (R2 0%nat p [] []) as (p' & E' & _); [reflexivity| |].
        - repeat split. cbn [app pb_bits p]. now rewrite app_nil_r.
        - rewrite D2 in E' by auto. congruence. }
      assert (E3 : assigns (List.concat groups) o3 = []).
      { pose (p := PB (render 0 gf) off_init).
        destruct (R3 0%nat p [] []) as (p' & E' & _); [reflexivity| |].
        - repeat split. cbn [app pb_bits p]. now rewrite app_nil_r.
        - rewrite D3 in E' by auto. congruence. }
      rewrite E2, E3. reflexivity.
Qed.

Lemma enc_list_rt t vs fs : rt_by t -> all_of (map (supported t) vs) -> enc_list (enc t) vs = Ok fs ->
  forall pos, reads (dec_n (do d <- dec t; lift (cast t d)) (len vs)) pos (render pos fs) (map (canon t) vs).
Proof.
  intros Ht. revert fs. induction vs as [|v vs IH]; intros fs S E pos.
  - cbn [enc_list] in E. injection E as <-. apply reads_ret.
  - cbn [map] in S. apply all_of_cons in S as (S1 & S). cbn [enc_list] in E.
    destruct (enc t v) as [f1|] eqn:E1; [|discriminate]. cbn [bind] in E.
    destruct (enc_list (enc t) vs) as [f2|] eqn:E2; [|discriminate]. cbn [bind] in E. injection E as <-.
    destruct (Ht _ _ S1 E1) as (dv & Cv & Rv).
    cbn [List.length dec_n map]. rewrite render_app. eapply reads_bind.
    + eapply reads_bind_r; [apply Rv|]. apply reads_lift, Cv.
    + eapply reads_bind_r; [apply IH; auto|]. apply reads_ret.
Qed.

Lemma seqof_rt c t : rt_by t -> rt_by (TSeqOf c t).
Proof.
  intros Ht v fs S E. cbn [supported_by] in S. destruct v as [| | | | | | |vs|]; try contradiction.
  destruct S as (SC & SV). cbn [enc] in E.
  destruct (enc_list (enc t) vs) as [body|] eqn:EL; [|discriminate]. cbn [bind] in E.
  pose proof (enc_list_rt t vs body Ht SV EL) as RB.
  eapply reads_dval; [reflexivity|]. cbn [dec canon_by]. intros pos. unfold decode_sequence_of.
  assert (G : forall (h : list field) q, reads (dec_seqof_len c) q (render q h) (zlen vs) ->
     reads (do n <- dec_seqof_len c;
            do vs <- dec_n (do d <- dec t; lift (cast t d)) (Z.to_nat n);
            ret (DVal (VSeqOf vs))) q (render q (h ++ body)) (DVal (VSeqOf (map (canon t) vs)))).
  { intros h q R. rewrite render_app. eapply reads_bind; [apply R|].
    unfold zlen. rewrite Nat2Z.id. eapply reads_bind_r; [apply RB|]. apply reads_ret. }
  assert (NNEG : 0 <= zlen vs) by (unfold zlen; lia).
  unfold count_ok in SC. unfold encode_sequence_of in E. unfold dec_seqof_len in G.
  unfold dec_seqof_len. destruct (cext c).
  - destruct (chain_le (clo c) (zlen vs) (chi c)) as [b|] eqn:CH; [|discriminate].
    apply chain_inside in CH. rewrite CH in SC. cbn [bind] in E. destruct b.
    + unfold inside in CH. destruct (clo c) as [l|]; [|discriminate]. destruct (chi c) as [h|]; [|discriminate].
      rewrite length_constrained_ok in E by lia. cbn [bind app] in E. injection E as <-.
      apply (G [F false [false]; cwn_field (zlen vs) l h]).
      rewrite render_bit. eapply reads_bind; [apply reads_bit|]. cbn [Z.b2z Z.eqb List.length].
      apply reads_len_constrained; lia.
    + rewrite length_unconstrained_ok in E by lia. cbn [bind app] in E. injection E as <-.
      apply (G [F false [true]; len_field (zlen vs)]).
      rewrite render_bit. eapply reads_bind; [apply reads_bit|]. cbn [Z.b2z Z.eqb List.length].
      rewrite render_aligned by apply len_field_align. eapply reads_bind; [apply reads_align|].
      rewrite up8_pad. apply reads_len; lia.
  - destruct (clo c) as [l|]; [|contradiction]. cbn [need bind] in E.
    destruct (Z.ltb_spec (zlen vs) l); [discriminate|].
    destruct (chi c) as [h|].
    + cbn [truthy le_opt_r opt_is] in *.
      replace (negb (h =? 0) && negb (zlen vs <=? h)) with false in E by lia.
      destruct ((h =? l) && (l <? 65536)) eqn:X.
      * injection E as <-. apply (G []). replace ((l =? h) && (h <? 65536)) with true by lia.
        cbn [render]. replace (zlen vs) with l by lia. apply reads_ret.
      * replace ((l =? h) && (h <? 65536)) with false in * by lia.
        destruct (Z.eqb_spec h 0) as [->|Hh]; cbn [negb] in *; [lia|].
        rewrite length_constrained_ok in E by lia. cbn [bind] in E. injection E as <-.
        apply (G [_]). apply reads_len_constrained; lia.
    + cbn [truthy opt_is andb le_opt_r] in *.
      rewrite length_unconstrained_ok in E by lia. cbn [bind] in E. injection E as <-.
      apply (G [_]). apply reads_len; lia.
Qed.

Lemma nth_error_att {A} (f : ty -> A) l i :
  nth_error (att f l) i = match nth_error l i with Some c => Some (c, f (cty c)) | None => None end.
Proof. unfold att. rewrite nth_error_map. destruct (nth_error l i); reflexivity. Qed.

Lemma concat_att {A} (f : ty -> A) gs : List.concat (map (att f) gs) = att f (List.concat gs).
Proof. induction gs as [|g gs IH]; [reflexivity|]. cbn [map List.concat]. rewrite IH. unfold att. now rewrite map_app. Qed.

Lemma all_att {A} (f : ty -> A) r a gs :
  att f r ++ att f a ++ List.concat (map (att f) gs) = att f (all_comps r a gs).
Proof. rewrite concat_att. unfold all_comps, att. now rewrite !map_app. Qed.

Lemma index_of_nth {T} (cs : list (comp T)) i c : NoDup (map cname cs) -> nth_error cs i = Some c ->
  index_of (cname c) cs = Some i.
Proof.
  intros ND H. apply nth_error_split in H as (l1 & l2 & -> & <-). apply index_of_here.
  rewrite map_app in ND. cbn [map] in ND. apply NoDup_remove_2 in ND.
  intros X. apply ND, in_or_app. now left.
Qed.

Lemma pick_ok {A} (l : list A) i a pos : nth_error l i = Some a -> reads (pick l (Z.of_nat i)) pos [] a.
Proof. intros H. unfold pick. rewrite Nat2Z.id, H. apply reads_ret. Qed.

Lemma choice_rt ext root adds groups :
  Forall (fun c => rt_by (cty c)) root -> Forall (fun c => rt_by (cty c)) adds ->
  Forall (Forall (fun c => rt_by (cty c))) groups -> rt_by (TChoice ext root adds groups).
Proof.
  intros Hr Ha Hg v fs S E. cbn [supported_by] in S.
  destruct v as [| | | | | | | |[[i v']|]]; try contradiction.
  destruct S as (ND & Hext & Hn & S). rewrite all_att, nth_error_att in S.
  destruct (nth_error (all_comps root adds groups) i) as [c|] eqn:EC; [|contradiction].
  cbn [fst snd] in S. destruct S as (Sv & Sx).
  set (AB := adds ++ List.concat groups).
  assert (Hall : Forall (fun c => rt_by (cty c)) (root ++ AB)).
  { unfold AB. apply Forall_app. split; auto. apply Forall_app. split; auto. now apply Forall_concat. }
  assert (Hc : rt_by (cty c)).
  { apply nth_error_In in EC. rewrite Forall_forall in Hall. now apply Hall. }
  cbn [enc] in E.
  assert (EM : map (fun c0 : comp ty => (cname c0, enc (cty c0))) root ++
               map (fun c0 => (cname c0, enc (cty c0))) adds ++
               List.concat (map (map (fun c0 => (cname c0, enc (cty c0)))) groups) =
               map (fun c0 => (cname c0, enc (cty c0))) (all_comps root adds groups)).
  { unfold all_comps. rewrite !map_app, concat_map. reflexivity. }
  rewrite EM, nth_error_map, EC in E. cbn [option_map] in E. clear EM.
  destruct (enc (cty c) v') as [body|] eqn:EB; [|discriminate]. cbn [bind] in E.
  destruct (Hc _ _ Sv EB) as (dv & Cv & Rv).
  assert (CN : canon (TChoice ext root adds groups) (VChoice (Some (i, v'))) =
               VChoice (Some (i, canon (cty c) v'))).
  { cbn [canon_by]. rewrite all_att, nth_error_att, EC. reflexivity. }
  rewrite CN. clear CN. eapply reads_dval; [reflexivity|]. intros pos. cbn [dec].
  set (f := fun c0 : comp ty => (cty c0, dec (cty c0))).
  assert (GM : List.concat (map (map f) groups) = map f (List.concat groups)) by (rewrite concat_map; reflexivity).
  rewrite GM. clear GM.
  pose proof (index_of_nth _ _ _ ND EC) as IX.
  assert (Hn' : Z.of_nat (noct (zlen root - 1 - 0)) <= 65536 \/ len root = 0%nat).
  { destruct (len root) eqn:LR; [auto|left]. apply noct_ufits; [unfold zlen; lia|lia|].
    eapply ufits_le; [|exact Hn]. unfold zlen, all_comps. rewrite app_length. lia. }
  clear Hn.
  (* an alternative of the root *)
  assert (ROOT : (i < len root)%nat -> forall q,
     reads (do i0 <- (if Nat.eqb (len (map f root)) 1 then ret 0
                      else decode_constrained_from_field_list (Some 0) (Some (zlen (map f root) - 1)));
            do a <- pick (map f root) i0;
            do d <- snd a;
            do v0 <- lift (cast (fst a) d);
            ret (DVal (VChoice (Some (Z.to_nat i0, v0))))) q
       (render q ((if Nat.eqb (len root) 1 then [] else cwn_fields (Z.of_nat i) 0 (zlen root - 1)) ++ body))
       (DVal (VChoice (Some (i, canon (cty c) v'))))).
  { intros Hi q. rewrite map_length. unfold zlen at 1. rewrite map_length. fold (zlen root).
    assert (PK : nth_error (map f root) i = Some (f c)).
    { rewrite nth_error_map. unfold all_comps in EC. rewrite nth_error_app1 in EC by auto. now rewrite EC. }
    rewrite render_app. eapply reads_bind with (a := Z.of_nat i).
    - destruct (Nat.eqb_spec (len root) 1).
      + replace (Z.of_nat i) with 0 by lia. apply reads_ret.
      + destruct Hn' as [Hn'|]; [|lia]. apply reads_cwn_fields; unfold zlen in *; lia.
    - eapply reads_bind0; [apply pick_ok, PK|]. cbn [f fst snd].
      eapply reads_bind_r; [apply Rv|]. eapply reads_bind0; [apply reads_lift, Cv|].
      rewrite Nat2Z.id. apply reads_ret. }
  unfold encode_choice in E. unfold decode_choice.
  destruct (Nat.lt_ge_cases i (len root)) as [Hi|Hi].
  - assert (IR : index_of (cname c) root = Some i).
    { apply index_of_nth.
      - unfold all_comps in ND. rewrite map_app in ND. eapply NoDup_app_l; eauto.
      - unfold all_comps in EC. now rewrite nth_error_app1 in EC by auto. }
    rewrite IR in E. specialize (ROOT Hi). destruct ext; cbn [negb] in *.
    + assert (E' : fs = F false [false] ::
          (if Nat.eqb (len root) 1 then [] else cwn_fields (Z.of_nat i) 0 (zlen root - 1)) ++ body).
      { destruct (Nat.eqb (len root) 1); cbn [fill bind] in E; [injection E as <-; reflexivity|].
        rewrite cwn_fields_ok in E by (unfold zlen; lia). cbn [bind fill] in E. injection E as <-. reflexivity. }
      subst fs. rewrite render_bit. eapply reads_bind; [apply reads_bit|]. cbn [Z.b2z Z.eqb List.length].
      apply ROOT.
    + assert (E' : fs = (if Nat.eqb (len root) 1 then [] else cwn_fields (Z.of_nat i) 0 (zlen root - 1)) ++ body).
      { destruct (Nat.eqb (len root) 1); cbn [fill bind] in E; [injection E as <-; reflexivity|].
        rewrite cwn_fields_ok in E by (unfold zlen; lia). cbn [bind fill] in E. injection E as <-. reflexivity. }
      subst fs. apply ROOT.
  - destruct (Sx Hi) as (Hi2 & So).
    assert (EC2 : nth_error AB (i - len root) = Some c).
    { unfold all_comps in EC. now rewrite nth_error_app2 in EC by auto. }
    assert (IR : index_of (cname c) root = None).
    { apply index_of_none. intros X. unfold all_comps in ND. rewrite map_app in ND.
      apply nth_error_In in EC2. apply (in_map cname) in EC2. fold AB in ND.
      clear - X ND EC2. induction (map cname root) as [|a l IH]; [destruct X|].
      cbn [app] in ND. inversion ND; subst. destruct X as [->|X]; auto.
      apply H1, in_or_app. now right. }
    assert (IA : index_of (cname c) AB = Some (i - len root)%nat).
    { apply index_of_nth; auto. unfold all_comps in ND. rewrite map_app in ND. eapply NoDup_app_r; eauto. }
    destruct ext; cbn [negb] in *.
    2:{ exfalso. destruct (Hext eq_refl) as (-> & ->). unfold AB in EC2. cbn in EC2.
        destruct (i - len root)%nat; discriminate. }
    rewrite IR in E. fold AB in E. rewrite IA in E.
    destruct (isnil adds && isnil groups) eqn:NIL.
    { destruct adds; [|discriminate]. destruct groups; [|discriminate]. discriminate. }
    assert (NO : Z.of_nat (noct (Z.of_nat (i - len root))) < 16384).
    { assert (U : ufits 16383 (Z.of_nat (i - len root))) by (eapply ufits_le; [|exact Hi2]; lia).
      apply noct_ufits in U; lia. }
    clear Hi2. rewrite normally_small_ok in E by lia. cbn [bind] in E.
    destruct (encode_open_type_field body) as [o|] eqn:Eo; [|discriminate]. cbn [bind fill] in E.
    injection E as <-.
    destruct (open_rt (dec (cty c)) body o dv Eo) as (_ & _ & Or); auto.
    { eapply open_small_enc; eauto. }
    rewrite render_bit. eapply reads_bind; [apply reads_bit|]. cbn [Z.b2z Z.eqb List.length].
    rewrite render_app. eapply reads_bind; [apply reads_nsn; lia|].
    assert (NIL' : isnil (map f adds) && isnil (map f (List.concat groups)) = false).
    { destruct adds; [|reflexivity]. cbn [map isnil andb]. unfold AB in EC2. cbn [app] in EC2.
      destruct (List.concat groups); [destruct (i - len root)%nat; discriminate|reflexivity]. }
    rewrite NIL'. eapply reads_bind0.
    { rewrite <- map_app. apply pick_ok with (a := f c). fold AB. now rewrite nth_error_map, EC2. }
    cbn [f fst snd]. eapply reads_bind_r; [apply Or|]. eapply reads_bind0; [apply reads_lift, Cv|].
    rewrite map_length, Nat2Z.id. replace (len root + (i - len root))%nat with i by lia. apply reads_ret.
Qed.

Theorem rt_by_all t : rt_by t.
Proof.
  induction t using ty_rect'.
  - intros v fs S E. destruct v; try contradiction. cbn [enc] in E. injection E as <-. apply bool_rt.
  - intros v fs S E. destruct v; try contradiction. now apply int_rt.
  - intros v fs S E. destruct v; try contradiction. now apply enum_rt.
  - intros v fs S E. destruct v; try contradiction. now apply bits_rt.
  - intros v fs S E. destruct v; try contradiction. now apply KW.
  - now apply seq_rt.
  - now apply seqof_rt.
  - now apply choice_rt.
Qed.
End Arrive.

Definition rt (t : ty) : Prop := rt_by (kept := octs_ok) (shift := fun _ bs => bs) t.

Theorem rt_all t : rt t.
Proof. exact (rt_by_all octs_rt t). Qed.
