(** Messages that pass through relays: a program that decodes a message with the
    library and encodes the object it got. *)
From Coq Require Import ZArith List String Bool Lia ZifyBool ZifyNat ZifyN.
Import ListNotations.
From Verif Require Import PyBase Schema Encoder Decoder BitFacts Stream Prims Spec SimpleTypes RoundTrip Reading
  Totality PropsRoundTrip Objects Constraints Valid Exact Faults Extent X691 Conform Safe Standard Peers Mild Shifted Received.
Open Scope Z_scope.
Ltac Zify.zify_post_hook ::= Z.div_mod_to_equations.

(** decode (codec/per/decoder.py 68-74), then encode (codec/per/encoder.py 33-37). *)
Definition relay (t : ty) (bs : list Z) : res (list Z) :=
  let* v := decode bs t in encode t v.

Fixpoint relays (n : nat) (t : ty) (bs : list Z) : res (list Z) :=
  match n with
  | O => Ok bs
  | Datatypes.S n' => let* out := relay t bs in relays n' t out
  end.

(** * What is decoded is a message again *)

Section Again.
Context {rule : constr -> bool} {shift : constr -> list Z -> list Z}.
Local Notation safe := (safe_by rule).
Local Notation canon := (canon_by shift).

Definition shift_fits : Prop := forall c bs, rule c = true -> sat c (zlen bs) -> Forall (fun b => 0 <= b < 256) bs ->
  sat c (zlen (shift c bs)) /\ Forall (fun b => 0 <= b < 256) (shift c bs).

Definition again (t : ty) : Prop := safe t = true -> forall v, message t v -> message t (canon t v).

Lemma again_root c s : again (cty c) -> safe (cty c) = true -> safe_root c = true ->
  msg_root (c, message (cty c)) s ->
  msg_root (c, message (cty c)) (canon_root (c, canon (cty c)) s) /\ has c (canon_root (c, canon (cty c)) s) = has c s.
Proof.
  intros A Sf S M. specialize (A Sf). unfold safe_root in S. apply andb_true_iff in S as (Sd & So).
  unfold canon_root, sent_root, msg_root, has, is_defaulted in *. cbn [fst snd] in *. cbv zeta.
  destruct (cpres c) as [| |d] eqn:P.
  - destruct s as [v|]; [|congruence]. cbn [slot_get]. auto.
  - unfold is_mandatory in So. rewrite P in So. cbn [orb] in So. destruct s as [v|]; cbn [slot_get].
    + rewrite (proj2 (solid_message _ So v M)). auto.
    + rewrite P. unfold present. rewrite (solid_fresh _ So). cbn [andb]. split; [discriminate|reflexivity].
  - assert (Mv : message (cty c) (slot_get c s)).
    { destruct s as [v|]; cbn [slot_get]; [exact M|]. rewrite P. unfold safe_default in Sd. rewrite P in Sd.
      apply andb_true_iff in Sd as (F & _). now apply fits_message in F. }
    destruct (match raw_ne d (slot_get c s) with Ok b => b | Err _ => false end);
      (split; [try discriminate; auto|destruct s; reflexivity]).
Qed.

Lemma again_add c s : again (cty c) -> safe (cty c) = true -> safe_add c = true ->
  msg_add (c, message (cty c)) s ->
  msg_add (c, message (cty c)) (canon_add (c, canon (cty c)) s) /\ has c (canon_add (c, canon (cty c)) s) = has c s.
Proof.
  intros A Sf S M. specialize (A Sf). destruct (add_present c s S M) as (P & _ & W). unfold canon_add, sent_add.
  cbn [fst snd]. cbv zeta. rewrite P. destruct (has c s) eqn:Hs.
  - destruct (W eq_refl) as (Mv & _). split; [|reflexivity]. unfold msg_add. cbn [snd]. auto.
  - split; [exact Logic.I|]. destruct s; cbn [has] in *; [discriminate|exact Hs].
Qed.

Definition fine (cs : list (comp ty)) : Prop :=
  Forall (fun c => again (cty c)) cs /\ Forall (fun c => safe (cty c) = true) cs.

Lemma fine_cons c cs : fine (c :: cs) -> (again (cty c) /\ safe (cty c) = true) /\ fine cs.
Proof. intros (A & S). inversion A; inversion S; subst. repeat split; auto. Qed.

Lemma again_roots cs : forall ss rest, fine cs -> Forall (fun c => safe_root c = true) cs -> (len cs <= len ss)%nat ->
  all_of (zipw msg_root (att message cs) ss) ->
  all_of (zipw msg_root (att message cs) (zipw canon_root (att canon cs) ss ++ rest)) /\
  zipw has cs (zipw canon_root (att canon cs) ss ++ rest) = zipw has cs ss.
Proof.
  induction cs as [|c cs IH]; intros ss rest F S L M; [split; [intros p []|destruct ss; reflexivity]|].
  destruct ss as [|s ss]; [cbn [List.length] in L; lia|]. apply fine_cons in F as ((A & Sf) & F). inversion S; subst.
  cbn [att map zipw app] in M |- *. apply all_of_cons in M as (M1 & M2). rewrite all_of_cons.
  destruct (again_root c s A Sf H1 M1) as (R1 & R2). destruct (IH ss rest F H2) as (R3 & R4); auto.
  { cbn [List.length] in L. lia. }
  split; [now split|]. f_equal; assumption.
Qed.

Lemma again_adds cs : forall ss rest, fine cs -> Forall (fun c => safe_add c = true) cs -> (len cs <= len ss)%nat ->
  all_of (zipw msg_add (att message cs) ss) ->
  all_of (zipw msg_add (att message cs) (zipw canon_add (att canon cs) ss ++ rest)) /\
  zipw has cs (zipw canon_add (att canon cs) ss ++ rest) = zipw has cs ss.
Proof.
  induction cs as [|c cs IH]; intros ss rest F S L M; [split; [intros p []|destruct ss; reflexivity]|].
  destruct ss as [|s ss]; [cbn [List.length] in L; lia|]. apply fine_cons in F as ((A & Sf) & F). inversion S; subst.
  cbn [att map zipw app] in M |- *. apply all_of_cons in M as (M1 & M2). rewrite all_of_cons.
  destruct (again_add c s A Sf H1 M1) as (R1 & R2). destruct (IH ss rest F H2) as (R3 & R4); auto.
  { cbn [List.length] in L. lia. }
  split; [now split|]. f_equal; assumption.
Qed.

Lemma flags_has cs : forall ss ss', zipw has cs ss = zipw has cs ss' -> zipw has_flag cs ss = zipw has_flag cs ss'.
Proof.
  induction cs as [|c cs IH]; intros [|s ss] [|s' ss'] E; cbn [zipw] in *; try discriminate; try reflexivity.
  unfold has_flag at 1 3. pose proof (f_equal (hd true) E) as E1. pose proof (f_equal (@tl bool) E) as E2. cbn [hd tl] in E1, E2.
  rewrite E1. f_equal. now apply IH.
Qed.

Lemma no_has g : forall ss rest, any_has g ss = false -> (len g <= len ss)%nat ->
  all_of (zipw msg_add (att message g) (map (fun _ => None) (att canon g) ++ rest)) /\
  zipw has g (map (fun _ => None) (att canon g) ++ rest) = zipw has g ss.
Proof.
  unfold any_has. induction g as [|c g IH]; intros ss rest A L; [split; [intros p []|destruct ss; reflexivity]|].
  destruct ss as [|s ss]; [cbn [List.length] in L; lia|]. cbn [zipw existsb] in A. apply orb_false_iff in A as (A1 & A2).
  destruct (IH ss rest A2) as (R1 & R2); [cbn [List.length] in L; lia|].
  cbn [att map zipw app]. rewrite all_of_cons. split; [split; [exact Logic.I|exact R1]|]. f_equal; [|exact R2].
  rewrite A1. destruct s; [discriminate|exact A1].
Qed.

Lemma add_of_root cs ss : all_of (zipw msg_root (att message cs) ss) -> all_of (zipw msg_add (att message cs) ss).
Proof. apply root_add_msg. Qed.

Lemma sent_has g ss : Forall (fun c => safe_add c = true) g -> all_of (zipw msg_add (att message g) ss) ->
  group_sent g ss = any_has g ss.
Proof.
  rewrite zipw_all, Forall_forall. intros S M. unfold group_sent, any_has, sent_add. f_equal. apply zipw_eq.
  intros i c s Ci Si. apply (add_present c s); [exact (S c (nth_error_In _ _ Ci))|exact (M i c s Ci Si)].
Qed.

Lemma again_groups gs : forall ss, Forall fine gs -> Forall (Forall (fun c => safe_add c = true)) gs ->
  len (List.concat gs) = len ss -> msg_groups (map (att message) gs) ss ->
  msg_groups (map (att message) gs) (canon_groups (map (att canon) gs) ss) /\
  has_flags gs (canon_groups (map (att canon) gs) ss) = has_flags gs ss /\
  len (canon_groups (map (att canon) gs) ss) = len ss.
Proof.
  induction gs as [|g gs IH]; intros ss F S L M.
  { cbn [List.concat List.length] in L. destruct ss; [|discriminate]. auto. }
  inversion F; inversion S; subst. cbn [map msg_groups canon_groups List.concat has_flags] in *. rewrite !att_length in *.
  rewrite app_length in L. destruct M as ((M1 & MR) & M2). unfold msg_group. rewrite map_fst_att in MR |- *.
  assert (FR : Forall (fun c => safe_root c = true) g).
  { rewrite Forall_forall in *. intros c Ic. apply add_root. auto. }
  assert (LG : (len g <= len ss)%nat) by lia.
  set (rest := canon_groups (map (att canon) gs) (skipn (len g) ss)).
  assert (LC : len (canon_group (att canon g) ss) = len g).
  { unfold canon_group. destruct (group_sent _ _); [rewrite zipw_len_short; rewrite att_length; lia|].
    now rewrite map_length, att_length. }
  assert (X : all_of (zipw msg_add (att message g) (canon_group (att canon g) ss ++ rest)) /\
    (any_has g ss = true -> all_of (zipw msg_root (att message g) (canon_group (att canon g) ss ++ rest))) /\
    zipw has g (canon_group (att canon g) ss ++ rest) = zipw has g ss).
  { unfold canon_group. rewrite map_fst_att, (sent_has g ss) by assumption. destruct (any_has g ss) eqn:AH.
    - destruct (again_roots g ss rest) as (R1 & R2); auto. split; [now apply add_of_root|]. auto.
    - destruct (no_has g ss rest AH LG) as (R1 & R2). split; [exact R1|]. split; [discriminate|exact R2]. }
  destruct X as (X1 & X2 & X3).
  assert (XA : any_has g (canon_group (att canon g) ss ++ rest) = any_has g ss) by (unfold any_has; now rewrite X3).
  rewrite XA. replace (skipn (len g) (canon_group (att canon g) ss ++ rest)) with rest.
  2: { rewrite skipn_app, <- LC, skipn_all, Nat.sub_diag. reflexivity. }
  destruct (IH (skipn (len g) ss)) as (R1 & R2 & R3); auto.
  { rewrite skipn_length. lia. }
  fold rest in R1, R2, R3. split; [|split].
  - split; [split|]; assumption.
  - now rewrite R2.
  - rewrite app_length, LC, R3, skipn_length. lia.
Qed.

Theorem message_again t : shift_fits -> again t.
Proof.
  intros W. induction t using ty_rect'; intros Sf v M; cbn [canon_by]; try exact M.
  - destruct v; try contradiction. cbn [message safe_by] in *. destruct M as (M1 & M2). now apply W.
  - destruct v as [| | | | | |slots| |]; try contradiction. cbn [message safe_by] in M, Sf |- *. cbv zeta in M |- *.
    apply andb_true_iff in Sf as (Sf & S3). apply andb_true_iff in S3 as (S3 & Tg). apply andb_true_iff in S3 as (Tr & Ta).
    apply andb_true_iff in Sf as (Sf & Sg). apply andb_true_iff in Sf as (Sf & Sa). apply andb_true_iff in Sf as (_ & Sr).
    apply forallb_Forall in Tr, Ta, Sr, Sa. apply forallb_Forall2 in Tg, Sg.
    set (ss := slots_list (ncomps r a g) slots) in *. destruct M as (L & M1 & M2 & M3 & G1 & G2).
    assert (LL := L). unfold ncomps, all_comps in LL. rewrite !app_length in LL.
    assert (Fg : Forall fine g).
    { rewrite Forall_forall in *. intros x Ix. split; auto. }
    set (o3 := canon_groups (map (att canon) g) (skipn (len r + len a) ss)).
    set (o2 := zipw canon_add (att canon a) (skipn (len r) ss)).
    set (o1 := zipw canon_root (att canon r) ss).
    assert (L1 : len o1 = len r).
    { unfold o1. rewrite zipw_len_short; rewrite att_length; lia. }
    assert (L2 : len o2 = len a).
    { unfold o2. rewrite zipw_len_short; rewrite att_length; [lia|]. rewrite skipn_length. lia. }
    destruct (again_groups g (skipn (len r + len a) ss)) as (R1 & R2 & R3); auto.
    { rewrite skipn_length. lia. }
    fold o3 in R1, R2, R3. rewrite skipn_length in R3.
    destruct (again_adds a (skipn (len r) ss) o3) as (A1 & A2); auto; [now split|rewrite skipn_length; lia|].
    fold o2 in A1, A2.
    destruct (again_roots r ss (o2 ++ o3)) as (B1 & _); auto; [now split|lia|]. fold o1 in B1.
    rewrite slots_list_of by (unfold ncomps, all_comps; rewrite !app_length; lia).
    replace (skipn (len r) (o1 ++ o2 ++ o3)) with (o2 ++ o3)
      by (rewrite <- L1, skipn_app, skipn_all, Nat.sub_diag; reflexivity).
    replace (skipn (len r + len a) (o1 ++ o2 ++ o3)) with o3.
    2: { rewrite app_assoc, skipn_app. replace (len r + len a)%nat with (len (o1 ++ o2)) by (rewrite app_length; lia).
      now rewrite skipn_all, Nat.sub_diag. }
    split; [unfold ncomps, all_comps; rewrite !app_length; lia|]. split; [exact B1|]. split; [exact A1|]. split; [exact R1|].
    split; [|now rewrite R2]. now rewrite (flags_has a _ _ A2).
  - destruct v; try contradiction. cbn [message safe_by] in *. destruct M as (M1 & M2). apply andb_true_iff in Sf as (_ & Sf).
    split; [unfold zlen in *; now rewrite map_length|]. rewrite all_of_forall in *. rewrite Forall_map.
    rewrite Forall_forall in *. auto.
  - destruct v as [| | | | | | | |[(i & v)|]]; try contradiction. cbn [message safe_by] in M, Sf |- *.
    apply andb_true_iff in Sf as (_ & S3). apply three_all in S3. pose proof (all_three _ r a g H H0 H1) as HA.
    rewrite Forall_forall in S3, HA. rewrite (all_att message) in M. rewrite (all_att canon).
    destruct (nth_error (att message (all_comps r a g)) i) as [ca|] eqn:Ca; [|contradiction].
    apply nth_att in Ca as (c & Ci & ->). rewrite (att_nth canon _ _ _ Ci). cbn [snd] in *.
    rewrite (all_att message), (att_nth message _ _ _ Ci). cbn [snd]. apply HA; auto; try exact (nth_error_In _ _ Ci).
    apply S3. exact (nth_error_In _ _ Ci).
Qed.
End Again.

(** * Digits are moved once *)

Section Twice.
Context {rule : constr -> bool} {shift : constr -> list Z -> list Z}.
Local Notation safe := (safe_by rule).
Local Notation moved := (moved shift).

Definition shift_once : Prop := forall c bs, rule c = true -> sat c (zlen bs) -> Forall (fun b => 0 <= b < 256) bs ->
  shift c (shift c bs) = shift c bs.

Definition twice (t : ty) : Prop := safe t = true -> forall a, Peers.valid t a -> moved t (moved t a) = moved t a.

Lemma twice_slots cs : forall l, Forall (fun c => twice (cty c) /\ safe (cty c) = true) cs ->
  all_of (zipw val_add (att Peers.valid cs) l) ->
  move_slots (att moved cs) (move_slots (att moved cs) l) = move_slots (att moved cs) l.
Proof.
  induction cs as [|c cs IH]; intros [|o l] F V; try reflexivity. inversion F as [|? ? (Tw & Sf) F']; subst.
  cbn [att map zipw move_slots] in V |- *. apply all_of_cons in V as (V & Vs).
  change (map (fun c => (c, moved (cty c))) cs) with (att moved cs). f_equal; [|now apply IH].
  destruct o as [x|]; [|reflexivity]. cbn [option_map snd]. f_equal. now apply Tw.
Qed.

Lemma val_join (cs ds : list (comp ty)) l : all_of (zipw val_add (att Peers.valid cs) l) ->
  all_of (zipw val_add (att Peers.valid ds) (skipn (len cs) l)) ->
  all_of (zipw val_add (att Peers.valid (cs ++ ds)) l).
Proof.
  revert l. induction cs as [|c cs IH]; intros l M N; [exact N|]. destruct l as [|o l]; [apply all_of_nil|].
  cbn [att map zipw app List.length skipn] in *. apply all_of_cons in M as (M1 & M2). apply all_of_cons. split; [exact M1|].
  now apply IH.
Qed.

Lemma val_groups_join gs : forall l, val_groups (map (att Peers.valid) gs) l ->
  all_of (zipw val_add (att Peers.valid (List.concat gs)) l).
Proof.
  induction gs as [|g gs IH]; intros l V; cbn [List.concat]; [cbn; apply all_of_nil|].
  cbn [map val_groups] in V. rewrite att_length in V. destruct V as (V & N). apply val_join; [|now apply IH].
  destruct (any_given (firstn (len g) l)) eqn:A; [apply root_val_add; auto|now apply none_val_add].
Qed.

Theorem moved_twice t : shift_once -> twice t.
Proof.
  intros W. induction t using ty_rect'; intros Sf x V; cbn [Received.moved]; try reflexivity.
  - destruct x; try contradiction. cbn [Peers.valid safe_by Received.moved] in *. destruct V as (V1 & V2). f_equal. now apply W.
  - destruct x as [| | | | | |l| |]; try contradiction. cbn [Peers.valid safe_by] in V, Sf. cbv zeta in V.
    apply andb_true_iff in Sf as (_ & S3). apply three_all in S3. pose proof (all_three _ r a g H H0 H1) as HA.
    cbn [Received.moved]. f_equal. rewrite (all_att moved). destruct V as (_ & V1 & V2 & V3 & _). apply twice_slots.
    + rewrite Forall_forall in *. auto.
    + unfold all_comps. apply val_join; [now apply root_val_add|]. apply val_join; [exact V2|].
      rewrite skip_skip. now apply val_groups_join.
  - destruct x as [| | | | | | |l|]; try contradiction. cbn [Peers.valid safe_by Received.moved] in *. destruct V as (_ & V).
    apply andb_true_iff in Sf as (_ & Sf). f_equal. rewrite map_map. rewrite all_of_forall in V.
    apply map_ext_in. rewrite Forall_forall in V. auto.
  - destruct x as [| | | | | | | |[(i & x)|]]; try contradiction. cbn [Peers.valid safe_by] in V, Sf.
    apply andb_true_iff in Sf as (_ & S3). apply three_all in S3. pose proof (all_three _ r a g H H0 H1) as HA.
    rewrite Forall_forall in S3, HA. rewrite (all_att Peers.valid) in V. rewrite !(all_att moved).
    destruct (nth_error (att Peers.valid (all_comps r a g)) i) as [ca|] eqn:Ca; [|contradiction].
    apply nth_att in Ca as (c & Ci & ->). rewrite (att_nth moved _ _ _ Ci). cbn [snd Received.moved] in *.
    rewrite (att_nth moved _ _ _ Ci). cbn [snd]. do 3 f_equal.
    apply HA; auto; try exact (nth_error_In _ _ Ci). apply S3. exact (nth_error_In _ _ Ci).
Qed.
End Twice.

(** * Relays *)

Lemma octets_from_octets n ds : (len ds <= n)%nat -> Forall hexdigit ds -> Forall (fun b => 0 <= b < 256) (octets_from ds).
Proof.
  revert ds. induction n as [|n IH]; intros ds L F.
  - destruct ds; [constructor|cbn [List.length] in L; lia].
  - destruct ds as [|d [|e ds]]; [constructor|..]; cbn [octets_from]; inversion F as [|? ? D1 F1]; subst; unfold hexdigit in D1.
    + constructor; [lia|constructor].
    + inversion F1 as [|? ? D2 F2]; subst. unfold hexdigit in D2. constructor; [lia|]. apply IH; auto. cbn [List.length] in L. lia.
Qed.

Lemma shifted_octets bs : Forall (fun b => 0 <= b < 256) bs -> Forall (fun b => 0 <= b < 256) (shifted bs).
Proof.
  intros O. unfold shifted. destruct (no_zeros (digits_of bs)) as [|d ds] eqn:E; [repeat constructor; lia|].
  apply (octets_from_octets (len (d :: ds))); [lia|]. rewrite <- E, digits_hexlify. apply no_zeros_spec. now apply hexlify_spec.
Qed.

Lemma upward_fits : shift_fits (rule := upward_octs) (shift := arrives).
Proof.
  intros c bs U M O. unfold upward_octs in U. apply orb_true_iff in U as [U|U]; [rewrite safe_arrives by exact U; auto|].
  destruct c as [| | |e lo hi| | |]; try discriminate. destruct e; [discriminate|]. destruct lo as [l|]; [|discriminate].
  destruct hi as [h|]; [|discriminate]. unfold arrives. cbn [cext clo chi andb].
  destruct bs as [|b r]; [auto|]. destruct (l <? h); [|auto]. split; [|now apply shifted_octets].
  pose proof (C72_shorter (b :: r) ltac:(discriminate)). cbn [sat] in *. destruct M as [M|(Ml & Mh)]; [discriminate|]. right.
  split; [intros k [= <-]; lia|intros k [= <-]; specialize (Mh h eq_refl); lia].
Qed.

Lemma upward_once : shift_once (rule := upward_octs) (shift := arrives).
Proof.
  intros c bs U M O. unfold upward_octs in U. apply orb_true_iff in U as [U|U]; [now rewrite !(safe_arrives c) by exact U|].
  destruct c as [| | |e lo hi| | |]; try discriminate. destruct e; [discriminate|]. destruct lo as [l|]; [|discriminate].
  destruct hi as [h|]; [|discriminate]. unfold arrives. cbn [cext clo chi andb].
  destruct bs as [|b r]; [reflexivity|]. destruct (l <? h) eqn:E; [|reflexivity]. rewrite (C72_once _ O).
  destruct (shifted (b :: r)); reflexivity.
Qed.

(** What X.691 prescribes for any value of a checked type is decoded, and encoded
    as X.691 prescribes for the value with its digits moved. *)
Lemma hop t a bs : upward t = true -> Peers.valid t a -> PER t a bs ->
  exists v out, decode bs t = Ok v /\ encode t v = Ok out /\ Peers.valid t (moved arrives t a) /\ PER t (moved arrives t a) out.
Proof.
  unfold upward. intros T V P. apply andb_true_iff in T as (T & Ba). apply andb_true_iff in T as (T & Li).
  apply andb_true_iff in T as (T & St). apply andb_true_iff in T as (Sf & Se).
  assert (OS : forall v out, message t v -> encode t v = Ok out -> PER t (reading t v) out).
  { intros v out M E. assert (Md : modest t v) by now apply (limited_calm upward_sane).
    assert (Br : brief t v) by now apply (limited_brief upward_octs).
    exact (C45_conforms_partial t v out
      (standard_sound t (fun c x U => mild_standard c x (upward_mild c U)) Sf St _ M Md Br) E). }
  destruct (values_told t Sf Ba a V) as (M & Ea).
  assert (Md : modest t (unread t a)) by now apply (limited_calm upward_sane).
  destruct (C72_every_message t (unread t a) Sf M Md) as (bs0 & E & Dv).
  assert (Rv : reading t (canon_by arrives t (unread t a)) = moved arrives t a).
  { destruct (C72_received_all t (unread t a) Sf Se M Md) as (bs1 & v & E1 & D1 & R1).
    rewrite E in E1. apply ok_inj in E1. subst bs1. rewrite Dv in D1. apply ok_inj in D1. now rewrite D1, <- Ea at 1. }
  pose proof (message_again t upward_fits Sf _ M) as M'.
  destruct (C72_every_message t (canon_by arrives t (unread t a)) Sf M') as (out & E' & _); [now apply (limited_calm upward_sane)|].
  pose proof (OS _ _ M E) as P0. rewrite Ea in P0. rewrite (C45_unique _ _ _ _ P P0).
  exists (canon_by arrives t (unread t a)), out. split; [exact Dv|]. split; [exact E'|]. rewrite <- Rv. split; [|now apply OS].
  exact (messages_honest (rule := upward_octs) t Sf _ M').
Qed.

(** A relay sends what X.691 prescribes for the value with its digits moved, and
    the next relay sends the same octets. *)
Theorem C73_relay : forall t a bs, upward t = true -> Peers.valid t a -> PER t a bs ->
  exists out, relay t bs = Ok out /\ PER t (moved arrives t a) out /\ relay t out = Ok out.
Proof.
  intros t a bs T V P. destruct (hop t a bs T V P) as (v & out & Dv & E & V' & P').
  exists out. unfold relay. rewrite Dv. cbn [bind]. split; [exact E|]. split; [exact P'|].
  destruct (hop t _ out T V' P') as (v2 & out2 & D2 & E2 & _ & P2). rewrite D2. cbn [bind]. rewrite E2. f_equal.
  assert (Sf : safe_by upward_octs t = true).
  { unfold upward in T. repeat (apply andb_true_iff in T as (T & _)). exact T. }
  rewrite (moved_twice t upward_once Sf a V) in P2. exact (C45_unique _ _ _ _ P2 P').
Qed.

(** However many relays there are on the way, the receiver reads the same value. *)
Theorem C73_chain : forall n t a bs, upward t = true -> Peers.valid t a -> PER t a bs ->
  exists out v, relays n t bs = Ok out /\ decode out t = Ok v /\ reading t v = moved arrives t a.
Proof.
  intros n t a bs T V P. assert (Sf : safe_by upward_octs t = true).
  { unfold upward in T. repeat (apply andb_true_iff in T as (T & _)). exact T. }
  destruct n as [|n].
  - destruct (C72_any_sender t a bs T V P) as (v & Dv & Rv). exists bs, v. auto.
  - destruct (C73_relay t a bs T V P) as (out & R1 & P1 & R2). cbn [relays]. rewrite R1. cbn [bind].
    assert (F : relays n t out = Ok out).
    { clear R1. induction n as [|n IH]; [reflexivity|]. cbn [relays]. rewrite R2. cbn [bind]. exact IH. }
    destruct (hop t a bs T V P) as (_ & _ & _ & _ & V' & _).
    destruct (C72_any_sender t _ out T V' P1) as (v & Dv & Rv). exists out, v. split; [exact F|]. split; [exact Dv|].
    now rewrite Rv, (moved_twice t upward_once Sf a V).
Qed.

(** With the checks of C70 the octets pass every relay unchanged, whoever sent them. *)
Theorem C73_transparent : forall t a bs, trusted t = true -> Peers.valid t a -> PER t a bs ->
  forall n, relays n t bs = Ok bs.
Proof.
  unfold trusted. intros t a bs T V P. apply andb_true_iff in T as (T & Ba). apply andb_true_iff in T as (T & Li).
  apply andb_true_iff in T as (Sf & St).
  assert (Rl : relay t bs = Ok bs); [|intros n; induction n as [|n IH]; [reflexivity|]; cbn [relays]; rewrite Rl; exact IH].
  destruct (values_told t Sf Ba a V) as (M & Ea).
  destruct (C69_limited t (unread t a) Sf Li St M) as (bs0 & v & E & Q & Dv & Rv). rewrite Ea in Q, Rv.
  apply Q in P. subst bs0.
  assert (M' : message t v).
  { assert (Md : modest t (unread t a)) by now apply (limited_calm octs_sane).
    destruct (safe_good t octs_safe Sf (unread t a) M Md) as (Su & Re).
    assert (Top : top_ok t (unread t a)) by (unfold top_ok; destruct t; try exact Logic.I; exact (safe_top _ Sf _ M)).
    pose proof (decode_encode_canon t (unread t a) bs [] Su Top E ltac:(constructor)) as Dc.
    rewrite app_nil_r, Dv in Dc. apply ok_inj in Dc. subst v.
    apply (message_again (rule := safe_octs) t); auto. intros c x _ Mx Ox. auto. }
  destruct (C69_limited t v Sf Li St M') as (out & v2 & E2 & Q2 & _). rewrite Rv in Q2.
  unfold relay. rewrite Dv. cbn [bind]. rewrite E2. f_equal. symmetry. apply Q2. now apply Q.
Qed.

(** Three strings, two of them with zero digits in front. *)
Definition three : ty :=
  TSeq true [Comp "a" Mand (TOcts (CRange false (Some 2) (Some 2))); Comp "b" Opt (TOcts (CRange false (Some 1) (Some 4)))]
    [Comp "c" Opt (TOcts (CRange false (Some 1) (Some 9)))] [].

Example C73_case : upward three = true /\ exists a bs out, Peers.valid three a /\ PER three a bs /\
  relay three bs = Ok out /\ out <> bs /\ relays 7 three bs = Ok out /\ moved arrives three a <> a.
Proof.
  assert (T : upward three = true) by (vm_compute; reflexivity). split; [exact T|].
  set (v := VSeq (Some [Some (VOcts [0; 5]); Some (VOcts [1; 2; 3]); Some (VOcts [0; 18; 52])])).
  assert (M : message three v) by (unfold three, v; concrete).
  assert (V : Peers.valid three (reading three v)).
  { apply (messages_honest (rule := upward_octs) three); [vm_compute; reflexivity|exact M]. }
  assert (St : standard three = true) by (vm_compute; reflexivity).
  assert (Sf : safe_by upward_octs three = true) by (vm_compute; reflexivity).
  assert (Li : limited three = true) by (vm_compute; reflexivity).
  assert (Md : modest three v) by now apply (limited_calm upward_sane).
  assert (Br : brief three v) by now apply (limited_brief upward_octs).
  assert (E : exists bs, encode three v = Ok bs) by (eexists; vm_compute; reflexivity). destruct E as (bs & E).
  pose proof (C45_conforms_partial three v bs
    (standard_sound three (fun c x U => mild_standard c x (upward_mild c U)) Sf St _ M Md Br) E) as P.
  vm_compute in E. apply ok_inj in E. subst bs.
  eexists _, _, _. split; [exact V|]. split; [exact P|]. split; [vm_compute; reflexivity|].
  split; [discriminate|]. split; [vm_compute; reflexivity|]. vm_compute. discriminate.
Qed.

Example C73_transparent_case : trusted packet = true /\ Peers.valid packet (reading packet packet_value).
Proof.
  split; [vm_compute; reflexivity|]. apply (messages_honest (rule := safe_octs) packet); [vm_compute; reflexivity|].
  unfold packet, packet_value. concrete.
Qed.
