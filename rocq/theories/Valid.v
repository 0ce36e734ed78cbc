(** C13: what decode accepts satisfies the schema.  C32: encoder and decoder
    answer on every input. *)
From Coq Require Import ZArith List String Bool Lia ZifyBool ZifyNat ZifyN.
Import ListNotations.
From Verif Require Import PyBase Schema Encoder Decoder BitFacts Stream Prims Spec SimpleTypes RoundTrip
  Constraints.
Open Scope string_scope.
Open Scope list_scope.
Open Scope Z_scope.
Ltac Zify.zify_post_hook ::= Z.div_mod_to_equations.

(** * Objects that satisfy their type *)

Definition set_in (cs : list (comp ty)) (ss : list (option val)) (c : comp ty) : Prop :=
  exists i v, nth_error cs i = Some c /\ nth_error ss i = Some (Some v).

(** What a SIZE says about the number of elements of a SEQUENCE OF, and what an
    OCTET STRING may be besides. *)
Definition limits : Type := (constr -> Z -> Prop) * (constr -> list Z -> Prop).

(** [fst size c n]: [n] elements are allowed in a SEQUENCE OF with constraint [c]. *)
Inductive valid (size : limits) : ty -> val -> Prop :=
| valid_bool b : valid size TBool (VBool b)
| valid_int c z : sat c z -> valid size (TInt c) (VInt z)
| valid_enum ext root adds z : In z (root ++ adds) -> valid size (TEnum ext root adds) (VEnum z)
| valid_bits c s : sat c (zlen s) -> valid size (TBits c) (VBits s)
| valid_octs c bs : sat c (zlen bs) -> snd size c bs -> valid size (TOcts c) (VOcts bs)
| valid_seq_empty ext root adds groups :
    (forall c, In c root -> cpres c <> Mand) ->
    valid size (TSeq ext root adds groups) (VSeq None)
| valid_seq ext root adds groups ss :
    let cs := root ++ adds ++ List.concat groups in
    List.length ss = List.length cs ->
    (forall i c v, nth_error cs i = Some c -> nth_error ss i = Some (Some v) -> valid size (cty c) v) ->
    (* every mandatory root component is set *)
    (forall c, In c root -> cpres c = Mand -> set_in cs ss c) ->
    (* and every mandatory component of a group of which one is set *)
    (forall g c c', In g groups -> In c g -> set_in cs ss c -> In c' g -> cpres c' = Mand -> set_in cs ss c') ->
    valid size (TSeq ext root adds groups) (VSeq (Some ss))
| valid_seqof c t vs : fst size c (zlen vs) -> (forall v, In v vs -> valid size t v) ->
    valid size (TSeqOf c t) (VSeqOf vs)
| valid_choice ext root adds groups i c v :
    nth_error (root ++ adds ++ List.concat groups) i = Some c -> valid size (cty c) v ->
    valid size (TChoice ext root adds groups) (VChoice (Some (i, v))).

(** The whole of what SIZE says about the number of elements. *)
Definition size_full : limits :=
  (fun c n => cext c = true \/ (above (clo c) n /\ below n (chi c)), fun _ _ => True).

(** What is enforced for SIZE (l..h) without extension marker: the lower end,
    and the upper end when every bit pattern of the field is a length: 2^k
    lengths with k <= 8 or k = 16. *)
Definition count_enforced (c : constr) (n : Z) : Prop :=
  0 <= n /\
  forall l h, cext c = false -> clo c = Some l -> chi c = Some h -> 0 <= l <= h -> h < 65536 ->
    l <= n /\ forall k, h - l + 1 = 2 ^ k -> 0 <= k <= 8 \/ k = 16 -> n <= h.

(** An OCTET STRING of a variable size never comes with a leading zero digit. *)
Definition shown (c : constr) (bs : list Z) : Prop :=
  forall l h, cext c = false -> clo c = Some l -> chi c = Some h -> 0 <= l < h -> digits_kept bs.

Definition size_enforced : limits := (count_enforced, shown).

(** * A logic of results *)

Definition post {A} (d : D A) (Q : A -> Prop) : Prop := forall p a p', d p = Ok (a, p') -> Q a.

Lemma post_ret {A} (a : A) (Q : A -> Prop) : Q a -> post (ret a) Q.
Proof. intros H p x p' [= <- <-]. exact H. Qed.

Lemma post_fail {A} e (Q : A -> Prop) : post (fail e) Q.
Proof. intros p a p' [=]. Qed.

Lemma post_lift {A} (r : res A) (Q : A -> Prop) : (forall a, r = Ok a -> Q a) -> post (lift r) Q.
Proof. intros H p a p' E. unfold lift in E. destruct r; [|discriminate]. injection E as <- <-. auto. Qed.

Lemma post_bind {A B} (d : D A) (k : A -> D B) (Q : A -> Prop) (R : B -> Prop) :
  post d Q -> (forall a, Q a -> post (k a) R) -> post (dbind d k) R.
Proof.
  intros H K p b p'' E. unfold dbind in E. destruct (d p) as [[a p']|] eqn:Ed; [|discriminate].
  eapply K; eauto.
Qed.

Lemma post_any {A} (d : D A) : post d (fun _ => True).
Proof. intros p a p' _. exact I. Qed.

Lemma post_bind' {A B} (d : D A) (k : A -> D B) (R : B -> Prop) :
  (forall a, post (k a) R) -> post (dbind d k) R.
Proof. intros K. eapply post_bind; [apply post_any|auto]. Qed.

Lemma post_weaken {A} (d : D A) (Q R : A -> Prop) : post d Q -> (forall a, Q a -> R a) -> post d R.
Proof. intros H K p a p' E. eapply K, H; eauto. Qed.

Lemma post_open {A} (d : D A) (Q : A -> Prop) : post d Q -> post (decode_open_type_field d) Q.
Proof.
  intros H. unfold decode_open_type_field. do 4 (apply post_bind'; intros ?).
  intros q b p' E. destruct (d a2) as [[x y]|] eqn:F; [|discriminate]. injection E as <- <-. eapply H; eauto.
Qed.

Lemma post_pick {A} (l : list A) i : post (pick l i) (fun a => nth_error l (Z.to_nat i) = Some a).
Proof.
  unfold pick. destruct (nth_error l (Z.to_nat i)) eqn:E; [now apply post_ret|apply post_fail].
Qed.

(** A read of [w] bits answers a number of at most [w] bits. *)
Lemma post_next sz al : post (per_next sz al) (fun z => 0 <= z < 2 ^ Z.of_nat (8 * fst sz + snd sz)).
Proof.
  intros p z p' E. unfold per_next in E. cbv zeta in E.
  set (o1 := if al then _ else _) in E. set (o2 := off_add o1 sz) in E.
  assert (W : (curr_octets o2 * 8 + curr_bits o2 - (prev_octets o2 * 8 + prev_bits o2) = 8 * fst sz + snd sz)%nat).
  { subst o2. unfold off_add. destruct (Nat.leb_spec 8 (curr_bits o1 + snd sz));
      cbn [curr_octets curr_bits prev_octets prev_bits]; lia. }
  destruct (py_int2 _) as [r|] eqn:F; [|discriminate]. injection E as <- _.
  unfold py_int2 in F. unfold per_slice in F.
  set (a := (prev_octets o2 * 8 + prev_bits o2)%nat) in *. set (b := (curr_octets o2 * 8 + curr_bits o2)%nat) in *.
  destruct (Nat.eqb_spec a b) as [Eab|Eab].
  - injection F as <-. change (bval [false]) with 0. split; [lia|]. apply Z.pow_pos_nonneg; lia.
  - rewrite W in F. set (g := firstn _ _) in F.
    assert (L : (len g <= 8 * fst sz + snd sz)%nat) by (subst g; rewrite firstn_length; lia).
    assert (r = bval g) as -> by (destruct g; congruence).
    pose proof (bval_range g). split; [lia|]. eapply Z.lt_le_trans; [apply H|].
    apply Z.pow_le_mono_r; lia.
Qed.

Ltac pst :=
  repeat first
    [ apply post_fail
    | apply post_bind'; intros ?
    | match goal with
      | |- post (if ?b then _ else _) _ => destruct b
      | |- post (match ?x with _ => _ end) _ => destruct x
      end ].

Definition good (size : limits) (t : ty) (d : dval) : Prop :=
  forall v, cast t d = Ok v -> valid size t v.

Lemma mk_int_good size c z d : mk_int c z = Ok d -> good size (TInt c) d.
Proof.
  unfold mk_int. destruct (ctest c z) eqn:C; [|discriminate]. intros [= <-] v [= <-].
  constructor. now apply ctest_sat.
Qed.

Lemma mk_bits_good size c s d : mk_bits c s = Ok d -> good size (TBits c) d.
Proof.
  unfold mk_bits. destruct (ctest c (zlen s)) eqn:C; [|discriminate]. intros [= <-] v [= <-].
  constructor. now apply ctest_sat.
Qed.

Lemma mk_octs_good (size : limits) c h d : snd size c (from_hex_string h) -> mk_octs c h = Ok d -> good size (TOcts c) d.
Proof.
  intros Sh.
  unfold mk_octs. cbv zeta. destruct (ctest c (zlen (from_hex_string h))) eqn:C; [|discriminate]. intros [= <-] v [= <-].
  constructor; [now apply ctest_sat|exact Sh].
Qed.

Lemma mk_enum_good size e r a i d : mk_enum r a i = Ok d -> good size (TEnum e r a) d.
Proof.
  unfold mk_enum. destruct (existsb (Z.eqb i) (r ++ a)) eqn:C; [|discriminate]. intros [= <-] v [= <-].
  constructor. apply existsb_exists in C as (x & I & E). apply Z.eqb_eq in E. now subst.
Qed.

Lemma empty_good (size : limits) t d : (forall c, snd size c []) -> d = DEmpty -> is_simple t = true -> good size t d.
Proof.
  intros Sh -> S v E. cbn [cast] in E. destruct t; try discriminate.
  - destruct (ctest c 0) eqn:C; [|discriminate]. injection E as <-. constructor. now apply ctest_sat.
  - destruct (ctest c 0) eqn:C; [|discriminate]. injection E as <-. constructor; [now apply ctest_sat|auto].
Qed.

Lemma integer_good size c : post (decode_integer c) (good size (TInt c)).
Proof. unfold decode_integer. pst; apply post_lift; intros ? E; eapply mk_int_good; eauto. Qed.

Lemma enum_good size e r a : post (decode_enumerated e r a) (good size (TEnum e r a)).
Proof. unfold decode_enumerated. pst; apply post_lift; intros ? E; eapply mk_enum_good; eauto. Qed.

Lemma bits_good (size : limits) c : (forall c, snd size c []) -> post (decode_bitstring c) (good size (TBits c)).
Proof.
  intros Sh. unfold decode_bitstring. cbv zeta.
  pst; first [apply post_lift; intros ? E; eapply mk_bits_good; eauto | apply post_ret; apply empty_good; auto].
Qed.

Lemma shown_empty c : shown c [].
Proof. intros l h _ _ _ _. exact I. Qed.

(** The digits Python prints of a number start with a zero only if it is all. *)
Lemma py_hex_kept z h : 0 <= z -> py_hex z = Ok h -> digits_kept (from_hex_string h).
Proof.
  intros N E. destruct (py_hex_spec z N) as (h' & E' & Hh & HV & H1 & HL). rewrite E in E'. injection E' as <-.
  destruct h as [|d r]; [exact I|]. inversion Hh as [|? ? Hd Hr]; subst. unfold hexdigit in Hd.
  destruct (Z.eq_dec d 0) as [->|Nd].
  - destruct r as [|b r]; [left; reflexivity|]. exfalso.
    assert (Lr : (len (0%Z :: b :: r) <= len (b :: r))%nat); [|cbn [List.length] in Lr; lia].
    apply HL; [cbn [List.length]; lia|]. change (hval (0 :: b :: r)) with (hval (b :: r)). now apply hval_range.
  - assert (K : forall a l, 16 <= a -> digits_kept (a :: l)) by (intros a [|? l] A; cbn [digits_kept]; auto).
    destruct r as [|b r]; cbn [from_hex_string]; apply K; [lia|]. inversion Hr; subst. unfold hexdigit in *. lia.
Qed.

Lemma octs_good c : post (decode_octetstring c) (good size_enforced (TOcts c)).
Proof.
  assert (Fx : forall h, cext c = true \/ chi c = None \/ opt_is (chi c) 0 = true \/ some_eq (clo c) (chi c) = true \/ truthy (chi c) = false ->
    post (lift (mk_octs c h)) (good size_enforced (TOcts c))).
  { intros h K. apply post_lift. intros d. apply mk_octs_good. intros l u X L U B. cbn [snd size_enforced]. rewrite L, U in K.
    cbn [opt_is some_eq truthy] in K. exfalso. destruct K as [K|[K|[K|[K|K]]]]; try congruence; lia. }
  assert (Em : post (lift (mk_octs c [])) (good size_enforced (TOcts c))).
  { apply post_lift. intros d. apply mk_octs_good, shown_empty. }
  assert (Af : post (dec_octs_after c) (good size_enforced (TOcts c))).
  { unfold dec_octs_after. destruct (opt_is (chi c) 0) eqn:Z0; [apply post_ret, empty_good; [exact shown_empty|reflexivity..]|].
    destruct (some_eq (clo c) (chi c)) eqn:Se.
    { apply post_bind'; intros n. destruct (n <=? 2); [|destruct (_ && _); [apply post_bind'; intros _|apply post_fail]];
        do 2 (apply post_bind'; intros ?); apply Fx; auto. }
    destruct (truthy (chi c)) eqn:Tr.
    - apply post_bind'; intros n. destruct (n =? 0); [exact Em|].
      eapply post_bind; [apply post_next|]. intros v V. cbn beta in V.
      eapply post_bind; [apply post_lift; intros h E; exact E|]. intros h E. cbn beta in E.
      apply post_lift. intros d. apply mk_octs_good. intros l u _ _ _ _. apply (py_hex_kept v); [lia|exact E].
    - do 4 (apply post_bind'; intros ?). apply Fx; auto. }
  rewrite decode_octs_eq. destruct (cext c) eqn:X; [|exact Af]. apply post_bind'; intros b. destruct (b =? 0); [exact Af|].
  apply post_bind'; intros _. apply post_bind'; intros n. destruct (n =? 0); [exact Em|].
  do 2 (apply post_bind'; intros ?). apply Fx; auto.
Qed.

(** * SEQUENCE *)

(** What a list of assignments holds when it came from components [cs]. *)
Definition from_comps size (cs : list (comp ty)) (l : list assign) : Prop :=
  forall nm v, In (nm, v) l -> exists c, In c cs /\ cname c = nm /\ valid size (cty c) v.

Definition all_mand (cs : list (comp ty)) (l : list assign) : Prop :=
  forall c, In c cs -> cpres c = Mand -> In (cname c) (map fst l).

Lemma mandatory_iff c : @is_mandatory ty c = true <-> cpres c = Mand.
Proof. unfold is_mandatory. destruct (cpres c); split; congruence. Qed.

Lemma from_nil size cs : from_comps size cs [].
Proof. intros nm v []. Qed.

Lemma from_app size cs l m : from_comps size cs l -> from_comps size cs m -> from_comps size cs (l ++ m).
Proof. intros A B nm v I. apply in_app_iff in I as [I|I]; auto. Qed.

Lemma from_incl size cs cs' l : (forall c, In c cs -> In c cs') -> from_comps size cs l -> from_comps size cs' l.
Proof. intros H A nm v I. destruct (A nm v I) as (c & Hc & R). exists c. auto. Qed.

Lemma take_post size (d : D dval) (c : comp ty) : post d (good size (cty c)) ->
  post (do x <- d; do v <- lift (cast (cty c) x); ret [(cname c, v)])
       (fun l => from_comps size [c] l /\ map fst l = [cname c]).
Proof.
  intros H. eapply post_bind; [exact H|]. intros x G. eapply post_bind.
  { apply post_lift. intros v E. exact (G v E). }
  intros v V. apply post_ret. split; [|reflexivity]. intros nm w [[= <- <-]|[]].
  exists c. split; [now left|auto].
Qed.

Lemma root_post size dec cs : Forall (fun c => post (dec (cty c)) (good size (cty c))) cs ->
  forall bm, post (dec_root dec cs bm) (fun l => from_comps size cs l /\ all_mand cs l).
Proof.
  induction 1 as [|c cs Hc H IH]; intros bm; cbn [dec_root].
  { apply post_ret. split; [apply from_nil|intros c []]. }
  pose proof (take_post size (dec (cty c)) c Hc) as T.
  destruct (is_mandatory c) eqn:M.
  - eapply post_bind; [exact T|]. intros a (A1 & A2). eapply post_bind; [apply IH|]. intros r (R1 & R2).
    apply post_ret. split.
    + apply from_app; [eapply from_incl; [|exact A1]|eapply from_incl; [|exact R1]]; intros x Hx; cbn in *; tauto.
    + intros x [<-|I] E; rewrite map_app, in_app_iff.
      * left. unfold assign in *; rewrite A2. now left.
      * right. now apply R2.
  - destruct bm as [|b bm]; [apply post_fail|].
    apply post_bind with (Q := fun l => from_comps size [c] l).
    { destruct b; [eapply post_weaken; [exact T|]; intros l X; apply X|apply post_ret, from_nil]. }
    intros a A1. eapply post_bind; [apply IH|]. intros r (R1 & R2). apply post_ret. split.
    + apply from_app; [eapply from_incl; [|exact A1]|eapply from_incl; [|exact R1]]; intros x Hx; cbn in *; tauto.
    + intros x [<-|I] E; rewrite map_app, in_app_iff.
      * apply mandatory_iff in E. congruence.
      * right. now apply R2.
Qed.

Lemma root_part_post size dec cs : Forall (fun c => post (dec (cty c)) (good size (cty c))) cs ->
  post (dec_root_part dec cs) (fun l => from_comps size cs l /\ all_mand cs l).
Proof.
  intros H. unfold dec_root_part. cbv zeta. pst; now apply root_post.
Qed.

Lemma adds_post size dec cs : Forall (fun c => post (dec (cty c)) (good size (cty c))) cs ->
  forall bm, post (dec_adds dec cs bm) (from_comps size cs).
Proof.
  induction 1 as [|c cs Hc H IH]; intros [|b bm]; cbn [dec_adds]; try (apply post_ret, from_nil).
  apply post_bind with (Q := fun l => from_comps size [c] l).
  { destruct b; [|apply post_ret, from_nil].
    eapply post_weaken; [apply (take_post size (decode_open_type_field (dec (cty c)))); now apply post_open|].
    intros l X. apply X. }
  intros a A1. eapply post_bind; [apply IH|]. intros r R1. apply post_ret.
  apply from_app; [eapply from_incl; [|exact A1]|eapply from_incl; [|exact R1]]; intros x Hx; cbn in *; tauto.
Qed.

(** Each group is sent whole or not at all. *)
Definition group_whole (l : list assign) (g : list (comp ty)) : Prop :=
  (forall c, In c g -> ~ In (cname c) (map fst l)) \/ all_mand g l.

Lemma from_names size cs l nm : from_comps size cs l -> In nm (map fst l) -> In nm (map cname cs).
Proof.
  intros F I. apply in_map_iff in I as ((n & v) & E & I). cbn in E. subst n.
  destruct (F nm v I) as (c & Hc & E & _). rewrite <- E. now apply in_map.
Qed.

Lemma NoDup_app_disjoint {A} (l m : list A) x : NoDup (l ++ m) -> In x l -> In x m -> False.
Proof.
  induction l as [|y l IH]; [contradiction|]. cbn [app]. intros N I J. inversion N as [|? ? N1 N2]; subst.
  destruct I as [<-|I]; [apply N1, in_app_iff; auto|eauto].
Qed.

Lemma all_mand_app_l g l m : all_mand g l -> all_mand g (l ++ m).
Proof. intros H c I E. rewrite map_app, in_app_iff. left. auto. Qed.
Lemma all_mand_app_r g l m : all_mand g m -> all_mand g (l ++ m).
Proof. intros H c I E. rewrite map_app, in_app_iff. right. auto. Qed.

Lemma groups_post size dec gs : Forall (Forall (fun c => post (dec (cty c)) (good size (cty c)))) gs ->
  NoDup (map cname (List.concat gs)) ->
  forall bm, post (dec_groups dec gs bm)
    (fun l => from_comps size (List.concat gs) l /\ forall g, In g gs -> group_whole l g).
Proof.
  intros HH N. induction HH as [|g gs Hg H IH]; intros bm.
  { destruct bm; cbn [dec_groups]; apply post_ret; split; try apply from_nil; intros g []. }
  cbn [List.concat] in N. rewrite map_app in N.
  destruct bm as [|b bm]; cbn [dec_groups].
  { apply post_ret. split; [apply from_nil|]. intros g' _. left. intros c _ []. }
  apply post_bind with (Q := fun l => from_comps size g l /\ (l = [] \/ all_mand g l)).
  { destruct b.
    - eapply post_weaken; [apply post_open, root_part_post, Hg|]. intros l (A & B). auto.
    - apply post_ret. split; [apply from_nil|auto]. }
  intros a (A1 & A2). eapply post_bind; [apply IH; eapply NoDup_app_r; eauto|]. intros r (R1 & R2).
  apply post_ret. split.
  - apply from_app; [eapply from_incl; [|exact A1]|eapply from_incl; [|exact R1]];
      intros x Hx; cbn [List.concat]; apply in_app_iff; auto.
  - intros g' [<-|I].
    + destruct A2 as [->|A2]; [|right; now apply all_mand_app_l]. left. cbn [app].
      intros c Hc Hn. apply (from_names _ _ _ _ R1) in Hn. eapply NoDup_app_disjoint; eauto. now apply in_map.
    + destruct (R2 g' I) as [X|X]; [|right; now apply all_mand_app_r]. left. intros c Hc Hn.
      rewrite map_app, in_app_iff in Hn. destruct Hn as [Hn|Hn]; [|eapply X; eauto].
      apply (from_names _ _ _ _ A1) in Hn. eapply NoDup_app_disjoint; eauto. apply in_map.
      apply in_concat. eauto.
Qed.

(** The assignments on a new object. *)
Lemma nth_update {A} (i j : nat) (x : A) l y : nth_error (update i x l) j = Some y ->
  (i = j /\ y = x) \/ (i <> j /\ nth_error l j = Some y).
Proof.
  revert i j. induction l as [|z l IH]; intros [|i] [|j] E; cbn in *; try discriminate; auto.
  - left. split; congruence.
  - destruct (IH i j E) as [(-> & ->)|(N & K)]; [auto|right; split; auto].
Qed.

Lemma nth_update_same {A} (i : nat) (x : A) l : (i < List.length l)%nat -> nth_error (update i x l) i = Some x.
Proof. revert i. induction l as [|z l IH]; intros [|i] L; cbn in *; try lia; auto. apply IH. lia. Qed.

Lemma nth_update_other {A} (i j : nat) (x : A) l : i <> j -> nth_error (update i x l) j = nth_error l j.
Proof. revert i j. induction l as [|z l IH]; intros [|i] [|j] N; cbn; auto; try congruence. Qed.

Lemma update_len {A} (i : nat) (x : A) l : List.length (update i x l) = List.length l.
Proof. revert i. induction l as [|z l IH]; intros [|i]; cbn; auto. Qed.

Lemma index_of_name (nm : string) (cs : list (comp ty)) i : index_of nm cs = Some i ->
  exists c, nth_error cs i = Some c /\ cname c = nm.
Proof.
  revert i. induction cs as [|c cs IH]; intros i E; cbn in E; [discriminate|].
  destruct (String.eqb_spec (cname c) nm) as [N|N]; [injection E as <-; exists c; auto|].
  destruct (index_of nm cs) as [j|] eqn:J; [|discriminate]. injection E as <-. apply (IH j eq_refl).
Qed.

Lemma assign_all_inv cs l : NoDup (map cname cs) -> forall slots slots',
  (forall ss, slots = Some ss -> List.length ss = List.length cs) ->
  assign_all cs slots l = Ok slots' ->
  (l = [] /\ slots' = slots) \/
  exists ss, slots' = Some ss /\ List.length ss = List.length cs /\
    (forall i c v, nth_error cs i = Some c -> nth_error ss i = Some (Some v) ->
       In (cname c, v) l \/ exists s0, slots = Some s0 /\ nth_error s0 i = Some (Some v)) /\
    (forall i c, nth_error cs i = Some c -> In (cname c) (map fst l) -> exists v, nth_error ss i = Some (Some v)) /\
    (forall s0 i v, slots = Some s0 -> nth_error s0 i = Some (Some v) -> exists v', nth_error ss i = Some (Some v')).
Proof.
  intros N. induction l as [|(nm & w) l IH]; intros slots slots' HS E; cbn [assign_all] in E.
  { injection E as <-. auto. }
  right. destruct (index_of nm cs) as [k|] eqn:K; [|discriminate].
  destruct (index_of_name _ _ _ K) as (ck & Ck & Nk).
  set (base := match slots with Some l => l | None => repeat None (List.length cs) end) in *.
  assert (LB : List.length base = List.length cs).
  { subst base. destruct slots; [auto|apply repeat_length]. }
  assert (KL : (k < List.length base)%nat) by (rewrite LB; apply nth_error_Some; congruence).
  assert (BN : forall i v, nth_error base i = Some (Some v) -> exists s0, slots = Some s0 /\ nth_error s0 i = Some (Some v)).
  { subst base. destruct slots as [s0|]; [eauto|]. intros i v X. apply nth_error_In, repeat_spec in X. discriminate. }
  unfold slot_set in E. fold base in E.
  specialize (IH (Some (update k (Some w) base)) slots').
  destruct IH as [(-> & ->)|(ss & -> & L & P1 & P2 & P3)]; auto.
  { intros ss [= <-]. now rewrite update_len. }
  - exists (update k (Some w) base). split; auto. split; [now rewrite update_len|]. split; [|split].
    + intros i c v C V. destruct (nth_update _ _ _ _ _ V) as [(<- & [= ->])|(Ne & V')].
      * left. left. congruence.
      * right. eauto.
    + intros i c C [E1|[]]. cbn in E1. exists w.
      assert (k = i) as <-; [|now apply nth_update_same].
      pose proof (index_of_nth cs i c N C) as J. congruence.
    + intros s0 i v -> V. subst base. destruct (Nat.eq_dec k i) as [<-|Ne].
      * exists w. now apply nth_update_same.
      * exists v. now rewrite nth_update_other.
  - exists ss. split; auto. split; auto. split; [|split].
    + intros i c v C V. destruct (P1 i c v C V) as [I|(s0 & [= <-] & V')]; [left; now right|].
      destruct (nth_update _ _ _ _ _ V') as [(<- & [= ->])|(Ne & V'')]; [left; left; congruence|right; eauto].
    + intros i c C [E1|I]; [|eauto]. cbn in E1.
      assert (k = i) as <-.
      { pose proof (index_of_nth cs i c N C) as J. congruence. }
      eapply P3; [reflexivity|]. now apply nth_update_same.
    + intros s0 i v -> V. destruct (Nat.eq_dec k i) as [<-|Ne].
      * eapply P3; [reflexivity|]. now apply nth_update_same.
      * eapply P3; [reflexivity|]. rewrite nth_update_other by auto. exact V.
Qed.

(** Every SEQUENCE and CHOICE in the type has distinct component names (pyasn1's
    NamedTypes refuses others) and no SEQUENCE OF size is negative. *)
Fixpoint sound_type (t : ty) : Prop :=
  match t with
  | TSeq _ r a g | TChoice _ r a g =>
      NoDup (map cname (r ++ a ++ List.concat g)) /\
      all_of (map (fun c => sound_type (cty c)) r) /\
      all_of (map (fun c => sound_type (cty c)) a) /\
      all_of (List.concat (map (map (fun c => sound_type (cty c))) g))
  | TSeqOf c t' => (forall l, clo c = Some l -> 0 <= l) /\ sound_type t'
  | _ => True
  end.

Lemma NoDup_name_eq (cs : list (comp ty)) c c' : NoDup (map cname cs) -> In c cs -> In c' cs ->
  cname c = cname c' -> c = c'.
Proof.
  intros N I J E. apply In_nth_error in I as (i & I). apply In_nth_error in J as (j & J).
  pose proof (index_of_nth cs i c N I). pose proof (index_of_nth cs j c' N J). congruence.
Qed.

Lemma seq_valid size ext r a g l slots :
  NoDup (map cname (r ++ a ++ List.concat g)) ->
  from_comps size (r ++ a ++ List.concat g) l -> all_mand r l ->
  (forall x, In x g -> group_whole l x) ->
  assign_all (all_comps r a g) None l = Ok slots ->
  valid size (TSeq ext r a g) (VSeq slots).
Proof.
  intros N F M W E. unfold all_comps in E.
  destruct (assign_all_inv _ l N None slots ltac:(discriminate) E) as [(-> & ->)|(ss & -> & L & P1 & P2 & _)].
  { constructor. intros c I E'. exact (M c I E'). }
  set (cs := r ++ a ++ List.concat g) in *.
  assert (SN : forall c, In c cs -> In (cname c) (map fst l) -> set_in cs ss c).
  { intros c I J. apply In_nth_error in I as (i & I). destruct (P2 i c I J) as (v & V). exists i, v. auto. }
  assert (NS : forall c, set_in cs ss c -> In (cname c) (map fst l)).
  { intros c (i & v & C & V). destruct (P1 i c v C V) as [I|(s0 & [=] & _)].
    now apply in_map with (f := fst) in I. }
  constructor; fold cs; auto.
  - intros i c v C V. destruct (P1 i c v C V) as [I|(s0 & [=] & _)].
    destruct (F _ _ I) as (c' & I' & E1 & V'). assert (c' = c) as ->; auto.
    eapply NoDup_name_eq; eauto. eapply nth_error_In; eauto.
  - intros c I Mc. apply SN; [unfold cs; apply in_app_iff; auto|auto].
  - intros x c c' X C S C' Mc. apply SN.
    + unfold cs. rewrite !in_app_iff. right; right. apply in_concat. eauto.
    + destruct (W x X) as [K|K]; [|now apply K]. destruct (K c C (NS c S)).
Qed.

Lemma post_seqof_elems size t (d : D dval) n : post d (good size t) ->
  post (dec_n (do x <- d; lift (cast t x)) n) (fun vs => List.length vs = n /\ forall v, In v vs -> valid size t v).
Proof.
  intros H. induction n; cbn [dec_n].
  - apply post_ret. split; [auto|intros v []].
  - apply post_bind with (Q := valid size t).
    { eapply post_bind; [exact H|]. intros x G. apply post_lift. intros v E. auto. }
    intros v V. eapply post_bind; [exact IHn|]. intros vs (L & A). apply post_ret. split; [cbn; lia|].
    intros w [<-|I]; auto.
Qed.

(** * Lengths *)

Lemma post_next_nonneg sz al : post (per_next sz al) (fun z => 0 <= z).
Proof. eapply post_weaken; [apply post_next|]. cbn beta. lia. Qed.

Lemma post_nonneg size al :
  post (decode_non_negative size al)
       (fun z => 0 <= z /\ forall sz, size = Some sz -> z < 2 ^ Z.of_nat (8 * fst sz + snd sz)).
Proof.
  unfold decode_non_negative. destruct size as [sz|]; [|apply post_fail].
  eapply post_bind; [apply post_next|]. intros z Hz. cbn beta in Hz.
  assert (R : post (ret z) (fun z => 0 <= z /\ forall sz0, Some sz = Some sz0 -> z < 2 ^ Z.of_nat (8 * fst sz0 + snd sz0))).
  { apply post_ret. split; [apply Hz|]. intros s0 [= <-]. apply Hz. }
  destruct al; auto. apply post_bind'. auto.
Qed.

Lemma post_lu : post dec_length_unconstrained (fun z => 0 <= z < 16384).
Proof.
  unfold dec_length_unconstrained. do 2 (apply post_bind'; intros ?). destruct (a0 =? 0).
  - eapply post_weaken; [apply post_nonneg|]. intros z (A & B). specialize (B _ eq_refl).
    change (2 ^ _) with 128 in B. lia.
  - apply post_bind'. intros b2. destruct (b2 =? 0); [|apply post_fail].
    eapply post_weaken; [apply post_nonneg|]. intros z (A & B). specialize (B _ eq_refl).
    change (2 ^ _) with 16384 in B. lia.
Qed.

Definition is_pow_len (r : Z) : Prop := exists k, r = 2 ^ k /\ (0 <= k <= 8 \/ k = 16).

Lemma post_cwn lb ub : lb < ub ->
  post (decode_constrained_whole_number lb ub)
       (fun z => lb <= z <= lb + 65535 /\ (is_pow_len (ub - lb + 1) -> z <= ub)).
Proof.
  intros H. unfold decode_constrained_whole_number, integer_range. cbv zeta.
  set (r := ub - lb + 1). assert (HR : 2 <= r) by lia.
  destruct (Z.eqb_spec r 1); [lia|].
  destruct (Z.leb_spec r 255) as [S|S].
  { rewrite bit_field_size_small by lia. cbn [lift].
    apply post_bind with (Q := fun o => o = Some (0%nat, Z.to_nat (Z.log2_up r))).
    { apply post_lift. intros o [= <-]. reflexivity. }
    intros o ->. eapply post_bind; [apply post_nonneg|]. intros z (Z0 & Z1). apply post_ret.
    specialize (Z1 _ eq_refl). cbn [fst snd] in Z1.
    replace (Z.of_nat (8 * 0 + Z.to_nat (Z.log2_up r))) with (Z.log2_up r) in Z1 by (pose proof (Z.log2_up_nonneg r); lia).
    assert (U8 : Z.log2_up r <= 8).
    { change 8 with (Z.log2_up 256). apply Z.log2_up_le_mono. lia. }
    assert (P8 : 2 ^ Z.log2_up r <= 2 ^ 8) by (apply Z.pow_le_mono_r; lia).
    change (2 ^ 8) with 256 in P8. split; [lia|]. intros (k & K & _).
    assert (0 <= k) by (destruct (Z.neg_nonneg_cases k); auto; rewrite Z.pow_neg_r in K; lia).
    rewrite K, Z.log2_up_pow2 in Z1 by auto. rewrite <- K in Z1. subst r. lia. }
  destruct (Z.eqb_spec r 256) as [E|E].
  { rewrite E, bit_field_size_256.
    apply post_bind with (Q := fun o => o = Some (1%nat, 0%nat)).
    { apply post_lift. intros o [= <-]. reflexivity. }
    intros o ->. apply post_bind'; intros _. eapply post_bind; [apply post_nonneg|].
    intros z (Z0 & Z1). apply post_ret. specialize (Z1 _ eq_refl). change (2 ^ _) with 256 in Z1. lia. }
  destruct (Z.leb_spec r 65536) as [B|B].
  { replace ((257 <=? r) && true) with true by lia. rewrite bit_field_size_2 by lia.
    apply post_bind with (Q := fun o => o = Some (2%nat, 0%nat)).
    { apply post_lift. intros o [= <-]. reflexivity. }
    intros o ->. apply post_bind'; intros _. eapply post_bind; [apply post_nonneg|].
    intros z (Z0 & Z1). apply post_ret. specialize (Z1 _ eq_refl). change (2 ^ _) with 65536 in Z1.
    split; [lia|]. intros (k & K & [K8| ->]).
    - assert (2 ^ k <= 2 ^ 8) by (apply Z.pow_le_mono_r; lia). change (2 ^ 8) with 256 in *. lia.
    - change (2 ^ 16) with 65536 in K. lia. }
  rewrite andb_false_r. apply post_bind'. intros _. apply post_fail.
Qed.

Lemma post_lc lb ub : 0 <= lb ->
  post (dec_length_constrained (Some lb) ub)
       (fun z => 0 <= z /\ forall u, ub = Some u -> lb < u ->
          lb <= z <= lb + 65535 /\ (is_pow_len (u - lb + 1) -> z <= u)).
Proof.
  intros H. unfold dec_length_constrained. destruct ub as [u|]; [|apply post_bind with (Q := fun _ => False); [apply post_lift; discriminate|contradiction]].
  apply post_bind with (Q := fun x => x = u); [apply post_lift; now intros ? [= <-]|]. intros ? ->.
  apply post_bind with (Q := fun x => x = lb); [apply post_lift; now intros ? [= <-]|]. intros ? ->.
  destruct (Z.le_gt_cases u lb) as [L|L].
  - eapply post_weaken with (Q := fun z => 0 <= z); [|intros z Hz; split; auto; intros ? [= <-]; lia].
    unfold decode_constrained_whole_number. cbv zeta. apply post_bind'. intros o.
    destruct (_ =? 1); [apply post_ret; lia|].
    destruct (_ <=? 255); [|destruct (_ =? 256); [|destruct (_ && _); [|apply post_fail]]];
      try (apply post_bind'; intros _); (eapply post_bind; [apply post_nonneg|]); intros z (Z0 & _); apply post_ret; lia.
  - eapply post_weaken; [apply post_cwn; lia|]. intros z (A & B). split; [lia|]. intros ? [= <-] _. auto.
Qed.

Lemma seqof_len_post c : (forall l, clo c = Some l -> 0 <= l) -> post (dec_seqof_len c) (count_enforced c).
Proof.
  intros NN. unfold dec_seqof_len, count_enforced.
  destruct (cext c) eqn:X.
  { apply post_bind'. intros b. destruct (b =? 0).
    - destruct (clo c) as [l|] eqn:L.
      + eapply post_weaken; [apply post_lc; auto|]. intros z (A & _). split; auto. discriminate.
      + unfold dec_length_constrained. apply post_bind'. intros u.
        apply post_bind with (Q := fun _ => False); [apply post_lift; discriminate|contradiction].
    - apply post_bind'. intros _. eapply post_weaken; [apply post_lu|]. intros z A; cbn beta in A. split; [lia|]. discriminate. }
  destruct (clo c) as [l|] eqn:L; [specialize (NN l eq_refl)|]; destruct (chi c) as [h|] eqn:H.
  - destruct ((l =? h) && (h <? 65536)) eqn:E.
    + apply post_ret. split; [lia|]. intros l' h' _ [= <-] [= <-] _ _. split; [lia|intros; lia].
    + destruct (truthy (Some h)) eqn:T.
      * eapply post_weaken; [apply post_lc; auto|]. intros z (A & B). split; auto.
        intros l' h' _ [= <-] [= <-] C D. specialize (B h eq_refl ltac:(lia)). split; [lia|].
        intros k K R. apply B. exists k. auto.
      * cbn [truthy] in T. eapply post_weaken; [apply post_lu|]. intros z A; cbn beta in A. split; [lia|].
        intros l' h' _ [= <-] [= <-] C D. lia.
  - cbn [truthy]. eapply post_weaken; [apply post_lu|]. intros z A; cbn beta in A. split; [lia|]. intros; discriminate.
  - destruct (truthy (Some h)).
    + unfold dec_length_constrained. apply post_bind'. intros u.
      apply post_bind with (Q := fun _ => False); [apply post_lift; discriminate|contradiction].
    + eapply post_weaken; [apply post_lu|]. intros z A; cbn beta in A. split; [lia|]. intros; discriminate.
  - apply post_fail.
Qed.

(** * C13 *)

Lemma sound_comps (P : ty -> Prop) cs : Forall (fun c => sound_type (cty c) -> P (cty c)) cs ->
  all_of (map (fun c => sound_type (cty c)) cs) -> Forall (fun c => P (cty c)) cs.
Proof.
  intros F A. rewrite Forall_forall in *. intros c I. apply F; auto. apply A.
  now apply in_map with (f := fun c => sound_type (cty c)).
Qed.

Lemma sound_groups (P : ty -> Prop) gs : Forall (Forall (fun c => sound_type (cty c) -> P (cty c))) gs ->
  all_of (List.concat (map (map (fun c => sound_type (cty c))) gs)) -> Forall (Forall (fun c => P (cty c))) gs.
Proof.
  induction 1 as [|g gs Hg H IH]; intros A; constructor.
  - apply sound_comps; auto. intros q I. apply A. cbn. apply in_app_iff. auto.
  - apply IH. intros q I. apply A. cbn. apply in_app_iff. auto.
Qed.

Lemma choice_comps {A} (f : comp ty -> A) (a : list (comp ty)) g :
  map f a ++ List.concat (map (map f) g) = map f (a ++ List.concat g).
Proof. now rewrite map_app, concat_map. Qed.

Theorem dec_valid t : sound_type t -> post (dec t) (good size_enforced t).
Proof.
  induction t using ty_rect'; intros W; cbn [dec].
  - unfold decode_boolean. apply post_bind'. intros b. apply post_ret. intros v [= <-]. constructor.
  - apply integer_good.
  - apply enum_good.
  - apply bits_good, shown_empty.
  - apply octs_good.
  - cbn [sound_type] in W. destruct W as (N & WR & WA & WG).
    pose proof (sound_comps (fun t => post (dec t) (good size_enforced t)) r H WR) as HR. pose proof (sound_comps (fun t => post (dec t) (good size_enforced t)) a H0 WA) as HA.
    pose proof (sound_groups (fun t => post (dec t) (good size_enforced t)) g H1 WG) as HG. clear H H0 H1 WR WA WG.
    unfold decode_sequence. apply post_bind'. intros x.
    eapply post_bind; [apply root_part_post, HR|]. intros l (L1 & L2). cbv beta in L1, L2.
    apply post_bind with (Q := fun m => from_comps size_enforced (a ++ List.concat g) m /\
                                  (exists m1 m2, m = m1 ++ m2 /\ from_comps size_enforced a m1 /\
                                     forall y, In y g -> group_whole m2 y)).
    { destruct (negb (x =? 0)).
      - do 4 (apply post_bind'; intros ?).
        eapply post_bind; [apply adds_post, HA|]. intros m1 M1.
        eapply post_bind; [apply groups_post; [apply HG|]|].
        { rewrite !map_app in N. eapply NoDup_app_r, NoDup_app_r; eauto. }
        intros m2 (M2 & M3). cbv beta in M1. apply post_ret. split.
        + apply from_app; [eapply from_incl; [|exact M1]|eapply from_incl; [|exact M2]];
            intros c C; apply in_app_iff; auto.
        + exists m1, m2. auto.
      - apply post_ret. split; [apply from_nil|]. exists [], []. split; auto. split; [apply from_nil|].
        intros y _. left. intros c _ []. }
    intros m (M1 & m1 & m2 & -> & M2 & M3). eapply post_bind with (Q := fun slots => valid size_enforced (TSeq e r a g) (VSeq slots)).
    { apply post_lift. intros slots E. apply seq_valid with (l := l ++ m1 ++ m2); [exact N| | | |exact E].
      - apply from_app; [eapply from_incl; [|exact L1]|eapply from_incl; [|exact M1]];
          intros c C; apply in_app_iff; auto.
      - now apply all_mand_app_l.
      - intros y Y. destruct (M3 y Y) as [K|K].
        + left. intros c C I. rewrite !map_app, !in_app_iff in I.
          rewrite !map_app in N. assert (CN : In (cname c) (map cname (List.concat g))).
          { apply in_map. apply in_concat. eauto. }
          destruct I as [I|[I|I]].
          * apply (from_names _ _ _ _ L1) in I. eapply (NoDup_app_disjoint _ _ _ N); eauto.
            apply in_app_iff. auto.
          * apply (from_names _ _ _ _ M2) in I. apply NoDup_app_r in N.
            eapply (NoDup_app_disjoint _ _ _ N); eauto.
          * eapply K; eauto.
        + right. now apply all_mand_app_r, all_mand_app_r. }
    intros slots V. apply post_ret. intros v [= <-]. exact V.
  - cbn [sound_type] in W. destruct W as (NN & W). unfold decode_sequence_of.
    eapply post_bind; [now apply seqof_len_post|]. intros n S.
    eapply post_bind; [apply post_seqof_elems, IHt, W|]. intros vs (L & V). apply post_ret.
    intros v [= <-]. constructor; auto. unfold zlen. rewrite L, Z2Nat.id; auto. apply S.
  - cbn [sound_type] in W. destruct W as (N & WR & WA & WG).
    pose proof (sound_comps (fun t => post (dec t) (good size_enforced t)) r H WR) as HR. pose proof (sound_comps (fun t => post (dec t) (good size_enforced t)) a H0 WA) as HA.
    pose proof (sound_groups (fun t => post (dec t) (good size_enforced t)) g H1 WG) as HG. clear H H0 H1 WR WA WG.
    unfold decode_choice. cbv zeta. rewrite choice_comps.
    match goal with |- post (if _ then ?x else _) _ => assert (R : post x (good size_enforced (TChoice e r a g))) end.
    { apply post_bind'. intros i. eapply post_bind; [apply post_pick|]. intros (t & d) P. cbv beta in P.
      rewrite nth_error_map in P. destruct (nth_error r (Z.to_nat i)) as [c|] eqn:C; [|discriminate].
      cbn [option_map] in P. injection P as <- <-. cbn [fst snd].
      rewrite Forall_forall in HR. eapply post_bind; [apply HR; eapply nth_error_In; eauto|].
      intros x G. apply post_bind with (Q := valid size_enforced (cty c)); [apply post_lift; exact G|].
      intros v V. apply post_ret. intros w [= <-]. econstructor; [|exact V].
      rewrite nth_error_app1; auto. apply nth_error_Some. congruence. }
    destruct (negb e); auto. apply post_bind'. intros b. destruct (b =? 0); auto.
    apply post_bind'. intros i. destruct (isnil _ && isnil _); [apply post_fail|].
    eapply post_bind; [apply post_pick|]. intros (t & d) P. cbv beta in P.
    rewrite nth_error_map in P. destruct (nth_error (a ++ List.concat g) (Z.to_nat i)) as [c|] eqn:C; [|discriminate].
    cbn [option_map] in P. injection P as <- <-. cbn [fst snd]. rewrite map_length.
    apply post_bind with (Q := good size_enforced (cty c)).
    { apply post_open. apply nth_error_In in C. apply in_app_iff in C as [C|C].
      - rewrite Forall_forall in HA. now apply HA.
      - apply in_concat in C as (y & Y & C). rewrite Forall_forall in HG. specialize (HG y Y).
        rewrite Forall_forall in HG. now apply HG. }
    intros x G. apply post_bind with (Q := valid size_enforced (cty c)); [apply post_lift; exact G|].
    intros v V. apply post_ret. intros w [= <-]. econstructor; [|exact V].
    rewrite nth_error_app2 by lia. replace (_ + _ - _)%nat with (Z.to_nat i) by lia. exact C.
Qed.

Lemma from_empty_valid t v : from_empty t = Ok v -> valid size_enforced t v.
Proof.
  intros E. destruct t; try discriminate; cbn [from_empty] in E;
    (eapply empty_good; [exact shown_empty|reflexivity|reflexivity|exact E]).
Qed.

(** Missing: the upper end of SIZE when not all bit patterns of the length are
    lengths, and the lower end of SIZE (l..MAX); both refuted below. *)
Theorem C13_valid_partial : forall bs t v,
  sound_type t -> decode bs t = Ok v -> valid size_enforced t v.
Proof.
  intros bs t v W E. unfold decode, decode_pos in E.
  destruct (per_init (hexlify bs)) as [p|]; [|discriminate]. cbn [bind] in E.
  destruct (dec t p) as [[d q]|] eqn:D; [|discriminate]. cbn [bind fst snd] in E.
  pose proof (dec_valid t W p d q D) as G. destruct d as [w|].
  - destruct (eq_empty w).
    + destruct (from_empty t) as [x|] eqn:FE; [|discriminate]. cbn [bind fst] in E. injection E as <-.
      now apply from_empty_valid.
    + cbn [bind fst] in E. injection E as <-. now apply G.
  - destruct (from_empty t) as [x|] eqn:FE; [|discriminate]. cbn [bind fst] in E. injection E as <-.
    now apply from_empty_valid.
Qed.

(** SEQUENCE (SIZE (1..3)) OF BOOLEAN: the length bits 11 give four elements. *)
Theorem C13_valid_refuted : exists bs t v,
  sound_type t /\ decode bs t = Ok v /\ ~ valid size_full t v.
Proof.
  exists [252], (TSeqOf (CSeqSize false (Some 1) (Some 3)) TBool), (VSeqOf [VBool true; VBool true; VBool true; VBool true]).
  split; [split; [intros l [= <-]; lia|exact I]|]. split; [vm_compute; reflexivity|].
  intros V. inversion V as [| | | | | | |? ? ? S _|]; subst. destruct S as [S|(_ & S)]; [discriminate|].
  specialize (S 3 eq_refl). cbn in S. lia.
Qed.

(** SEQUENCE (SIZE (2..MAX)) OF BOOLEAN: the empty list is accepted. *)
Theorem C13_lower_size_refuted : exists bs t v,
  sound_type t /\ decode bs t = Ok v /\ ~ valid size_full t v.
Proof.
  exists [0], (TSeqOf (CSeqSize false (Some 2) None) TBool), (VSeqOf []).
  split; [split; [intros l [= <-]; lia|exact I]|]. split; [vm_compute; reflexivity|].
  intros V. inversion V as [| | | | | | |? ? ? S _|]; subst. destruct S as [S|(S & _)]; [discriminate|].
  specialize (S 2 eq_refl). cbn in S. lia.
Qed.

Example C13_case :
  let t := TSeq true [Comp "n" Mand (TInt (CRange false (Some 0) (Some 9)));
                      Comp "l" Opt (TSeqOf (CSeqSize false (Some 1) (Some 4)) (TBits (CRange false (Some 2) (Some 2))))]
                [] [] in
  sound_type t /\
  decode [76; 192] t = Ok (VSeq (Some [Some (VInt 3); Some (VSeqOf [VBits [true; true]])])) /\
  decode [118] t = Err PyAsn1Error.
Proof.
  cbv zeta. split; [|split; [vm_compute; reflexivity|vm_compute; reflexivity]].
  cbn [sound_type map]. split.
  - repeat constructor; cbn; intuition discriminate.
  - repeat split; intros p H; cbn in H; try contradiction.
    destruct H as [<-|[<-|[]]]; auto. split; auto. intros l [= <-]; lia.
Qed.

(** * C32 *)

Definition answers {A} (r : res A) : Prop := r <> Err LoopFuel.

Lemma ans_ok {A} (a : A) : answers (Ok a).
Proof. discriminate. Qed.

Lemma ans_bind {A B} (r : res A) (k : A -> res B) : answers r -> (forall a, answers (k a)) -> answers (bind r k).
Proof. intros H K. destruct r; cbn [bind]; auto. intros E. apply H. congruence. Qed.

Lemma ans_need o : answers (need o).
Proof. destruct o; discriminate. Qed.

Lemma ans_range r : answers (get_range_octet_len r).
Proof.
  destruct (Z.le_gt_cases 0 r) as [H|H]; [rewrite range_octet_ok by auto; discriminate|].
  unfold get_range_octet_len. cbn [range_octet_loop].
  replace (r <? 2 ^ (Z.of_nat 3 * 8)) with true; [discriminate|].
  change (2 ^ (Z.of_nat 3 * 8)) with 16777216. lia.
Qed.

Lemma ans_twos z : answers (get_twos_complement_octet_len z).
Proof. rewrite twos_octet_ok. discriminate. Qed.

Lemma ans_bin z : answers (py_bin z).
Proof. destruct z; discriminate. Qed.
Lemma ans_hex z : answers (py_hex z).
Proof. destruct z; discriminate. Qed.
Lemma ans_int2 s : answers (py_int2 s).
Proof. destruct s; discriminate. Qed.
Lemma ans_int16 s : answers (py_int16 s).
Proof. destruct s; discriminate. Qed.

Create HintDb ans.
#[local] Hint Resolve ans_ok ans_need ans_range ans_twos ans_bin ans_hex ans_int2 ans_int16 : ans.

Ltac ans :=
  repeat first
    [ solve [auto with ans]
    | discriminate
    | apply ans_bind; [|intros ?]
    | match goal with
      | |- answers (if ?b then _ else _) => destruct b
      | |- answers (match ?x with _ => _ end) => destruct x
      | |- answers _ => discriminate
      end ].

Lemma ans_format w z : answers (py_format_b w z).
Proof. unfold py_format_b. ans. Qed.
#[local] Hint Resolve ans_format : ans.
Lemma ans_min z : answers (encode_non_negative_min_octets z).
Proof. unfold encode_non_negative_min_octets. ans. Qed.
Lemma ans_sized z sz : answers (encode_non_negative_sized z sz).
Proof. unfold encode_non_negative_sized. ans. Qed.
#[local] Hint Resolve ans_min ans_sized : ans.
Lemma ans_size r : answers (get_bit_field_size r).
Proof. unfold get_bit_field_size. ans. Qed.
#[local] Hint Resolve ans_size : ans.
Lemma ans_ecwn n l u : answers (encode_constrained_whole_number n l u).
Proof. unfold encode_constrained_whole_number. cbv zeta. ans. Qed.
#[local] Hint Resolve ans_ecwn : ans.
Lemma ans_semi n l : answers (encode_semi_constrained_whole_number n l).
Proof. unfold encode_semi_constrained_whole_number. ans. Qed.
Lemma ans_lns n : answers (length_normally_small n).
Proof. unfold length_normally_small. ans. Qed.
Lemma ans_lcon n l u : answers (length_constrained n l u).
Proof. unfold length_constrained. ans. Qed.
Lemma ans_lunc n : answers (length_unconstrained n).
Proof. unfold length_unconstrained. ans. Qed.
#[local] Hint Resolve ans_semi ans_lns ans_lcon ans_lunc : ans.
Lemma ans_cfl n l u : answers (create_field_list_for_constrained_whole_number n l u).
Proof. unfold create_field_list_for_constrained_whole_number. ans. Qed.
Lemma ans_ns n l : answers (encode_normally_small n l).
Proof. unfold encode_normally_small. ans. Qed.
Lemma ans_tc z w : answers (encode_twos_complement z w).
Proof. unfold encode_twos_complement. ans. Qed.
#[local] Hint Resolve ans_cfl ans_ns ans_tc : ans.
Lemma ans_unc z : answers (create_field_list_for_unconstrained_whole_number z).
Proof. unfold create_field_list_for_unconstrained_whole_number. ans. Qed.
Lemma ans_chain l n h : answers (chain_le l n h).
Proof. unfold chain_le. ans. Qed.
#[local] Hint Resolve ans_unc ans_chain : ans.
Lemma ans_einteger c z : answers (encode_integer c z).
Proof. unfold encode_integer. ans. Qed.
Lemma ans_zindex z l : answers (zindex z l).
Proof. induction l; cbn [zindex]; ans. Qed.
#[local] Hint Resolve ans_einteger ans_zindex : ans.
Lemma ans_eenum e r a z : answers (encode_enumerated e r a z).
Proof. unfold encode_enumerated. ans. Qed.
Lemma ans_ebits c s : answers (encode_bitstring c s).
Proof. unfold encode_bitstring. cbv zeta. ans. Qed.
Lemma ans_obits bs : answers (octets_bits bs).
Proof. induction bs; cbn [octets_bits]; ans. Qed.
#[local] Hint Resolve ans_eenum ans_ebits ans_obits : ans.
Lemma ans_eocts c bs : answers (encode_octetstring c bs).
Proof. unfold encode_octetstring. ans. Qed.
Lemma ans_fill r : answers r -> answers (fill r).
Proof. intros H. unfold fill. ans. Qed.
Lemma ans_open fs : answers (encode_open_type_field fs).
Proof. unfold encode_open_type_field. cbv zeta. ans. Qed.
Lemma ans_raw d v : answers (raw_ne d v).
Proof. destruct d, v; discriminate. Qed.
Lemma ans_look cs ss nm : answers (get_by_name cs ss nm).
Proof. unfold get_by_name. ans. Qed.
Lemma ans_root_fields r : answers (root_fields r).
Proof. unfold root_fields. destruct (fst r); ans. Qed.
#[local] Hint Resolve ans_eocts ans_fill ans_open ans_raw ans_look ans_root_fields : ans.

Section AnsSeq.
  Variable e : ty -> val -> res (list field).
  Variable look : string -> res val.
  Hypothesis LK : forall nm, answers (look nm).

  Lemma ans_root cs : Forall (fun c => forall v, answers (e (cty c) v)) cs -> answers (enc_root e look cs).
  Proof. induction 1 as [|c cs Hc H IH]; cbn [enc_root]; ans. Qed.

  Lemma ans_adds cs : Forall (fun c => forall v, answers (e (cty c) v)) cs -> forall prev, answers (enc_adds e look prev cs).
  Proof. induction 1 as [|c cs Hc H IH]; intros prev; cbn [enc_adds]; ans. Qed.

  Lemma ans_scan cs : forall prev, answers (group_scan look prev cs).
  Proof. induction cs as [|c cs IH]; intros prev; cbn [group_scan]; cbv zeta; ans. Qed.

  Lemma ans_groups gs : Forall (Forall (fun c => forall v, answers (e (cty c) v))) gs ->
    forall prev, answers (enc_groups e look prev gs).
  Proof.
    induction 1 as [|g gs Hg H IH]; intros prev; cbn [enc_groups]; [ans|].
    pose proof (ans_root g Hg). pose proof (ans_scan g). ans.
  Qed.
End AnsSeq.

Theorem enc_answers t : forall v, answers (enc t v).
Proof.
  induction t using ty_rect'; intros v; cbn [enc].
  - destruct v; ans.
  - destruct v; ans.
  - destruct v; ans.
  - destruct v; ans.
  - destruct v; ans.
  - destruct v; try discriminate. unfold encode_sequence. cbv zeta.
    set (look := get_by_name _ _). assert (LK : forall nm, answers (look nm)) by (subst look; auto with ans).
    pose proof (ans_root enc look LK r H). pose proof (ans_adds enc look LK a H0).
    pose proof (ans_groups enc look LK g H1). ans.
  - destruct v; try discriminate. apply ans_bind; [|intros b; unfold encode_sequence_of; ans].
    induction vs; cbn [enc_list]; ans.
  - destruct v as [| | | | | | | |[(i & v)|]]; try discriminate.
    rewrite choice_comps, <- map_app.
    destruct (nth_error _ i) as [(nm & f)|] eqn:E; [|discriminate].
    rewrite nth_error_map in E. destruct (nth_error (r ++ a ++ List.concat g) i) as [c|] eqn:C; [|discriminate].
    injection E as <- <-. apply ans_bind.
    + apply nth_error_In in C. rewrite Forall_forall in *. rewrite !in_app_iff in C. destruct C as [C|[C|C]].
      * exact (H c C v).
      * exact (H0 c C v).
      * apply in_concat in C as (y & Y & C). specialize (H1 y Y). rewrite Forall_forall in H1. exact (H1 c C v).
    + intros body. apply ans_fill. unfold encode_choice. cbv zeta. ans.
Qed.

Lemma ans_unhex h : answers (unhexlify h).
Proof.
  assert (K : forall n h, (List.length h <= n)%nat -> answers (unhexlify h)).
  { induction n; intros [|a [|b r]] L; cbn in *; try discriminate; try lia.
    apply ans_bind; [apply IHn; lia|discriminate]. }
  apply (K _ h (le_n _)).
Qed.

(** The encoder answers: the loops of the model never run out of fuel, all else
    is by structural recursion. *)
Theorem C32_encode_answers : forall t v, encode t v <> Err LoopFuel.
Proof.
  intros t v. change (answers (encode t v)). unfold encode. apply ans_bind; [apply enc_answers|]. intros fs.
  apply ans_bind; [|intros h; apply ans_unhex]. unfold bin_to_hex. ans.
Qed.

Definition danswers {A} (d : D A) : Prop := forall p, answers (d p).

Lemma dans_ret {A} (a : A) : danswers (ret a).
Proof. discriminate. Qed.
Lemma dans_fail {A} e : e <> LoopFuel -> danswers (@fail A e).
Proof. intros H p E. apply H. unfold fail in E. congruence. Qed.
Lemma dans_lift {A} (r : res A) : answers r -> danswers (lift r).
Proof. intros H p E. apply H. unfold lift in E. destruct r; congruence. Qed.
Lemma dans_bind {A B} (d : D A) (k : A -> D B) : danswers d -> (forall a, danswers (k a)) -> danswers (dbind d k).
Proof.
  intros H K p. unfold dbind. specialize (H p). destruct (d p) as [[a q]|e]; [apply K|].
  intros E. apply H. congruence.
Qed.
Lemma dans_next sz al : danswers (per_next sz al).
Proof. intros p. unfold per_next. cbv zeta. ans. Qed.

Create HintDb dans.
#[local] Hint Resolve dans_ret dans_next : dans.

Ltac dans :=
  repeat first
    [ solve [auto with dans]
    | apply dans_fail; discriminate
    | apply dans_lift; solve [ans]
    | apply dans_bind; [|intros ?]
    | match goal with
      | |- danswers (if ?b then _ else _) => destruct b
      | |- danswers (match ?x with _ => _ end) => destruct x
      | |- danswers (next_bits _) => apply dans_next
      | |- danswers (next_octets _) => apply dans_next
      | |- danswers align => apply dans_next
      end ].

Lemma dans_nonneg s al : danswers (decode_non_negative s al).
Proof. unfold decode_non_negative. dans. Qed.
#[local] Hint Resolve dans_nonneg : dans.
Lemma dans_cwn l u : danswers (decode_constrained_whole_number l u).
Proof. unfold decode_constrained_whole_number. cbv zeta. dans. Qed.
#[local] Hint Resolve dans_cwn : dans.
Lemma dans_nsl : danswers dec_length_normally_small.
Proof. unfold dec_length_normally_small. dans. Qed.
Lemma dans_lc l u : danswers (dec_length_constrained l u).
Proof. unfold dec_length_constrained. dans. Qed.
Lemma dans_lu : danswers dec_length_unconstrained.
Proof. unfold dec_length_unconstrained. dans. Qed.
#[local] Hint Resolve dans_nsl dans_lc dans_lu : dans.
Lemma dans_cfl l u : danswers (decode_constrained_from_field_list l u).
Proof. unfold decode_constrained_from_field_list. dans. Qed.
Lemma dans_semi l : danswers (decode_semi_constrained l).
Proof. unfold decode_semi_constrained. dans. Qed.
#[local] Hint Resolve dans_cfl dans_semi : dans.
Lemma dans_ns l : danswers (decode_normally_small l).
Proof. unfold decode_normally_small. dans. Qed.
Lemma ans_tcomp v n : answers (twos_comp v n).
Proof. unfold twos_comp. ans. Qed.
#[local] Hint Resolve ans_tcomp : ans.
Lemma dans_unc : danswers decode_unconstrained_whole_number.
Proof. unfold decode_unconstrained_whole_number. dans. Qed.
#[local] Hint Resolve dans_ns dans_unc : dans.
Lemma ans_mk_int c z : answers (mk_int c z).
Proof. unfold mk_int. ans. Qed.
Lemma ans_mk_bits c z : answers (mk_bits c z).
Proof. unfold mk_bits. ans. Qed.
Lemma ans_mk_octs c z : answers (mk_octs c z).
Proof. unfold mk_octs. cbv zeta. ans. Qed.
Lemma ans_mk_enum r a z : answers (mk_enum r a z).
Proof. unfold mk_enum. ans. Qed.
Lemma ans_bin_zfill v n : answers (bin_zfill v n).
Proof. unfold bin_zfill. ans. Qed.
Lemma ans_hex_zfill v n : answers (hex_zfill v n).
Proof. unfold hex_zfill. ans. Qed.
Lemma ans_cast t d : answers (cast t d).
Proof. unfold cast. ans. Qed.
Lemma ans_per_init h : answers (per_init h).
Proof. unfold per_init. ans. Qed.
#[local] Hint Resolve ans_mk_int ans_mk_bits ans_mk_octs ans_mk_enum ans_bin_zfill ans_hex_zfill ans_cast ans_per_init : ans.
Lemma dans_integer c : danswers (decode_integer c).
Proof. unfold decode_integer. dans. Qed.
Lemma dans_enum e r a : danswers (decode_enumerated e r a).
Proof. unfold decode_enumerated. dans. Qed.
Lemma dans_bits c : danswers (decode_bitstring c).
Proof. unfold decode_bitstring. cbv zeta. dans. Qed.
Lemma dans_octs c : danswers (decode_octetstring c).
Proof. unfold decode_octetstring. cbv zeta. dans. Qed.
#[local] Hint Resolve dans_integer dans_enum dans_bits dans_octs : dans.

Lemma dans_open {A} (d : D A) : danswers d -> danswers (decode_open_type_field d).
Proof.
  intros H. unfold decode_open_type_field. dans. intros q. specialize (H a2).
  destruct (d a2) as [[x y]|e]; [discriminate|]. intros E. apply H. congruence.
Qed.
#[local] Hint Resolve dans_open : dans.

Lemma dans_root dec cs : Forall (fun c => danswers (dec (cty c))) cs -> forall bm, danswers (dec_root dec cs bm).
Proof. induction 1 as [|c cs Hc H IH]; intros bm; cbn [dec_root]; dans. Qed.
Lemma dans_root_part dec cs : Forall (fun c => danswers (dec (cty c))) cs -> danswers (dec_root_part dec cs).
Proof. intros H. pose proof (dans_root dec cs H). unfold dec_root_part. cbv zeta. dans. Qed.
Lemma dans_adds dec cs : Forall (fun c => danswers (dec (cty c))) cs -> forall bm, danswers (dec_adds dec cs bm).
Proof. induction 1 as [|c cs Hc H IH]; intros bm; cbn [dec_adds]; dans. Qed.
Lemma dans_groups dec gs : Forall (Forall (fun c => danswers (dec (cty c)))) gs -> forall bm, danswers (dec_groups dec gs bm).
Proof.
  induction 1 as [|g gs Hg H IH]; intros bm; cbn [dec_groups]; [dans|].
  pose proof (dans_root_part dec g Hg). dans.
Qed.
Lemma ans_assign cs l : forall ss, answers (assign_all cs ss l).
Proof. induction l as [|(nm & v) l IH]; intros ss; cbn [assign_all]; ans. Qed.
#[local] Hint Resolve ans_assign : ans.
Lemma dans_n (d : D val) n : danswers d -> danswers (dec_n d n).
Proof. intros H. induction n; cbn [dec_n]; dans. Qed.
Lemma dans_pick_bind {A B} (l : list A) i (k : A -> D B) : (forall a, In a l -> danswers (k a)) ->
  danswers (do a <- pick l i; k a).
Proof.
  intros H. unfold pick, dbind. destruct (nth_error l (Z.to_nat i)) as [x|] eqn:E; [|intros p; discriminate].
  intros p. apply H. eapply nth_error_In; eauto.
Qed.

Theorem dec_answers t : danswers (dec t).
Proof.
  induction t using ty_rect'; cbn [dec]; auto with dans.
  - unfold decode_boolean. dans.
  - unfold decode_sequence. pose proof (dans_root_part dec r H). pose proof (dans_adds dec a H0).
    pose proof (dans_groups dec g H1). dans.
  - unfold decode_sequence_of, dec_seqof_len. dans. apply dans_n. dans.
  - unfold decode_choice. cbv zeta. rewrite choice_comps.
    match goal with |- danswers (if _ then ?x else _) => assert (R : danswers x) end.
    { apply dans_bind; [dans|]. intros i. apply dans_pick_bind. intros x X. apply in_map_iff in X as (c & <- & C).
      rewrite Forall_forall in H. cbn [fst snd]. specialize (H c C). dans. }
    destruct (negb e); auto. apply dans_bind; [dans|]. intros b. destruct (b =? 0); auto.
    apply dans_bind; [dans|]. intros i. destruct (isnil _ && isnil _); [dans|].
    apply dans_pick_bind. intros x X. apply in_map_iff in X as (c & <- & C). cbn [fst snd].
    assert (K : danswers (dec (cty c))).
    { rewrite Forall_forall in *. apply in_app_iff in C as [C|C].
      - exact (H0 c C).
      - apply in_concat in C as (y & Y & C). specialize (H1 y Y). rewrite Forall_forall in H1. exact (H1 c C). }
    dans.
Qed.

Theorem C32_decode_answers : forall bs t, decode bs t <> Err LoopFuel.
Proof.
  intros bs t. change (answers (decode bs t)). unfold decode, decode_pos.
  apply ans_bind; [|discriminate]. apply ans_bind; [auto with ans|]. intros p.
  apply ans_bind; [apply dec_answers|]. intros (d & q). cbn [fst snd].
  assert (answers (from_empty t)) by (unfold from_empty; ans). ans.
Qed.

(** get_range_octet_len: the least number of octets, three at least, that hold
    the number. *)
Theorem C32_range_least : forall r, 0 <= r -> exists m,
  get_range_octet_len r = Ok m /\ (3 <= m)%nat /\ r < 256 ^ Z.of_nat m /\
  forall k, (3 <= k)%nat -> r < 256 ^ Z.of_nat k -> (m <= k)%nat.
Proof.
  intros r H. exists (Nat.max 3 (noct r)). split; [now apply range_octet_ok|]. split; [lia|].
  assert (P : forall k, 256 ^ Z.of_nat k = 2 ^ Z.of_nat (8 * k)).
  { intros k. change 256 with (2 ^ 8). rewrite <- Z.pow_mul_r by lia. f_equal. lia. }
  split.
  - rewrite P. apply noct_le; lia.
  - intros k K L. rewrite P in L. apply noct_le in L; lia.
Qed.

(** get_twos_complement_octet_len: the least number of octets, one at least,
    whose two's complement range holds the number. *)
Theorem C32_twos_least : forall z, exists m,
  get_twos_complement_octet_len z = Ok m /\ (1 <= m)%nat /\
  - 2 ^ (8 * Z.of_nat m - 1) <= z < 2 ^ (8 * Z.of_nat m - 1) /\
  forall k, (1 <= k)%nat -> - 2 ^ (8 * Z.of_nat k - 1) <= z < 2 ^ (8 * Z.of_nat k - 1) -> (m <= k)%nat.
Proof.
  intros z. exists (toct z). split; [apply twos_octet_ok|]. pose proof (toct_pos z). split; [auto|].
  assert (P : forall k, 8 * Z.of_nat k - 1 = Z.of_nat k * 8 - 1) by (intros; lia).
  split.
  - rewrite P. now apply toct_le.
  - intros k K L. rewrite P in L. now apply toct_le in L.
Qed.

(** Nothing loops for ever on a claimed length either: the number of elements a
    SEQUENCE OF can announce is bounded by its type. *)
Theorem C32_elements_bounded : forall c t p d p', (forall l, clo c = Some l -> 0 <= l) ->
  dec (TSeqOf c t) p = Ok (d, p') ->
  exists vs, d = DVal (VSeqOf vs) /\
    zlen vs <= Z.max 16383 (match clo c with Some l => l + 65535 | None => 0 end).
Proof.
  intros c t p d p' NN E. cbn [dec] in E. unfold decode_sequence_of in E.
  assert (P : post (dec_seqof_len c) (fun z => 0 <= z <= Z.max 16383 (match clo c with Some l => l + 65535 | None => 0 end))).
  { assert (LU : forall M, post dec_length_unconstrained (fun z => 0 <= z <= Z.max 16383 M)).
    { intros M. eapply post_weaken; [apply post_lu|]. cbn beta. lia. }
    assert (LC : post (dec_length_constrained (clo c) (chi c))
                   (fun z => 0 <= z <= Z.max 16383 (match clo c with Some l => l + 65535 | None => 0 end))).
    { destruct (clo c) as [l|].
      - destruct (chi c) as [h|].
        + unfold dec_length_constrained. 
          apply post_bind with (Q := fun x => x = h); [apply post_lift; now intros ? [= <-]|]. intros ? ->.
          apply post_bind with (Q := fun x => x = l); [apply post_lift; now intros ? [= <-]|]. intros ? ->.
          specialize (NN l eq_refl). destruct (Z.lt_trichotomy l h) as [L|[->|L]].
          * eapply post_weaken; [now apply post_cwn|]. cbn beta. lia.
          * unfold decode_constrained_whole_number, integer_range. cbv zeta.
            replace (h - h + 1) with 1 by lia. apply post_bind'. intros o. apply post_ret. lia.
          * unfold decode_constrained_whole_number, integer_range. cbv zeta.
            assert (B : get_bit_field_size (h - l + 1) = Ok None).
            { unfold get_bit_field_size.
              repeat match goal with
              | |- context [?a =? ?b] => destruct (Z.eqb_spec a b); [lia|]
              | |- context [?a <=? ?b] => destruct (Z.leb_spec a b); try lia
              | |- context [?a <? ?b] => destruct (Z.ltb_spec a b); try lia
              end; reflexivity. }
            rewrite B. apply post_bind with (Q := fun o => o = None); [apply post_lift; now intros ? [= <-]|].
            intros ? ->. destruct (Z.eqb_spec (h - l + 1) 1); [lia|].
            destruct (Z.leb_spec (h - l + 1) 255); [|lia].
            apply post_bind with (Q := fun _ => False); [apply post_fail|contradiction].
        + unfold dec_length_constrained. apply post_bind with (Q := fun _ => False); [apply post_lift; discriminate|contradiction].
      - unfold dec_length_constrained. apply post_bind'. intros u.
        apply post_bind with (Q := fun _ => False); [apply post_lift; discriminate|contradiction]. }
    unfold dec_seqof_len. destruct (cext c).
    - apply post_bind'. intros b. destruct (b =? 0); auto. apply post_bind'. auto.
    - destruct (clo c) as [l|] eqn:L; destruct (chi c) as [h|] eqn:H.
      + destruct (_ && _); [|destruct (truthy _); auto]. apply post_ret. specialize (NN l eq_refl). lia.
      + destruct (truthy _); auto.
      + destruct (truthy _); auto.
      + apply post_fail. }
  assert (Q : post (do n <- dec_seqof_len c; do vs <- dec_n (do d <- dec t; lift (cast t d)) (Z.to_nat n); ret (DVal (VSeqOf vs)))
     (fun d => exists vs, d = DVal (VSeqOf vs) /\ zlen vs <= Z.max 16383 (match clo c with Some l => l + 65535 | None => 0 end))).
  { eapply post_bind; [exact P|]. intros n Hn. cbn beta in Hn.
    assert (L : forall m, post (dec_n (do d <- dec t; lift (cast t d)) m) (fun vs => List.length vs = m)).
    { induction m; cbn [dec_n]; [now apply post_ret|]. apply post_bind'. intros v.
      eapply post_bind; [exact IHm|]. intros vs V. apply post_ret. cbn. now rewrite V. }
    eapply post_bind; [apply L|]. intros vs V. apply post_ret. exists vs. split; auto. unfold zlen. rewrite V. lia. }
  exact (Q p d p' E).
Qed.

Example C32_case : get_range_octet_len (2 ^ 40) = Ok 6%nat /\ get_twos_complement_octet_len (- 2 ^ 39 - 1) = Ok 6%nat /\
  get_twos_complement_octet_len (- 2 ^ 39) = Ok 5%nat.
Proof. repeat split. Qed.
