(** Exactly which constraints are bounded by their end points, with what that means on
    the wire (C34), and exactly which intersections have effective end points (C35). *)
From Coq Require Import ZArith List String Bool Lia ZifyBool ZifyNat ZifyN.
Import ListNotations.
From Verif Require Import PyBase Schema Encoder Decoder BitFacts Stream Prims Spec SimpleTypes PropsRoundTrip Valid Exact Constraints.
Open Scope string_scope.
Open Scope list_scope.
Open Scope Z_scope.

(** * C34 *)

(** The markers let every number pass: the constraint has one, or some part of a union,
    or all parts of an intersection do.  (NoConstraint, ExtensionMarker and
    SequenceOfValueSize are intersections of nothing.) *)
Fixpoint unchecked (c : constr) : Prop :=
  match c with
  | CNone | CExt _ | CSeqSize _ _ _ => True
  | CRange e _ _ | CSingle e _ => e = true
  | COr e cs => e = true \/ some_of (map unchecked cs)
  | CAnd e cs => e = true \/ all_of (map unchecked cs)
  end.

Lemma unchecked_sat c : unchecked c -> forall z, sat c z.
Proof.
  induction c using constr_ind'; cbn [unchecked sat]; auto.
  - intros [E|(p & I & U)] z; [auto|right]. apply in_map_iff in I as (x & <- & I). rewrite Forall_forall in H.
    exists (sat x z). split; [now apply in_map with (f := fun c' => sat c' z)|]. now apply H.
  - intros [E|U] z; [auto|right]. intros p I. apply in_map_iff in I as (x & <- & I). rewrite Forall_forall in H.
    apply H; auto. apply U. now apply in_map.
Qed.

Lemma unchecked_dec c : unchecked c \/ ~ unchecked c.
Proof.
  assert (B : forall e, e = true \/ ~ e = true) by (intros []; auto).
  induction c using constr_ind'; cbn [unchecked]; auto.
  - assert (Q : some_of (map unchecked cs) \/ ~ some_of (map unchecked cs)).
    { induction H as [|x cs Hx H IH]; [right; intros (p & [] & _)|]. cbn [map].
      destruct Hx as [Hx|Hx]; [left; exists (unchecked x); split; [now left|exact Hx]|].
      destruct IH as [(p & Ip & P)|IH]; [left; exists p; split; [now right|exact P]|].
      right. intros (p & [<-|Ip] & P); [auto|]. apply IH. exists p. auto. }
    destruct (B e), Q; tauto.
  - assert (Q : all_of (map unchecked cs) \/ ~ all_of (map unchecked cs)).
    { induction H as [|x cs Hx H IH]; [left; intros p []|]. cbn [map].
      destruct Hx as [Hx|Hx]; [|right; intros A; apply Hx, A; now left].
      destruct IH as [IH|IH]; [left; intros p [<-|Ip]; [exact Hx|exact (IH p Ip)]|].
      right. intros A. apply IH. intros p Ip. apply A. now right. }
    destruct (B e), Q; tauto.
Qed.

(** Every constraint either lets every number pass or is bounded by its end points. *)
Theorem C34_dichotomy : forall c,
  (unchecked c /\ forall z, sat c z) \/
  (~ unchecked c /\ forall z, sat c z -> Constraints.above (clo c) z /\ Constraints.below z (chi c)).
Proof.
  intros c. destruct (unchecked_dec c) as [U|U]; [left; split; [exact U|now apply unchecked_sat]|right]. split; [exact U|].
  revert U. induction c using constr_ind'; cbn [unchecked sat clo chi]; intros U z S; try tauto.
  - destruct S as [S|S]; [tauto|]. split; intros m E.
    + destruct (opt_fold_min _ _ E (Some z)) as (y & [= <-] & L); [now apply in_map|exact L].
    + destruct (opt_fold_max _ _ E (Some z)) as (y & [= <-] & L); [now apply in_map|exact L].
  - destruct S as [S|(p & I & S)]; [tauto|]. apply in_map_iff in I as (x & <- & I). rewrite Forall_forall in H.
    assert (Ux : ~ unchecked x). { intros Q. apply U. right. exists (unchecked x). split; [now apply in_map|exact Q]. }
    destruct (H x I Ux z S) as (A & B). split; intros m E.
    + destruct (opt_fold_min _ _ E (clo x)) as (y & Y & L); [now apply in_map|]. specialize (A y Y). lia.
    + destruct (opt_fold_max _ _ E (chi x)) as (y & Y & L); [now apply in_map|]. specialize (B y Y). lia.
  - destruct S as [S|S]; [tauto|]. rewrite Forall_forall in H.
    assert (X : exists x, In x cs /\ ~ unchecked x).
    { clear - U. assert (N : ~ all_of (map unchecked cs)) by tauto. clear U. induction cs as [|x cs IH].
      - destruct N. intros p [].
      - destruct (unchecked_dec x) as [Q|Q]; [|exists x; split; [now left|exact Q]].
        destruct IH as (y & I & Y); [|exists y; split; [now right|exact Y]].
        intros A. apply N. intros p [<-|I]; [exact Q|exact (A p I)]. }
    destruct X as (x & I & Ux).
    assert (Sx : sat x z) by (apply S; now apply in_map with (f := fun c' => sat c' z)).
    destruct (H x I Ux z Sx) as (A & B). split; intros m E.
    + destruct (opt_fold_min _ _ E (clo x)) as (y & Y & L); [now apply in_map|]. specialize (A y Y). lia.
    + destruct (opt_fold_max _ _ E (chi x)) as (y & Y & L); [now apply in_map|]. specialize (B y Y). lia.
Qed.

Theorem C34_exact : forall c,
  (forall z, sat c z -> Constraints.above (clo c) z /\ Constraints.below z (chi c)) <->
  ~ unchecked c \/ (clo c = None /\ chi c = None).
Proof.
  intros c. destruct (C34_dichotomy c) as [(U & A)|(U & A)].
  - split.
    + intros B. right. split.
      * destruct (clo c) as [l|]; [|reflexivity]. destruct (B (l - 1) (A _)) as (X & _). specialize (X l eq_refl). lia.
      * destruct (chi c) as [h|]; [|reflexivity]. destruct (B (h + 1) (A _)) as (_ & X). specialize (X h eq_refl). lia.
    + intros [N|(-> & ->)]; [tauto|]. intros z _. split; intros x [=].
  - split; auto.
Qed.

(** On the wire: what the decoder reads of a field between two end points. *)
Lemma post_cfl_bound l h : l < h ->
  post (decode_constrained_from_field_list (Some l) (Some h)) (fun z => z < l + 2 ^ (8 * 65536)).
Proof.
  intros L. assert (M : 2 ^ 16 <= 2 ^ (8 * 65536)) by (apply Z.pow_le_mono_r; lia). change (2 ^ 16) with 65536 in M.
  unfold decode_constrained_from_field_list, integer_range.
  apply post_bind with (Q := fun u => u = h); [apply post_lift; intros ? [= <-]; reflexivity|]. intros ? ->.
  apply post_bind with (Q := fun u => u = l); [apply post_lift; intros ? [= <-]; reflexivity|]. intros ? ->.
  destruct (Z.leb_spec (h - l + 1) 65536) as [C|C].
  - eapply post_weaken; [apply Valid.post_cwn; exact L|]. intros z (B & _). cbv beta. clear - M B. set (q := 2 ^ (8 * 65536)) in *. clearbody q. lia.
  - clear M. rewrite range_octet_ok by lia.
    apply post_bind with (Q := fun u => u = Nat.max 3 (noct (h - l))); [apply post_lift; intros ? [= <-]; reflexivity|]. intros ? ->.
    apply post_bind with (Q := fun n => 1 <= n <= 65536).
    { unfold dec_length_constrained.
      apply post_bind with (Q := fun u => u = Z.of_nat (Nat.max 3 (noct (h - l)))); [apply post_lift; intros ? [= <-]; reflexivity|]. intros ? ->.
      apply post_bind with (Q := fun u => u = 1); [apply post_lift; intros ? [= <-]; reflexivity|]. intros ? ->.
      eapply post_weaken; [apply Valid.post_cwn; lia|]. intros n (B & _). cbv beta. lia. }
    intros n Hn. eapply post_bind; [apply post_next|]. intros v Hv. cbn [fst snd] in Hv. apply post_ret.
    assert (Q : 2 ^ Z.of_nat (8 * Z.to_nat n + 0) <= 2 ^ (8 * 65536)) by (apply Z.pow_le_mono_r; lia).
    clear - Hv Q. set (q := 2 ^ (8 * 65536)) in *. clearbody q. lia.
Qed.

Lemma large_lost c l h z : cext c = false -> clo c = Some l -> chi c = Some h -> l <= h ->
  l + 2 ^ (8 * 65536) <= z -> ~ survives (TInt c) (VInt z).
Proof.
  intros X L U G B Sv. destruct (survives_elim _ _ Sv) as (fs & p & k & dv & p' & E & P & Dd & C).
  assert (dv = DVal (VInt z)) as -> by (destruct C as [C|(C & _)]; [exact C|discriminate]).
  cbn [dec] in Dd. unfold decode_integer in Dd. rewrite X, L, U in Dd.
  destruct (Z.eqb_spec l h) as [<-|N].
  - assert (Q : 0 < 2 ^ (8 * 65536)) by (clear; apply Z.pow_pos_nonneg; lia).
    assert (W := post_mk_int c l). specialize (W p (DVal (VInt z)) p' Dd). cbv beta in W. injection W as W.
    revert B Q. subst z. set (q := 2 ^ (8 * 65536)). clearbody q. lia.
  - assert (LT : l < h) by (clear - G N; lia).
    destruct (post_int _ _ (post_cfl_bound l h LT) _ _ _ Dd) as (y & [= <-] & Y). cbv beta in Y.
    clear - B Y. set (q := 2 ^ (8 * 65536)) in *. clearbody q. lia.
Qed.

(** An INTEGER type without a marker on the whole, between two end points: all numbers that
    pass its check survive exactly if the markers inside do not let every number pass
    (and the width is within what the length octets can say). *)
Theorem C34_all_survive_iff : forall c l h, cext c = false -> clo c = Some l -> chi c = Some h -> l <= h ->
  ufits 65536 (h - l) ->
  (forall z, sat c z -> survives (TInt c) (VInt z)) <-> ~ unchecked c.
Proof.
  intros c l h X L U G F. split.
  - intros A Q. refine (large_lost c l h (l + 2 ^ (8 * 65536)) X L U G (Z.le_refl _) _). apply A. apply unchecked_sat. exact Q.
  - intros N z Sz. destruct (C34_dichotomy c) as [(Q & _)|(_ & B)]; [contradiction|]. destruct (B z Sz) as (B1 & B2).
    apply int_exact_iff.
    + intros _. rewrite L, U in *. split; [exact (B1 l eq_refl)|exact (B2 h eq_refl)].
    + now apply ctest_sat.
    + unfold int_exact. now rewrite X, L, U.
Qed.

(** (0..3, ...)(2..9): bounded though a part has a marker; and its values survive. *)
Example C34_exact_case :
  let c := CAnd false [CRange true (Some 0) (Some 3); CRange false (Some 2) (Some 9)] in
  ~ unchecked c /\ ~ plain c /\ clo c = Some 0 /\ chi c = Some 9 /\ ufits 65536 (9 - 0) /\
  sat c 7 /\ encode (TInt c) (VInt 7) = Ok [112] /\ decode [112] (TInt c) = Ok (VInt 7).
Proof.
  cbv zeta. split; [|split; [|split; [reflexivity|split; [reflexivity|split; [|split; [|split; vm_compute; reflexivity]]]]]].
  - cbn [unchecked]. intros [Q|Q]; [discriminate|]. discriminate (Q (false = true)). right. now left.
  - cbn [plain]. intros (_ & Q). discriminate (Q (true = false)). now left.
  - unfold ufits. split; [lia|]. apply Z.lt_le_trans with (2 ^ 4); [reflexivity|]. apply Z.pow_le_mono_r; lia.
  - apply ctest_sat. reflexivity.
Qed.

(** * C35 *)

(** For an intersection of unions of ranges and single values: the end points are
    effective exactly if all parts have the same ones. *)
Theorem C35_exact : forall cs, cs <> [] -> Forall union_like cs ->
  exists l h, clo (CAnd false cs) = Some l /\ chi (CAnd false cs) = Some h /\
    (effective (CAnd false cs) l h <-> forall x, In x cs -> clo x = Some l /\ chi x = Some h).
Proof.
  intros cs N A. rewrite Forall_forall in A.
  assert (E : forall x, In x cs -> exists l h, clo x = Some l /\ chi x = Some h /\ effective x l h).
  { intros x Hx. apply C35_effective_partial. now apply A. }
  cbn [clo chi].
  destruct (opt_fold_min_some (map clo cs)) as (l & El & Il); [now apply map_nonempty| |].
  { intros y Hy. apply in_map_iff in Hy as (x & <- & Hx). destruct (E x Hx) as (l & h & -> & _). eauto. }
  destruct (opt_fold_max_some (map chi cs)) as (h & Eh & Ih); [now apply map_nonempty| |].
  { intros y Hy. apply in_map_iff in Hy as (x & <- & Hx). destruct (E x Hx) as (? & h & _ & -> & _). eauto. }
  exists l, h. split; [exact El|]. split; [exact Eh|]. unfold effective. cbn [sat]. split.
  - intros ([S1|S1] & [S2|S2] & _) x Hx; try discriminate. destruct (E x Hx) as (lx & hx & Lx & Ux & Fx).
    assert (X1 : sat x l) by (apply S1; now apply in_map with (f := fun c' => sat c' l)).
    assert (X2 : sat x h) by (apply S2; now apply in_map with (f := fun c' => sat c' h)).
    destruct Fx as (_ & _ & Fx). pose proof (Fx _ X1). pose proof (Fx _ X2).
    destruct (opt_fold_min _ _ El (clo x)) as (y & Y & Ly); [now apply in_map|].
    destruct (opt_fold_max _ _ Eh (chi x)) as (y' & Y' & Ly'); [now apply in_map|].
    rewrite Lx in *. rewrite Ux in *. injection Y as <-. injection Y' as <-. split; f_equal; lia.
  - intros Q. assert (Z0 : forall x, In x cs -> sat x l /\ sat x h /\ forall z, sat x z -> l <= z <= h).
    { intros x Hx. destruct (E x Hx) as (lx & hx & Lx & Ux & Fx). destruct (Q x Hx) as (Qx & Qy).
      assert (lx = l) by congruence. assert (hx = h) by congruence. subst. exact Fx. }
    split; [|split].
    + right. intros p Hp. apply in_map_iff in Hp as (x & <- & Hx). now apply Z0.
    + right. intros p Hp. apply in_map_iff in Hp as (x & <- & Hx). now apply Z0.
    + intros z [Sz|Sz]; [discriminate|]. destruct cs as [|x cs]; [congruence|]. apply (Z0 x); [now left|].
      apply Sz. now left.
Qed.

(** So every intersection of two different ranges is encoded as something wider. *)
Theorem C35_ranges_wider : forall l1 h1 l2 h2, l1 <= h1 -> l2 <= h2 -> (l1, h1) <> (l2, h2) ->
  let c := CAnd false [CRange false (Some l1) (Some h1); CRange false (Some l2) (Some h2)] in
  clo c = Some (Z.min l1 l2) /\ chi c = Some (Z.max h1 h2) /\
  (forall z, sat c z <-> Z.max l1 l2 <= z <= Z.min h1 h2) /\
  (Z.min h1 h2 - Z.max l1 l2 < Z.max h1 h2 - Z.min l1 l2).
Proof.
  intros l1 h1 l2 h2 L1 L2 N c. split; [reflexivity|]. split; [reflexivity|]. split.
  - intros z. rewrite <- ctest_sat. unfold c. cbn [ctest forallb orb le_opt_l le_opt_r andb]. lia.
  - assert (l1 <> l2 \/ h1 <> h2).
    { destruct (Z.eq_dec l1 l2); [|auto]. destruct (Z.eq_dec h1 h2); [|auto]. congruence. }
    lia.
Qed.

(** (0..20 | 50)(0..20 ^ ...): equal end points are effective, others are not. *)
Example C35_exact_case :
  let a := COr false [CRange false (Some 0) (Some 20); CSingle false [50]] in
  let b := COr false [CSingle false [0; 7]; CRange false (Some 10) (Some 50)] in
  Forall union_like [a; b] /\ clo (CAnd false [a; b]) = Some 0 /\ chi (CAnd false [a; b]) = Some 50 /\
  effective (CAnd false [a; b]) 0 50 /\ ~ effective (CAnd false [a; CRange false (Some 0) (Some 30)]) 0 50.
Proof.
  intros a b.
  assert (U : Forall union_like [a; b]).
  { repeat constructor; cbn [union_like]; try discriminate; intros p [<-|[<-|[]]]; cbn [union_like]; split; auto; try lia; discriminate. }
  assert (V : Forall union_like [a; CRange false (Some 0) (Some 30)]).
  { inversion U as [|? ? Ua _]; subst. constructor; [exact Ua|]. constructor; [|constructor]. cbn [union_like]. split; [reflexivity|lia]. }
  split; [exact U|]. split; [reflexivity|]. split; [reflexivity|]. split.
  - destruct (C35_exact [a; b] ltac:(discriminate) U) as (l & h & El & Eh & Q).
    cbn in El, Eh. injection El as <-. injection Eh as <-. apply Q.
    intros x [<-|[<-|[]]]; split; reflexivity.
  - destruct (C35_exact [a; CRange false (Some 0) (Some 30)] ltac:(discriminate) V) as (l & h & El & Eh & Q).
    cbn in El, Eh. injection El as <-. injection Eh as <-. rewrite Q. intros W.
    destruct (W (CRange false (Some 0) (Some 30))) as (_ & W2); [right; now left|]. discriminate.
Qed.
