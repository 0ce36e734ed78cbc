(** Exactly which objects of the simple types survive encode followed by decode
    (PropsRoundTrip.survives): the conditions of C01-C04 turned into
    equivalences.  Whatever they leave out is lost, or refused by one side. *)
From Coq Require Import ZArith List String Bool Lia Arith.
From Coq Require Import ZifyBool ZifyNat ZifyN.
Import ListNotations.
From Verif Require Import PyBase Schema Encoder Decoder BitFacts Stream Prims Spec SimpleTypes.
From Verif Require Import RoundTrip Reading Totality PropsRoundTrip Robust Valid.
Open Scope Z_scope.

Ltac Zify.zify_post_hook ::= Z.div_mod_to_equations.

(** * The constraint trees *)

(** No extension marker anywhere in the tree, and no SIZE of a SEQUENCE OF. *)
Fixpoint unmarked (c : constr) : bool :=
  match c with
  | CNone => true
  | CExt e | CSingle e _ | CRange e _ _ => negb e
  | CSeqSize _ _ _ => false
  | COr e cs | CAnd e cs => negb e && forallb unmarked cs
  end.

(** Extensible as a whole, or without any marker. *)
Definition regular (c : constr) : Prop := cext c = true \/ unmarked c = true.

Definition above (lo : option Z) (z : Z) : Prop := match lo with Some l => l <= z | None => True end.
Definition below (z : Z) (hi : option Z) : Prop := match hi with Some h => z <= h | None => True end.

Lemma fold_min os m : opt_fold Z.min os = Some m -> forall o, In o os -> exists a, o = Some a /\ m <= a.
Proof.
  revert m. induction os as [|x os IH]; intros m E o I; [destruct I|].
  destruct os as [|y os].
  - cbn in E. subst x. destruct I as [<-|[]]. exists m. split; [reflexivity|lia].
  - change (opt_fold Z.min (x :: y :: os)) with
      (match x, opt_fold Z.min (y :: os) with Some a, Some b => Some (Z.min a b) | _, _ => None end) in E.
    destruct x as [a|]; [|discriminate]. destruct (opt_fold Z.min (y :: os)) as [b|] eqn:F; [|discriminate].
    injection E as <-. destruct I as [<-|I].
    + exists a. split; [reflexivity|lia].
    + destruct (IH b eq_refl o I) as (k & -> & L). exists k. split; [reflexivity|lia].
Qed.

Lemma fold_max os m : opt_fold Z.max os = Some m -> forall o, In o os -> exists a, o = Some a /\ a <= m.
Proof.
  revert m. induction os as [|x os IH]; intros m E o I; [destruct I|].
  destruct os as [|y os].
  - cbn in E. subst x. destruct I as [<-|[]]. exists m. split; [reflexivity|lia].
  - change (opt_fold Z.max (x :: y :: os)) with
      (match x, opt_fold Z.max (y :: os) with Some a, Some b => Some (Z.max a b) | _, _ => None end) in E.
    destruct x as [a|]; [|discriminate]. destruct (opt_fold Z.max (y :: os)) as [b|] eqn:F; [|discriminate].
    injection E as <-. destruct I as [<-|I].
    + exists a. split; [reflexivity|lia].
    + destruct (IH b eq_refl o I) as (k & -> & L). exists k. split; [reflexivity|lia].
Qed.

Section Tree.
  Variable P : constr -> Prop.
  Hypothesis hnone : P CNone.
  Hypothesis hext : forall e, P (CExt e).
  Hypothesis hss : forall e l h, P (CSeqSize e l h).
  Hypothesis hr : forall e l h, P (CRange e l h).
  Hypothesis hs : forall e vs, P (CSingle e vs).
  Hypothesis hor : forall e cs, Forall P cs -> P (COr e cs).
  Hypothesis hand : forall e cs, Forall P cs -> P (CAnd e cs).
  Fixpoint tree_ind (c : constr) : P c :=
    let fix go (cs : list constr) : Forall P cs :=
      match cs with [] => Forall_nil P | c :: r => Forall_cons c (tree_ind c) (go r) end in
    match c with
    | CNone => hnone
    | CExt e => hext e
    | CSeqSize e l h => hss e l h
    | CRange e l h => hr e l h
    | CSingle e vs => hs e vs
    | COr e cs => hor e cs (go cs)
    | CAnd e cs => hand e cs (go cs)
    end.
End Tree.

(** A value accepted by a tree without markers lies between its end points. *)
Lemma unmarked_ends c : unmarked c = true -> forall z, ctest c z = true ->
  above (clo c) z /\ below z (chi c).
Proof.
  induction c as [|e|e l h|e l h|e vs|e cs IH|e cs IH] using tree_ind; intros U z T;
    cbn [unmarked clo chi ctest] in *; try (split; exact Logic.I); try discriminate.
  - destruct e; [discriminate|]. cbn [orb] in T. apply andb_prop in T as (T1 & T2).
    destruct l, h; cbn [above below le_opt_l le_opt_r] in *; lia.
  - destruct e; [discriminate|]. cbn [orb] in T. apply existsb_Zeqb in T.
    split.
    + destruct (opt_fold Z.min (map Some vs)) as [m|] eqn:F; [|exact Logic.I].
      destruct (fold_min _ _ F (Some z)) as (a & [= <-] & L); [now apply in_map|exact L].
    + destruct (opt_fold Z.max (map Some vs)) as [m|] eqn:F; [|exact Logic.I].
      destruct (fold_max _ _ F (Some z)) as (a & [= <-] & L); [now apply in_map|exact L].
  - destruct e; [discriminate|]. cbn [orb negb andb] in T, U. apply existsb_exists in T as (c & I & T).
    rewrite Forall_forall in IH. rewrite forallb_forall in U.
    destruct (IH c I (U c I) z T) as (A & B). split.
    + destruct (opt_fold Z.min (map clo cs)) as [m|] eqn:F; [|exact Logic.I].
      destruct (fold_min _ _ F (clo c)) as (a & E & L); [now apply in_map|].
      rewrite E in A. cbn [above] in *. lia.
    + destruct (opt_fold Z.max (map chi cs)) as [m|] eqn:F; [|exact Logic.I].
      destruct (fold_max _ _ F (chi c)) as (a & E & L); [now apply in_map|].
      rewrite E in B. cbn [below] in *. lia.
  - destruct e; [discriminate|]. cbn [orb negb andb] in T, U.
    rewrite Forall_forall in IH. rewrite forallb_forall in U, T. split.
    + destruct cs as [|c cs]; [exact Logic.I|].
      destruct (opt_fold Z.min (map clo (c :: cs))) as [m|] eqn:F; [|exact Logic.I].
      destruct (fold_min _ _ F (clo c)) as (a & E & L); [left; reflexivity|].
      destruct (IH c (or_introl eq_refl) (U c (or_introl eq_refl)) z (T c (or_introl eq_refl))) as (A & _).
      rewrite E in A. cbn [above] in *. lia.
    + destruct cs as [|c cs]; [exact Logic.I|].
      destruct (opt_fold Z.max (map chi (c :: cs))) as [m|] eqn:F; [|exact Logic.I].
      destruct (fold_max _ _ F (chi c)) as (a & E & L); [left; reflexivity|].
      destruct (IH c (or_introl eq_refl) (U c (or_introl eq_refl)) z (T c (or_introl eq_refl))) as (_ & B).
      rewrite E in B. cbn [below] in *. lia.
Qed.

Lemma regular_ends c z : regular c -> ctest c z = true -> cext c = false ->
  above (clo c) z /\ below z (chi c).
Proof. intros [R|U] T X; [congruence|]. now apply unmarked_ends. Qed.

(** * From decode to the decoding step *)

Lemma survives_intro t v fs dv : is_simple t = true -> enc t v = Ok fs ->
  (forall p k, (render 0 fs = [] -> k = 8%nat) -> at_ p (render 0 fs ++ repeat false k) 0 ->
     exists p', dec t p = Ok (dv, p')) ->
  (dv = DVal v /\ eq_empty v = false) \/ (from_empty t = Ok v /\ (dv = DEmpty \/ exists u, dv = DVal u /\ eq_empty u = true)) ->
  survives t v.
Proof.
  intros T E D C. unfold survives.
  destruct (encode t v) as [bs|e] eqn:Eb; [|rewrite encode_spec, E in Eb; discriminate].
  exists bs. split; [reflexivity|].
  destruct (encode_inv t v bs Eb) as (fs' & E' & -> & O & Fo & Ne). rewrite E in E'. injection E' as <-.
  destruct (per_init_ok _ Fo Ne) as (p & P1 & P2). rewrite O in P2.
  destruct (produce_spec fs) as (k & S & Kk). rewrite S in P2.
  assert (K8 : render 0 fs = [] -> k = 8%nat).
  { intros Y. destruct Kk as [Kk|(_ & Kk)]; [|exact Kk]. rewrite Y in Kk. cbn in Kk. subst k.
    rewrite Y in S. exfalso. apply (produce_nonempty fs). exact S. }
  destruct (D p k K8 P2) as (p' & Dp). unfold decode, decode_pos. rewrite P1. cbn [bind]. rewrite Dp. cbn [bind fst snd].
  destruct C as [(-> & Q)|(F & [->|(u & -> & Q)])].
  - rewrite Q. reflexivity.
  - rewrite F. reflexivity.
  - rewrite Q, F. reflexivity.
Qed.

Lemma survives_elim t v : survives t v -> exists fs p k dv p',
  enc t v = Ok fs /\ at_ p (render 0 fs ++ repeat false k) 0 /\ dec t p = Ok (dv, p') /\
  (dv = DVal v \/ (from_empty t = Ok v /\ (dv = DEmpty \/ exists u, dv = DVal u /\ eq_empty u = true))).
Proof.
  intros (bs & E & Q). destruct (encode_inv t v bs E) as (fs & E' & -> & O & Fo & Ne).
  destruct (per_init_ok _ Fo Ne) as (p & P1 & P2). rewrite O in P2.
  destruct (produce_spec fs) as (k & S & _). rewrite S in P2.
  unfold decode, decode_pos in Q. rewrite P1 in Q. cbn [bind] in Q.
  destruct (dec t p) as [(dv, p')|] eqn:Dp; [|discriminate]. cbn [bind fst snd] in Q.
  exists fs, p, k, dv, p'. split; [exact E'|]. split; [exact P2|]. split; [exact Dp|].
  destruct dv as [u|].
  - destruct (eq_empty u) eqn:X.
    + right. destruct (from_empty t) as [w|]; [|discriminate]. cbn [bind fst] in Q. injection Q as ->.
      split; [reflexivity|]. right. now exists u.
    + injection Q as ->. now left.
  - right. destruct (from_empty t) as [w|]; [|discriminate]. cbn [bind fst] in Q. injection Q as ->.
    split; [reflexivity|]. now left.
Qed.

(** * INTEGER *)

Definition int_exact (c : constr) (z : Z) : Prop :=
  if cext c then
    match clo c, chi c with
    | None, _ => False
    | Some l, None => z < l /\ sfits 255 z
    | Some l, Some h =>
        (l <= z <= h /\ ufits 65536 (h - l) /\ (l = h -> l = 0)) \/
        (~ l <= z <= h /\ sfits 255 z)
    end
  else
    match clo c, chi c with
    | Some l, Some h => ufits 65536 (h - l)
    | Some l, None => ufits 16383 (z - l)
    | None, _ => sfits 255 z
    end.

Lemma post_and {A} (d : D A) (P Q : A -> Prop) p a p' : post d P -> d p = Ok (a, p') -> P a.
Proof. intros H E. eapply H; eauto. Qed.

Lemma ok_inj {A} (a b : A) : Ok a = Ok b -> a = b.
Proof. congruence. Qed.

Lemma twos_comp_fits v n z : 0 <= n -> 0 <= v < 2 ^ (8 * n) -> twos_comp v (8 * n) = Ok z -> sfits n z.
Proof.
  intros N V T. unfold twos_comp in T. destruct (Z.eqb_spec (8 * n) 0) as [|Nz]; [discriminate|].
  rewrite !Z.shiftl_mul_pow2, !Z.mul_1_l in T by lia.
  assert (E : 2 ^ (8 * n) = 2 * 2 ^ (8 * n - 1)).
  { rewrite <- Z.pow_succ_r by lia. f_equal. lia. }
  assert (P0 : 0 < 2 ^ (8 * n - 1)) by (apply Z.pow_pos_nonneg; lia).
  assert (B : Z.land v (2 ^ (8 * n - 1)) =? 0 = negb (Z.testbit v (8 * n - 1))).
  { destruct (Z.testbit v (8 * n - 1)) eqn:X; cbn [negb].
    - apply Z.eqb_neq. intros Y. apply (f_equal (fun x => Z.testbit x (8 * n - 1))) in Y.
      rewrite Z.land_spec, Z.bits_0, X, Z.pow2_bits_true in Y by lia. discriminate.
    - apply Z.eqb_eq. apply Z.bits_inj'. intros j Hj. rewrite Z.land_spec, Z.bits_0, Z.pow2_bits_eqb by lia.
      destruct (Z.eqb_spec (8 * n - 1) j) as [<-|]; [now rewrite X|apply andb_false_r]. }
  rewrite B, negb_involutive in T. unfold sfits.
  assert (N1 : S (Z.to_nat (8 * n - 1)) = Z.to_nat (8 * n)) by lia.
  pose proof (testbit_top v (Z.to_nat (8 * n - 1))) as TT.
  rewrite N1 in TT. rewrite !Z2Nat.id in TT by lia. specialize (TT V).
  pose proof (Z.mod_pos_bound v (2 ^ (8 * n - 1)) P0).
  clear B N1 P0. rewrite E in T, V. clear E. set (m := v mod 2 ^ (8 * n - 1)) in *. clearbody m. set (q := 2 ^ (8 * n - 1)) in *. clearbody q.
  destruct (Z.testbit v (8 * n - 1)); apply ok_inj in T; cbn [Z.b2z] in TT; lia.
Qed.

Lemma post_unc : post decode_unconstrained_whole_number (fun z => sfits 255 z).
Proof.
  unfold decode_unconstrained_whole_number.
  eapply post_bind; [apply post_next|]. intros n Hn. cbn [fst snd] in Hn.
  change (2 ^ Z.of_nat (8 * 1 + 0)) with 256 in Hn.
  eapply post_bind; [apply post_next|]. intros v Hv. cbn [fst snd] in Hv.
  replace (Z.of_nat (8 * Z.to_nat n + 0)) with (8 * n) in Hv by lia.
  apply post_lift. intros z E. apply twos_comp_fits in E; [|lia|exact Hv].
  unfold sfits in *. assert (2 ^ (8 * n - 1) <= 2 ^ (8 * 255 - 1)).
  { destruct (Z.eq_dec n 0) as [->|]; [|apply Z.pow_le_mono_r; lia]. change (2 ^ (8 * 0 - 1)) with 0.
    apply Z.pow_nonneg. lia. }
  lia.
Qed.

Lemma post_len : post dec_length_unconstrained (fun n => 0 <= n < 16384).
Proof.
  unfold dec_length_unconstrained, decode_non_negative.
  apply post_bind'. intros _. apply post_bind'. intros b. destruct (b =? 0).
  - eapply post_bind; [apply post_next|]. intros z Hz. cbn [fst snd] in Hz. change (2 ^ Z.of_nat (8 * 0 + 7)) with 128 in Hz.
    apply post_bind'. intros _. apply post_ret. lia.
  - apply post_bind'. intros b2. destruct (b2 =? 0); [|apply post_fail].
    eapply post_bind; [apply post_next|]. intros z Hz. cbn [fst snd] in Hz.
    change (2 ^ Z.of_nat (8 * 1 + 6)) with 16384 in Hz.
    apply post_bind'. intros _. apply post_ret. lia.
Qed.

Lemma post_semi l : post (decode_semi_constrained l) (fun z => ufits 16383 (z - l)).
Proof.
  unfold decode_semi_constrained. eapply post_bind; [apply post_len|]. intros n Hn. cbn beta in Hn.
  eapply post_bind; [apply post_next|]. intros v Hv. cbn [fst snd] in Hv. apply post_ret.
  replace (l + v - l) with v by lia. unfold ufits. split; [lia|].
  eapply Z.lt_le_trans; [apply Hv|]. apply Z.pow_le_mono_r; lia.
Qed.

Lemma post_cwn l h : 65536 < h - l + 1 -> post (decode_constrained_whole_number l h) (fun _ => False).
Proof.
  intros L. unfold decode_constrained_whole_number, integer_range. apply post_bind'. intros size.
  destruct (Z.eqb_spec (h - l + 1) 1); [lia|]. destruct (Z.leb_spec (h - l + 1) 255); [lia|].
  destruct (Z.eqb_spec (h - l + 1) 256); [lia|].
  replace ((257 <=? h - l + 1) && (h - l + 1 <=? 65536)) with false by lia. apply post_fail.
Qed.

Lemma post_cwn1 l h : l = h -> post (decode_constrained_whole_number l h) (fun z => z = 0).
Proof.
  intros <-. unfold decode_constrained_whole_number, integer_range. apply post_bind'. intros size.
  replace (l - l + 1) with 1 by lia. cbn [Z.eqb Pos.eqb]. now apply post_ret.
Qed.

Lemma post_cfl l h : l <= h -> ~ ufits 65536 (h - l) ->
  post (decode_constrained_from_field_list (Some l) (Some h)) (fun _ => False).
Proof.
  intros L U. unfold decode_constrained_from_field_list, integer_range.
  apply post_bind with (Q := fun u => u = h); [apply post_lift; intros ? [= <-]; reflexivity|]. intros ? ->.
  apply post_bind with (Q := fun u => u = l); [apply post_lift; intros ? [= <-]; reflexivity|]. intros ? ->.
  assert (N : 65536 < Z.of_nat (noct (h - l))).
  { destruct (Z.le_gt_cases (Z.of_nat (noct (h - l))) 65536) as [C|C]; [|lia]. exfalso. apply U.
    apply noct_ufits; lia. }
  destruct (Z.leb_spec (h - l + 1) 65536) as [C|C].
  - exfalso. assert (noct (h - l) <= 3)%nat; [|lia]. apply noct_le; [lia..|].
    change (2 ^ Z.of_nat (8 * 3)) with 16777216. lia.
  - rewrite range_octet_ok by lia.
    apply post_bind with (Q := fun u => u = Nat.max 3 (noct (h - l))); [apply post_lift; intros ? [= <-]; reflexivity|].
    intros ? ->. apply post_bind with (Q := fun _ => False); [|intros ? []].
    unfold dec_length_constrained.
    apply post_bind with (Q := fun u => u = Z.of_nat (Nat.max 3 (noct (h - l)))); [apply post_lift; intros ? [= <-]; reflexivity|]. intros ? ->.
    apply post_bind with (Q := fun u => u = 1); [apply post_lift; intros ? [= <-]; reflexivity|]. intros ? ->.
    apply post_cwn. lia.
Qed.

Lemma post_cfl1 l : post (decode_constrained_from_field_list (Some l) (Some l)) (fun z => z = 0).
Proof.
  unfold decode_constrained_from_field_list, integer_range.
  apply post_bind with (Q := fun u => u = l); [apply post_lift; intros ? [= <-]; reflexivity|]. intros ? ->.
  apply post_bind with (Q := fun u => u = l); [apply post_lift; intros ? [= <-]; reflexivity|]. intros ? ->.
  replace (l - l + 1 <=? 65536) with true by lia. now apply post_cwn1.
Qed.

Lemma post_mk_int c z : post (lift (mk_int c z)) (fun d => d = DVal (VInt z)).
Proof. apply post_lift. unfold mk_int. destruct (ctest c z); congruence. Qed.

Lemma post_int {c} (d : D Z) (Q : Z -> Prop) : post d Q ->
  post (do z <- d; lift (mk_int c z)) (fun o => exists z, o = DVal (VInt z) /\ Q z).
Proof.
  intros H. eapply post_bind; [apply H|]. intros z Hz. eapply post_weaken; [apply post_mk_int|].
  intros o ->. now exists z.
Qed.

(** The first bit of a message that starts with a lone bit. *)
Lemma first_bit {B} (b : bool) fs k p (f : Z -> D B) r :
  at_ p (render 0 (F false [b] :: fs) ++ repeat false k) 0 ->
  (do x <- next_bits 1; f x) p = r -> exists p', f (Z.b2z b) p' = r.
Proof.
  intros H E. rewrite render_bit in H.
  destruct (reads_bit b 0 p [] (render (0 + 1) fs ++ repeat false k) eq_refl) as (p1 & E1 & _).
  { cbn [app] in *. exact H. }
  unfold dbind in E. rewrite E1 in E. now exists p1.
Qed.


(** Without a marker on the whole the number must lie between the end points. *)
Lemma int_exact_iff c z : (cext c = false -> above (clo c) z /\ below z (chi c)) -> ctest c z = true ->
  (survives (TInt c) (VInt z) <-> int_exact c z).
Proof.
  intros Rg T. split.
  - intros S. destruct (survives_elim _ _ S) as (fs & p & k & dv & p' & E & P & Dd & C).
    assert (dv = DVal (VInt z)) as -> by (destruct C as [C|(C & _)]; [exact C|discriminate]). clear C S.
    cbn [enc dec] in E, Dd. unfold encode_integer in E. unfold decode_integer in Dd. unfold int_exact.
    assert (U : forall q r, (do x <- decode_unconstrained_whole_number; lift (mk_int c x)) q = Ok (DVal (VInt z), r) -> sfits 255 z).
    { intros q r X. destruct (post_int _ _ post_unc _ _ _ X) as (? & [= <-] & Y). exact Y. }
    destruct (cext c) eqn:X.
    + unfold chain_le in E. destruct (clo c) as [l|]; cbn [need bind] in E; [|discriminate].
      destruct (Z.leb_spec l z) as [L|L].
      * destruct (chi c) as [h|]; cbn [need bind] in E; [|discriminate].
        destruct (Z.leb_spec z h) as [G|G]; cbn [bind] in E.
        -- rewrite cwn_fields_ok in E by lia. cbn [bind] in E. injection E as <-.
           destruct (first_bit _ _ _ _ _ _ P Dd) as (q & Dq). clear Dd. cbn [Z.b2z Z.eqb negb] in Dq.
           left. split; [lia|]. split.
           ++ destruct (Z.le_gt_cases (Z.of_nat (noct (h - l))) 65536) as [N|N]; [apply noct_ufits; lia|].
              assert (Nu : ~ ufits 65536 (h - l)) by (intros Y; apply noct_ufits in Y; lia).
              destruct (post_int _ _ (post_cfl l h ltac:(lia) Nu) _ _ _ Dq) as (? & _ & []).
           ++ intros <-. destruct (post_int _ _ (post_cfl1 l) _ _ _ Dq) as (? & [= <-] & Y). lia.
        -- destruct (create_field_list_for_unconstrained_whole_number z) as [gs|]; [|discriminate]. cbn [bind] in E.
           injection E as <-. destruct (first_bit _ _ _ _ _ _ P Dd) as (q & Dq). clear Dd. cbn [Z.b2z Z.eqb negb] in Dq.
           right. split; [lia|]. eapply U; exact Dq.
      * cbn [bind] in E.
        destruct (create_field_list_for_unconstrained_whole_number z) as [gs|]; [|discriminate]. cbn [bind] in E.
        injection E as <-. destruct (first_bit _ _ _ _ _ _ P Dd) as (q & Dq). clear Dd. cbn [Z.b2z Z.eqb negb] in Dq.
        destruct (chi c) as [h|]; [right; split; [lia|]|split; [lia|]]; eapply U; exact Dq.
    + destruct (Rg eq_refl) as (A & B). destruct (clo c) as [l|].
      * cbn [above] in A. destruct (chi c) as [h|]; cbn [below] in B.
        -- destruct (Z.eqb_spec l h) as [->|N].
           ++ unfold ufits. replace (h - h) with 0 by lia. split; [lia|]. apply Z.pow_pos_nonneg; lia.
           ++ destruct (Z.le_gt_cases (Z.of_nat (noct (h - l))) 65536) as [M|M]; [apply noct_ufits; lia|].
              assert (Nu : ~ ufits 65536 (h - l)) by (intros Y; apply noct_ufits in Y; lia).
              destruct (post_int _ _ (post_cfl l h ltac:(lia) Nu) _ _ _ Dd) as (? & _ & []).
        -- destruct (post_int _ _ (post_semi l) _ _ _ Dd) as (? & [= <-] & Y). exact Y.
      * eapply U. destruct (chi c); exact Dd.
  - intros X. destruct (encode_integer c z) as [fs|e] eqn:E.
    + assert (Ok' : int_ok c z).
      { unfold int_exact in X. unfold int_ok. split; [exact T|]. unfold inside.
        destruct (cext c) eqn:Ex.
        - destruct (clo c) as [l|]; [|destruct X]. destruct (chi c) as [h|].
          + destruct X as [(X1 & X2 & X3)|(X1 & X2)].
            * replace ((l <=? z) && (z <=? h)) with true by lia. split; [exact X2|]. intros _. exact X3.
            * replace ((l <=? z) && (z <=? h)) with false by lia. split; [reflexivity|exact X2].
          + destruct X as (_ & X). exact X.
        - destruct (Rg eq_refl) as (A & B).
          destruct (clo c) as [l|]; [|split; [reflexivity|exact X]].
          destruct (chi c) as [h|]; [|exact X]. cbn [above below] in A, B.
          replace ((l <=? z) && (z <=? h)) with true by lia. split; [exact X|discriminate]. }
      eapply survives_intro; [reflexivity|exact E| |].
      * intros p k _ P. destruct (int_rt c z fs Ok' E) as (dv & Cv & R).
        assert (dv = DVal (VInt z)) as -> by (destruct dv; [cbn [cast] in Cv; congruence|discriminate]).
        destruct (R 0%nat p [] (repeat false k) eq_refl P) as (p' & G & _). exists p'. exact G.
      * left. split; reflexivity.
    + exfalso. unfold encode_integer in E. unfold int_exact in X. destruct (cext c) eqn:Ex.
      * unfold chain_le in E. destruct (clo c) as [l|]; [|exact X]. cbn [need bind] in E.
        destruct (Z.leb_spec l z) as [L|L].
        -- destruct (chi c) as [h|]; [|destruct X; lia]. cbn [need bind] in E.
           destruct (Z.leb_spec z h) as [G|G]; cbn [bind] in E.
           ++ rewrite cwn_fields_ok in E by lia. discriminate.
           ++ destruct X as [X|(_ & X)]; [lia|]. apply toct_sfits in X; [|lia].
              rewrite unconstrained_ok in E by lia. discriminate.
        -- cbn [bind] in E.
           assert (Y : sfits 255 z) by (destruct (chi c); [destruct X as [X|(_ & X)]; [lia|exact X]|apply X]).
           apply toct_sfits in Y; [|lia]. rewrite unconstrained_ok in E by lia. discriminate.
      * destruct (Rg eq_refl) as (A & B). destruct (clo c) as [l|].
        -- destruct (chi c) as [h|]; cbn [above below] in A, B.
           ++ rewrite cwn_fields_ok in E by lia. discriminate.
           ++ apply noct_ufits in X; [|lia..].
              unfold encode_semi_constrained_whole_number in E. rewrite min_octets_ok in E by lia. cbn [bind fbits] in E.
              rewrite octets_of_to_bits, length_unconstrained_ok in E by lia. discriminate.
        -- apply toct_sfits in X; [|lia]. destruct (chi c); rewrite unconstrained_ok in E by lia; discriminate.
Qed.

Theorem C01_exact : forall c z, regular c -> ctest c z = true ->
  (survives (TInt c) (VInt z) <-> int_exact c z).
Proof. intros c z Rg T. apply int_exact_iff; [|exact T]. intros X. exact (regular_ends c z Rg T X). Qed.

(** * Strings: inside and outside of the root *)

Definition rooted (c : constr) (n : Z) : Prop :=
  cext c = false \/ exists l h, clo c = Some l /\ chi c = Some h /\ l <= n <= h.

Definition outside (c : constr) (n : Z) : Prop :=
  cext c = true /\ exists l, clo c = Some l /\ (n < l \/ exists h, chi c = Some h /\ h < n).

(** Sizes start at 0 or above. *)
Definition sizes (c : constr) : Prop := forall l, clo c = Some l -> 0 <= l.

Lemma chain_true c n : chain_le (clo c) n (chi c) = Ok true -> exists l h, clo c = Some l /\ chi c = Some h /\ l <= n <= h.
Proof.
  unfold chain_le. destruct (clo c) as [l|]; [|discriminate]. cbn [need bind].
  destruct (Z.leb_spec l n); [|discriminate]. destruct (chi c) as [h|]; [|discriminate]. cbn [need bind].
  intros E. apply ok_inj in E. exists l, h. repeat split; try lia.
Qed.

Lemma chain_false c n : chain_le (clo c) n (chi c) = Ok false -> exists l, clo c = Some l /\ (n < l \/ exists h, chi c = Some h /\ h < n).
Proof.
  unfold chain_le. destruct (clo c) as [l|]; [|discriminate]. cbn [need bind].
  destruct (Z.leb_spec l n); [|intros _; exists l; split; [reflexivity|left; lia]].
  destruct (chi c) as [h|]; [|discriminate]. cbn [need bind].
  intros E. apply ok_inj in E. exists l. split; [reflexivity|]. right. exists h. split; [reflexivity|lia].
Qed.

Lemma rooted_chain c n : cext c = true -> rooted c n -> chain_le (clo c) n (chi c) = Ok true.
Proof.
  intros X [Y|(l & h & L & U & B)]; [congruence|]. unfold chain_le. rewrite L, U. cbn [need bind].
  replace (l <=? n) with true by lia. f_equal. lia.
Qed.

Lemma outside_chain c n : outside c n -> chain_le (clo c) n (chi c) = Ok false.
Proof.
  intros (X & l & L & B). unfold chain_le. rewrite L. cbn [need bind]. destruct (Z.leb_spec l n); [|reflexivity].
  destruct B as [B|(h & U & B)]; [lia|]. rewrite U. cbn [need bind]. f_equal. lia.
Qed.

(** * BIT STRING *)

Definition bits_exact (c : constr) (s : bits) : Prop :=
  let n := zlen s in
  match s with
  | [] => cext c = false /\ chi c = Some 0
  | _ =>
      (rooted c n /\
       match chi c with
       | None => n < 16384
       | Some h => h <> 0 /\ if 65536 <=? h then n < 16384 else clo c <> None
       end) \/
      (outside c n /\ n < 16384)
  end.

Lemma bin_zfill_length v n s : 0 <= n -> 0 <= v < 2 ^ n -> bin_zfill v n = Ok s -> s <> [] /\ zlen s <= Z.max n 1.
Proof.
  intros N V E. unfold bin_zfill in E. rewrite py_bin_ok in E by lia. cbn [bind] in E. apply ok_inj in E. subst s.
  assert (L : (bin_len v <= Nat.max (Z.to_nat n) 1)%nat).
  { apply bin_len_lt; [lia..|]. eapply Z.lt_le_trans; [apply V|]. apply Z.pow_le_mono_r; lia. }
  pose proof (bin_len_pos v). pose proof (zfill_length (Z.to_nat n) (to_bits (bin_len v) v)) as Z.
  rewrite to_bits_length in Z. split.
  - intros C. rewrite C in Z. cbn [List.length] in Z. lia.
  - unfold zlen. rewrite Z. lia.
Qed.

Definition bits_seen (c : constr) (o : dval) : Prop :=
  match o with
  | DEmpty => chi c = Some 0
  | DVal (VBits s) =>
      s <> [] /\
      match chi c with
      | None => zlen s < 16384
      | Some h => h <> 0 /\ if 65536 <=? h then zlen s < 16384 else clo c <> None
      end
  | _ => False
  end.

Lemma post_mk_bits c s : post (lift (mk_bits c s)) (fun d => d = DVal (VBits s)).
Proof. apply post_lift. unfold mk_bits. destruct (ctest c (zlen s)); congruence. Qed.

Lemma post_bits_tail c sz al n (Q : dval -> Prop) : 0 <= n -> Z.of_nat (8 * fst sz + snd sz) = n ->
  (forall s, s <> [] -> zlen s <= Z.max n 1 -> Q (DVal (VBits s))) ->
  post (do v <- per_next sz al; do s <- lift (bin_zfill v n); lift (mk_bits c s)) Q.
Proof.
  intros N E H. eapply post_bind; [apply post_next|]. intros v V. cbn beta in V. rewrite E in V.
  apply post_bind with (Q := fun s => s <> [] /\ zlen s <= Z.max n 1).
  - apply post_lift. intros s X. apply bin_zfill_length in X; [exact X|lia|exact V].
  - intros s (S1 & S2). eapply post_weaken; [apply post_mk_bits|]. intros o ->. now apply H.
Qed.

Lemma post_bits_after c : sizes c -> post (dec_bits_after c) (bits_seen c).
Proof.
  intros Sz. unfold dec_bits_after. destruct (opt_is (chi c) 0) eqn:Z0.
  { apply post_ret. cbn [bits_seen]. destruct (chi c) as [h|]; [|discriminate]. cbn [opt_is] in Z0. f_equal. lia. }
  assert (H0 : forall h, chi c = Some h -> h <> 0).
  { intros h E. rewrite E in Z0. cbn [opt_is] in Z0. lia. }
  destruct (some_eq (clo c) (chi c)) eqn:Sq.
  - destruct (clo c) as [l|] eqn:L; [|discriminate]. destruct (chi c) as [h|] eqn:U; [|discriminate].
    cbn [some_eq] in Sq. assert (l = h) by lia. subst h. specialize (H0 l eq_refl). pose proof (Sz l L).
    apply post_bind with (Q := fun u => u = l); [apply post_lift; intros ? [= <-]; reflexivity|]. intros ? ->.
    destruct (Z.leb_spec l 16).
    + apply post_bits_tail; [lia|cbn [fst snd]; lia|]. intros s S1 S2. cbn [bits_seen].
      split; [exact S1|]. rewrite U, L. split; [exact H0|]. replace (65536 <=? l) with false by lia. discriminate.
    + destruct ((16 <? l) && (l <? 65536)) eqn:X; [|apply post_fail].
      apply post_bind'. intros _. eapply post_bind; [apply post_next|]. intros v V. cbn [fst snd] in V.
      replace (Z.of_nat (8 * 0 + Z.to_nat l)) with l in V by lia.
      apply post_bind with (Q := fun s => l <= zlen s).
      { apply post_lift. intros s E. unfold bin_zfill in E. rewrite py_bin_ok in E by lia. cbn [bind] in E.
        apply ok_inj in E. subst s. unfold zlen. rewrite zfill_length. lia. }
      intros s S1. cbn beta in S1. eapply post_weaken; [apply post_mk_bits|]. intros o ->. cbn [bits_seen]. split.
      * intros C. apply (f_equal (@List.length _)) in C. rewrite firstn_length in C. unfold zlen in S1.
        cbn [List.length] in C. lia.
      * rewrite U, L. split; [exact H0|]. replace (65536 <=? l) with false by lia. discriminate.
  - assert (Fin : forall s n, s <> [] -> zlen s <= Z.max n 1 -> 0 <= n < 16384 ->
      (forall h, chi c = Some h -> 65536 <= h) -> bits_seen c (DVal (VBits s))).
    { intros s n S1 S2 Hn Hh. cbn [bits_seen]. split; [exact S1|]. destruct (chi c) as [h|].
      - split; [apply H0; reflexivity|]. specialize (Hh h eq_refl). replace (65536 <=? h) with true by lia. lia.
      - lia. }
    destruct (truthy (chi c) && lt65536 (chi c)) eqn:Tr.
    + destruct (chi c) as [h|] eqn:U; [|discriminate]. cbn [truthy lt65536] in Tr. unfold dec_length_constrained.
      apply post_bind with (Q := fun n => clo c <> None).
      { apply post_bind'. intros u. apply post_bind with (Q := fun _ => clo c <> None); [|intros ? E; now apply post_weaken with (Q := fun _ => True); [apply post_any|]].
        apply post_lift. intros a E. destruct (clo c); [discriminate|]. discriminate. }
      intros n Hc. cbn beta in Hc. destruct (Z.le_gt_cases 0 n) as [Hn|Hn].
      * apply post_bits_tail; [lia|cbn [fst snd]; lia|]. intros s S1 S2. cbn [bits_seen]. split; [exact S1|].
        rewrite U. split; [apply H0; reflexivity|]. replace (65536 <=? h) with false by lia. exact Hc.
      * apply post_bind'. intros v. apply post_bind with (Q := fun s => s <> []).
        { apply post_lift. intros s E. unfold bin_zfill in E. destruct (py_bin v) as [w|] eqn:W; [|discriminate].
          cbn [bind] in E. apply ok_inj in E. subst s. apply py_bin_inv in W as (_ & ->). intros C.
          apply (f_equal (@List.length _)) in C. rewrite zfill_length, to_bits_length in C.
          pose proof (bin_len_pos v). cbn [List.length] in C. lia. }
        intros s S1. cbn beta in S1. eapply post_weaken; [apply post_mk_bits|]. intros o ->. cbn [bits_seen].
        split; [exact S1|]. rewrite U. split; [apply H0; reflexivity|]. replace (65536 <=? h) with false by lia. exact Hc.
    + eapply post_bind; [apply post_len|]. intros n Hn. cbn beta in Hn.
      apply post_bits_tail; [lia|cbn [fst snd]; lia|]. intros s S1 S2. apply (Fin s n); auto.
      intros h U. rewrite U in Tr. cbn [truthy lt65536] in Tr. specialize (H0 h U). lia.
Qed.

Lemma from_empty_bits c v : from_empty (TBits c) = Ok v -> v = VBits [].
Proof. cbn [from_empty cast]. destruct (ctest c 0); congruence. Qed.

(** What a decoding step gives at the start of a message, whatever follows. *)
Definition gets {A} (d : D A) (pos : nat) (w : bits) (a : A) : Prop :=
  forall p pre rest, len pre = pos -> at_ p (pre ++ w ++ rest) pos -> exists p', d p = Ok (a, p').

Lemma reads_gets {A} (d : D A) pos w a : reads d pos w a -> gets d pos w a.
Proof. intros H p pre rest L P. destruct (H p pre rest L P) as (p' & E & _). now exists p'. Qed.

Lemma gets_bind {A B} (d : D A) (k : A -> D B) pos w1 w2 a b :
  reads d pos w1 a -> gets (k a) (pos + len w1) w2 b -> gets (dbind d k) pos (w1 ++ w2) b.
Proof.
  intros H1 H2 p pre rest HL Hp. rewrite <- app_assoc in Hp.
  destruct (H1 p pre (w2 ++ rest) HL Hp) as (p1 & E1 & A1).
  specialize (H2 p1 (pre ++ w1) rest). rewrite <- app_assoc in H2.
  destruct H2 as (p2 & E2); auto.
  { rewrite app_length. lia. }
  exists p2. unfold dbind. now rewrite E1.
Qed.

Lemma gets_bind_r {A B} (d : D A) (k : A -> D B) pos w a b :
  reads d pos w a -> gets (k a) (pos + len w) [] b -> gets (dbind d k) pos w b.
Proof. intros H1 H2. rewrite <- (app_nil_r w). eapply gets_bind; eauto. Qed.

Lemma gets_align {B} (k : Z -> D B) pos w b : (forall p, exists p', k 0 p = Ok (b, p')) ->
  gets (dbind align k) pos w b.
Proof.
  intros H p pre rest L P. pose proof (per_next_spec p _ pos (0, 0)%nat true P) as N. cbn in N.
  destruct N as (p1 & E & _). unfold dbind, align. rewrite E. change (bval [false]) with 0. apply H.
Qed.

Theorem C03_exact : forall c s, regular c -> sizes c -> ctest c (zlen s) = true ->
  (survives (TBits c) (VBits s) <-> bits_exact c s).
Proof.
  intros c s Rg Sz T. split.
  - intros S. destruct (survives_elim _ _ S) as (fs & p & k & dv & p' & E & P & Dd & C).
    cbn [enc dec] in E, Dd. rewrite encode_bits_eq in E. rewrite decode_bits_eq in Dd. cbv zeta in E.
    assert (Ext : forall q r,
      (do _ <- align; do n <- dec_length_unconstrained; do v <- next_bits (Z.to_nat n);
       do _ <- align; do s <- lift (bin_zfill v n); lift (mk_bits c s)) q = Ok (dv, r) ->
      exists u, dv = DVal (VBits u) /\ u <> [] /\ zlen u < 16384).
    { intros q r X. revert q dv r X Dd C.
      match goal with |- forall q dv r, ?d q = Ok (dv, r) -> _ => assert (Po : post d (fun dv => exists u, dv = DVal (VBits u) /\ u <> [] /\ zlen u < 16384)) end.
      { apply post_bind'. intros _. eapply post_bind; [apply post_len|]. intros n Hn. cbn beta in Hn.
        eapply post_bind; [apply post_next|]. intros v V. cbn [fst snd] in V.
        replace (Z.of_nat (8 * 0 + Z.to_nat n)) with n in V by lia. apply post_bind'. intros _.
        apply post_bind with (Q := fun s => s <> [] /\ zlen s <= Z.max n 1).
        - apply post_lift. intros u X. apply bin_zfill_length in X; [exact X|lia|exact V].
        - intros u (S1 & S2). eapply post_weaken; [apply post_mk_bits|]. intros o ->. exists u. repeat split; [exact S1|lia]. }
      intros q dv' r X _ _. apply (Po q dv' r X). }
    assert (Cv : (s = [] /\ dv = DEmpty) \/ dv = DVal (VBits s)).
    { destruct C as [->|(F & [->|(u & -> & Y)])]; [right; reflexivity| |].
      - apply from_empty_bits in F. injection F as ->. left. split; reflexivity.
      - apply from_empty_bits in F. injection F as ->. right. f_equal.
        assert (Pu : match u with VBits _ => True | VChoice _ => False | _ => True end).
        { destruct u; try exact Logic.I. exfalso. destruct (cext c).
          - destruct (chain_le (clo c) (zlen (as_binary [])) (chi c)) as [[|]|]; [| |discriminate]; cbn [bind] in E.
            + destruct (bits_after c (as_binary [])) as [[l|]|] eqn:Bx; [| |discriminate]; cbn [bind fill] in E.
              * apply ok_inj in E. subst fs. destruct (first_bit _ _ _ _ _ _ P Dd) as (q & Dq).
                cbn [Z.b2z Z.eqb] in Dq. apply (post_bits_after c Sz _ _ _ Dq).
              * unfold dbind in Dd. destruct (next_bits 1 p) as [(b, p1)|]; [|discriminate].
                destruct (b =? 0); [apply (post_bits_after c Sz _ _ _ Dd)|].
                destruct (Ext _ _ Dd) as (? & ? & _). discriminate.
            + destruct (length_unconstrained _) as [d|]; [|discriminate]. cbn [bind fill] in E. apply ok_inj in E. subst fs.
              destruct (first_bit _ _ _ _ _ _ P Dd) as (q & Dq). cbn [Z.b2z Z.eqb] in Dq.
              destruct (Ext _ _ Dq) as (? & ? & _). discriminate.
          - apply (post_bits_after c Sz _ _ _ Dd). }
        destruct u as [| | | |[|]| | | |]; try discriminate; [reflexivity|destruct Pu]. }
    clear C. unfold bits_exact. cbv zeta. destruct s as [|b s].
    + cbn [as_binary] in E. change (zlen [false]) with 1 in E. destruct (cext c) eqn:X.
      * exfalso. destruct (chain_le (clo c) 1 (chi c)) as [[|]|] eqn:Ch; [| |discriminate]; cbn [bind] in E.
        -- destruct (bits_after c [false]) as [o|] eqn:Bx; [|discriminate]. cbn [bind] in E.
           destruct (chain_true _ _ Ch) as (l & h & L & U & B).
           destruct o as [g|]; cbn [fill bind] in E; apply ok_inj in E; subst fs.
           ++ destruct (first_bit _ _ _ _ _ _ P Dd) as (q & Dq). cbn [Z.b2z Z.eqb] in Dq.
              pose proof (post_bits_after c Sz _ _ _ Dq) as Q. destruct Cv as [(_ & ->)| ->]; cbn [bits_seen] in Q.
              ** rewrite U in Q. injection Q as ->. lia.
              ** destruct Q as (Q & _). congruence.
           ++ unfold bits_after in Bx. rewrite U in Bx. cbn [opt_is] in Bx.
              destruct (Z.eqb_spec h 0); [lia|]. destruct (some_eq _ _); [discriminate|].
              destruct (_ && _); [destruct (length_constrained _ _ _); discriminate|].
              destruct (length_unconstrained _); discriminate.
        -- destruct (length_unconstrained 1) as [d|]; [|discriminate]. cbn [bind fill] in E. apply ok_inj in E. subst fs.
           destruct (first_bit _ _ _ _ _ _ P Dd) as (q & Dq). cbn [Z.b2z Z.eqb] in Dq.
           destruct (Ext _ _ Dq) as (u & Y1 & Y2 & _). destruct Cv as [(_ & ->)| ->]; [discriminate|].
           injection Y1 as <-. congruence.
      * split; [reflexivity|]. pose proof (post_bits_after c Sz _ _ _ Dd) as Q.
        destruct Cv as [(_ & ->)| ->]; cbn [bits_seen] in Q; [exact Q|]. destruct Q as (Q & _). congruence.
    + rewrite as_binary_id in E by discriminate. set (s' := b :: s) in *.
      destruct Cv as [(C & _)| ->]; [discriminate|]. destruct (cext c) eqn:X.
      * destruct (chain_le (clo c) (zlen s') (chi c)) as [[|]|] eqn:Ch; [| |discriminate]; cbn [bind] in E.
        -- left. destruct (chain_true _ _ Ch) as (l & h & L & U & B). split; [right; exists l, h; auto|].
           destruct (bits_after c s') as [o|] eqn:Bx; [|discriminate]. cbn [bind] in E.
           destruct o as [g|]; cbn [fill bind] in E; apply ok_inj in E; subst fs.
           ++ destruct (first_bit _ _ _ _ _ _ P Dd) as (q & Dq). cbn [Z.b2z Z.eqb] in Dq.
              pose proof (post_bits_after c Sz _ _ _ Dq) as Q. cbn [bits_seen] in Q. apply Q.
           ++ unfold bits_after in Bx. rewrite U in Bx. cbn [opt_is] in Bx.
              destruct (Z.eqb_spec h 0) as [Eh|]; [unfold s', zlen in B; cbn [List.length] in B; lia|].
              destruct (some_eq _ _).
              { destruct (zlen s' <=? 16); [discriminate|]. destruct (_ && _); discriminate. }
              destruct (_ && _); [destruct (length_constrained _ _ _); discriminate|].
              destruct (length_unconstrained _); discriminate.
        -- right. destruct (length_unconstrained (zlen s')) as [d|]; [|discriminate]. cbn [bind fill] in E. apply ok_inj in E. subst fs.
           destruct (first_bit _ _ _ _ _ _ P Dd) as (q & Dq). cbn [Z.b2z Z.eqb] in Dq.
           destruct (Ext _ _ Dq) as (u & Y1 & _ & Y2). injection Y1 as <-.
           split; [|exact Y2]. split; [exact X|]. apply chain_false, Ch.
      * left. split; [left; exact X|]. pose proof (post_bits_after c Sz _ _ _ Dd) as Q. cbn [bits_seen] in Q. apply Q.
  - intros X.
    assert (Root : s <> [] -> rooted c (zlen s) -> match chi c with
       | None => zlen s < 16384
       | Some h => h <> 0 /\ if 65536 <=? h then zlen s < 16384 else clo c <> None
       end -> exists l, bits_after c s = Ok (Some l) /\
         forall pos, reads (dec_bits_after c) pos (render pos l) (DVal (VBits s))).
    { intros Hn Ro Y. pose proof (zlen_pos s Hn).
      assert (Ends : above (clo c) (zlen s) /\ below (zlen s) (chi c)).
      { destruct Ro as [Ro|(l & h & L & U & B)]; [now apply regular_ends|]. rewrite L, U. cbn [above below]. lia. }
      assert (Ok' : exists o, bits_after c s = Ok o).
      { unfold bits_after. cbv zeta. destruct (chi c) as [h|] eqn:U.
        - destruct Y as (Y0 & Y). cbn [opt_is below] in *. destruct (Z.eqb_spec h 0); [congruence|].
          destruct (clo c) as [l|] eqn:L; cbn [some_eq truthy lt65536 above] in *.
          + destruct (Z.eqb_spec l h) as [->|].
            * destruct (Z.leb_spec 65536 h); [lia|]. destruct (Z.leb_spec (zlen s) 16); [eexists; reflexivity|].
              replace ((16 <? zlen s) && (zlen s <? 65536)) with true by lia. eexists; reflexivity.
            * destruct (Z.leb_spec 65536 h).
              -- replace (negb (h =? 0) && (h <? 65536)) with false by lia. rewrite length_unconstrained_ok by lia. eexists; reflexivity.
              -- replace (negb (h =? 0) && (h <? 65536)) with true by lia. rewrite length_constrained_ok by lia. eexists; reflexivity.
          + destruct (Z.leb_spec 65536 h); [|congruence].
            replace (negb (h =? 0) && (h <? 65536)) with false by lia. rewrite length_unconstrained_ok by lia. eexists; reflexivity.
        - cbn [opt_is truthy andb]. replace (some_eq (clo c) None) with false by (destruct (clo c); reflexivity).
          rewrite length_unconstrained_ok by lia. eexists; reflexivity. }
      destruct Ok' as (o & Eo). destruct (bits_after_rt c s o T) as (l & -> & R); [|exact Eo|exists l; split; [exact Eo|exact R]].
      destruct (chi c) as [h|].
      - destruct Y as (Y0 & Y). cbn [below] in Ends.
        destruct (clo c) as [l|] eqn:L; cbn [above] in Ends.
        + pose proof (Sz l L).
          assert (G : s <> [] /\ 0 <= l <= zlen s /\ zlen s <= h /\ (65536 <= h -> zlen s < 16384)).
          { repeat split; try lia; [exact Hn|]. destruct (Z.leb_spec 65536 h); lia. }
          destruct h; [congruence|exact G|exact G].
        + destruct (Z.leb_spec 65536 h); [|congruence].
          assert (G : s <> [] /\ zlen s <= h /\ 65536 <= h /\ zlen s < 16384) by (repeat split; try lia; exact Hn).
          destruct h; [congruence|exact G|exact G].
      - destruct (clo c); split; auto. }
    unfold bits_exact in X. cbv zeta in X. destruct s as [|b s].
    + destruct X as (X & U).
      assert (Be : bits_ok c []).
      { unfold bits_ok. cbv zeta. split; [exact T|]. rewrite X. cbn [andb]. rewrite U. destruct (clo c); auto. }
      assert (Ee : enc (TBits c) (VBits []) = Ok []).
      { cbn [enc]. rewrite encode_bits_eq. cbv zeta. rewrite X. unfold bits_after. rewrite U. reflexivity. }
      eapply survives_intro with (dv := DEmpty); [reflexivity|exact Ee| |].
      * intros p k _ P. cbn [dec]. rewrite decode_bits_eq, X. unfold dec_bits_after. rewrite U. cbn [opt_is Z.eqb].
        exists p. reflexivity.
      * right. split; [|left; reflexivity]. cbn [from_empty cast]. change (zlen (@nil bool)) with 0 in T. now rewrite T.
    + set (s' := b :: s) in *. assert (Hn : s' <> []) by discriminate. pose proof (zlen_pos s' Hn).
      destruct X as [(Ro & Y)|(Ou & Y)].
      * destruct (Root Hn Ro Y) as (l & Bx & R). destruct (cext c) eqn:Ex.
        -- eapply survives_intro with (dv := DVal (VBits s')) (fs := F false [false] :: l); [reflexivity| | |left; split; reflexivity].
           ++ cbn [enc]. rewrite encode_bits_eq. cbv zeta. rewrite as_binary_id, Ex by exact Hn.
              rewrite rooted_chain by assumption. cbn [bind]. rewrite Bx. reflexivity.
           ++ intros p k _ P. cbn [dec]. rewrite decode_bits_eq, Ex. rewrite render_bit in P.
              assert (G : reads (do b <- next_bits 1; if b =? 0 then dec_bits_after c else
                 do _ <- align; do n <- dec_length_unconstrained; do v <- next_bits (Z.to_nat n);
                 do _ <- align; do s <- lift (bin_zfill v n); lift (mk_bits c s)) 0 ([false] ++ render (0 + 1) l) (DVal (VBits s'))).
              { eapply reads_bind; [apply reads_bit|]. cbn [Z.b2z Z.eqb List.length]. apply R. }
              destruct (G p [] (repeat false k) eq_refl P) as (p' & G' & _). exists p'. exact G'.
        -- eapply survives_intro with (dv := DVal (VBits s')) (fs := l); [reflexivity| | |left; split; reflexivity].
           ++ cbn [enc]. rewrite encode_bits_eq. cbv zeta. rewrite as_binary_id, Ex by exact Hn. rewrite Bx. reflexivity.
           ++ intros p k _ P. cbn [dec]. rewrite decode_bits_eq, Ex.
              destruct (R 0%nat p [] (repeat false k) eq_refl P) as (p' & G' & _). exists p'. exact G'.
      * pose proof (outside_chain _ _ Ou) as Ch. destruct Ou as (Ex & _).
        eapply survives_intro with (dv := DVal (VBits s')) (fs := F false [true] :: [len_field (zlen s')] ++ [F true s']);
          [reflexivity| | |left; split; reflexivity].
        -- cbn [enc]. rewrite encode_bits_eq. cbv zeta. rewrite as_binary_id, Ex, Ch by exact Hn. cbn [bind].
           rewrite length_unconstrained_ok by lia. reflexivity.
        -- intros p k _ P. cbn [dec]. rewrite decode_bits_eq, Ex. rewrite render_bit in P.
           match goal with |- exists p', ?d p = _ => assert (G : gets d 0 ([true] ++ render (0 + 1) ([len_field (zlen s')] ++ [F true s'])) (DVal (VBits s'))) end.
           { eapply gets_bind; [apply reads_bit|]. cbn [Z.b2z Z.eqb List.length app].
             rewrite render_aligned by apply len_field_align.
             eapply gets_bind; [apply reads_align|]. rewrite up8_pad. rewrite render_cons2.
             eapply gets_bind; [apply reads_len; lia|].
             rewrite render_true_one by apply render_len_mod8.
             eapply gets_bind_r; [apply reads_bits; exact Hn|].
             apply gets_align. intros q. exists q. unfold dbind, lift. rewrite bin_zfill_bits by exact Hn.
             rewrite mk_bits_ok by exact T. reflexivity. }
           destruct (G p [] (repeat false k) eq_refl P) as (p' & G'). exists p'. exact G'.
Qed.

(** * OCTET STRING *)

Definition octs_exact (c : constr) (bs : list Z) : Prop :=
  let n := zlen bs in
  (rooted c n /\
   match chi c with
   | None => 1 <= n < 16384
   | Some h =>
       h = 0 \/
       exists l, clo c = Some l /\
         ((l = h /\ n < 65536) \/ (l <> h /\ h - l < 65536 /\ digits_kept bs))
   end) \/
  (outside c n /\ n < 16384).

Lemma from_hex_even h : Forall hexdigit h -> forall k, len h = (2 * k)%nat -> hexlify (from_hex_string h) = h.
Proof.
  intros Hh k. revert h Hh. induction k as [|k IH]; intros h Hh L.
  - destruct h; [reflexivity|cbn [List.length] in L; lia].
  - destruct h as [|a [|b h]]; cbn [List.length] in L; try lia. cbn [from_hex_string hexlify].
    inversion Hh as [|? ? Ha Hh']; subst. inversion Hh' as [|? ? Hb Hh2]; subst. unfold hexdigit in *.
    rewrite IH by (auto; lia). f_equal; [|f_equal]; lia.
Qed.

Lemma from_hex_odd h : Forall hexdigit h -> forall k, len h = (2 * k + 1)%nat ->
  hexlify (from_hex_string h) = h ++ [0].
Proof.
  intros Hh k. revert h Hh. induction k as [|k IH]; intros h Hh L.
  - destruct h as [|a [|b h]]; cbn [List.length] in L; try lia. inversion Hh as [|? ? Ha Hh']; subst. unfold hexdigit in *.
    cbn [from_hex_string hexlify app]. f_equal; [|f_equal]; lia.
  - destruct h as [|a [|b h]]; cbn [List.length] in L; try lia. cbn [from_hex_string hexlify app].
    inversion Hh as [|? ? Ha Hh']; subst. inversion Hh' as [|? ? Hb Hh2]; subst. unfold hexdigit in *.
    rewrite IH by (auto; lia). f_equal; [|f_equal]; lia.
Qed.

Lemma hexlify_length bs : len (hexlify bs) = (2 * len bs)%nat.
Proof. induction bs as [|b bs IH]; [reflexivity|]. cbn [hexlify List.length]. lia. Qed.

(** Printing the number of an octet string without its leading zeros and reading
    the digits back. *)
Lemma digits_back bs h : Forall octet bs -> bs <> [] -> py_hex (bval (obits bs)) = Ok h ->
  (from_hex_string h = bs <-> digits_kept bs).
Proof.
  intros Ho Hn E. destruct bs as [|b bs]; [congruence|]. clear Hn. split.
  - intros F. destruct (Z.le_gt_cases 16 b) as [|Lo]; [destruct bs; cbn [digits_kept]; auto|].
    destruct (py_hex_spec (bval (obits (b :: bs)))) as (h' & E' & Hh & HV & H1 & HL); [apply bval_range|].
    rewrite E in E'. apply ok_inj in E'. subst h'.
    assert (V : bval (obits (b :: bs)) < 16 ^ Z.of_nat (2 * len bs + 1)).
    { inversion Ho as [|? ? Hb Hbs]; subst. unfold octet in Hb.
      rewrite obits_cons, bval_app, bval_to_bits, obits_length by (change (2 ^ Z.of_nat 8) with 256; lia).
      pose proof (bval_range (obits bs)) as Rb. rewrite obits_length in Rb.
      replace (16 ^ Z.of_nat (2 * len bs + 1)) with (16 * 2 ^ Z.of_nat (8 * len bs)); [nia|].
      change 16 with (2 ^ 4) at 2. rewrite <- Z.pow_mul_r by lia.
      change 16 with (2 ^ 4). rewrite <- Z.pow_add_r by lia. f_equal. lia. }
    pose proof (HL (2 * len bs + 1)%nat ltac:(lia) V) as Lh.
    pose proof (hexlify_spec _ Ho) as (A & B & C). rewrite <- F in B, C at 1.
    destruct (Nat.Even_or_Odd (len h)) as [(k & K)|(k & K)].
    + rewrite (from_hex_even h Hh k K), F in B. cbn [List.length] in B. lia.
    + rewrite (from_hex_odd h Hh k K) in B, C. rewrite hval_app in C. change (16 ^ Z.of_nat (len [0])) with 16 in C.
      change (hval [0]) with 0 in C. assert (Zv : bval (obits (b :: bs)) = 0) by lia.
      rewrite Zv in E. cbn [py_hex] in E. apply ok_inj in E. subst h. cbn [from_hex_string] in F.
      injection F as <- <-. cbn [digits_kept]. left. reflexivity.
  - intros K. destruct (Z.le_gt_cases 16 b) as [Hi|Lo].
    + rewrite py_hex_high in E by assumption. apply ok_inj in E. subst h. apply from_hex_string_hexlify.
    + destruct bs as [|b2 bs]; cbn [digits_kept] in K; [|lia]. destruct K as [->|]; [|lia].
      change (bval (obits [0])) with 0 in E. cbn [py_hex] in E. apply ok_inj in E. subst h. reflexivity.
Qed.

Lemma post_mk_octs c h : post (lift (mk_octs c h)) (fun d => d = DVal (VOcts (from_hex_string h))).
Proof. apply post_lift. unfold mk_octs. intros a. destruct (ctest c _); congruence. Qed.

Lemma from_hex_length h : (2 * len (from_hex_string h) <= len h + 1)%nat.
Proof.
  assert (G : forall n h, (len h <= n)%nat -> (2 * len (from_hex_string h) <= len h + 1)%nat).
  { induction n as [|n IH]; intros g L.
    - destruct g; [cbn; lia|cbn [List.length] in L; lia].
    - destruct g as [|a [|b g]]; [cbn; lia|cbn; lia|]. cbn [from_hex_string List.length] in *.
      specialize (IH g ltac:(lia)). lia. }
  apply (G (len h)). lia.
Qed.

Lemma hex_zfill_length v n h : 0 <= n -> 0 <= v < 2 ^ (8 * n) -> hex_zfill v n = Ok h ->
  1 <= zlen h <= Z.max (2 * n) 1.
Proof.
  intros N V E. unfold hex_zfill in E. destruct (py_hex_spec v) as (g & Eg & _ & _ & H1 & HL); [lia|].
  rewrite Eg in E. cbn [bind] in E. apply ok_inj in E. subst h. unfold zlen, hzfill.
  rewrite app_length, repeat_length.
  assert (len g <= Nat.max (Z.to_nat (2 * n)) 1)%nat; [|lia].
  apply HL; [lia|]. eapply Z.lt_le_trans; [apply V|].
  replace (2 ^ (8 * n)) with (16 ^ (2 * n)).
  - apply Z.pow_le_mono_r; lia.
  - change 16 with (2 ^ 4). rewrite <- Z.pow_mul_r by lia. f_equal. lia.
Qed.

Lemma post_octs_tail c sz al n (Q : dval -> Prop) : 0 <= n -> Z.of_nat (8 * fst sz + snd sz) = 8 * n ->
  (forall bs, bs <> [] -> zlen bs <= Z.max n 1 -> Q (DVal (VOcts bs))) ->
  post (do v <- per_next sz al; do s <- lift (hex_zfill v n); lift (mk_octs c s)) Q.
Proof.
  intros N E H. eapply post_bind; [apply post_next|]. intros v V. cbn beta in V. rewrite E in V.
  apply post_bind with (Q := fun h => 1 <= zlen h <= Z.max (2 * n) 1).
  - apply post_lift. intros s X. apply hex_zfill_length in X; [exact X|lia|exact V].
  - intros h Hh. cbn beta in Hh. eapply post_weaken; [apply post_mk_octs|]. intros o ->. apply H.
    + destruct h as [|a [|b h]]; [unfold zlen in Hh; cbn in Hh; lia|discriminate|discriminate].
    + pose proof (from_hex_length h). unfold zlen in *. lia.
Qed.

Lemma from_empty_octs c v : from_empty (TOcts c) = Ok v -> v = VOcts [].
Proof. cbn [from_empty cast]. destruct (ctest c 0); congruence. Qed.

(** Every answer of the root branch, except for the string of a variable size. *)
Definition octs_seen (c : constr) (o : dval) : Prop :=
  match o with
  | DEmpty => chi c = Some 0
  | DVal (VOcts bs) =>
      match chi c with
      | None => 1 <= zlen bs < 16384
      | Some h => exists l, clo c = Some l /\ (l = h -> l < 65536) /\ (l <> h -> h - l < 65536)
      end
  | _ => False
  end.

Lemma post_octs_after c : sizes c -> (forall h, chi c = Some h -> 0 <= h) -> post (dec_octs_after c) (octs_seen c).
Proof.
  intros Sz Hc. unfold dec_octs_after. destruct (opt_is (chi c) 0) eqn:Z0.
  { apply post_ret. cbn [octs_seen]. destruct (chi c) as [h|]; [|discriminate]. cbn [opt_is] in Z0. f_equal. lia. }
  destruct (some_eq (clo c) (chi c)) eqn:Sq.
  - destruct (clo c) as [l|] eqn:L; [|discriminate]. destruct (chi c) as [h|] eqn:U; [|discriminate].
    cbn [some_eq] in Sq. assert (l = h) by lia. subst h. pose proof (Sz l L).
    apply post_bind with (Q := fun u => u = l); [apply post_lift; intros ? [= <-]; reflexivity|]. intros ? ->.
    destruct (Z.leb_spec l 2).
    + apply post_octs_tail; [lia|cbn [fst snd]; lia|]. intros s S1 S2. cbn [octs_seen]. rewrite U.
      exists l. repeat split; [exact L|lia|lia].
    + destruct ((2 <? l) && (l <? 65536)) eqn:X; [|apply post_fail]. apply post_bind'. intros _.
      apply post_octs_tail; [lia|cbn [fst snd]; lia|]. intros s S1 S2. cbn [octs_seen]. rewrite U.
      exists l. repeat split; [exact L|lia|lia].
  - destruct (truthy (chi c)) eqn:Tr.
    + destruct (chi c) as [h|] eqn:U; [|discriminate]. cbn [truthy] in Tr. unfold dec_length_constrained.
      apply post_bind with (Q := fun n => exists l, clo c = Some l /\ (l = h -> l < 65536) /\ (l <> h -> h - l < 65536)).
      { apply post_bind with (Q := fun u => u = h); [apply post_lift; intros ? [= <-]; reflexivity|]. intros ? ->.
        apply post_bind with (Q := fun u => clo c = Some u); [apply post_lift; intros a; destruct (clo c); cbn [need]; congruence|].
        intros l L. cbn beta in L. rewrite L in Sq. cbn [some_eq] in Sq.
        destruct (Z.le_gt_cases (h - l + 1) 65536) as [Hr|Hr].
        - eapply post_weaken; [apply post_any|]. intros n _. exists l. repeat split; [exact L|lia|lia].
        - eapply post_weaken; [apply post_cwn; lia|]. intros n []. }
      intros n Hn. cbn beta in Hn. destruct (n =? 0).
      * eapply post_weaken; [apply post_mk_octs|]. intros o ->. cbn [octs_seen]. rewrite U. exact Hn.
      * apply post_bind'. intros v. apply post_bind'. intros s. eapply post_weaken; [apply post_mk_octs|].
        intros o ->. cbn [octs_seen]. rewrite U. exact Hn.
    + assert (U : chi c = None).
      { destruct (chi c) as [h|]; [|reflexivity]. cbn [opt_is truthy] in *. lia. }
      apply post_bind'. intros _. eapply post_bind; [apply post_len|]. intros n Hn. cbn beta in Hn.
      apply post_octs_tail; [lia|cbn [fst snd]; lia|]. intros s S1 S2. cbn [octs_seen]. rewrite U.
      pose proof (zlen_pos s S1). lia.
Qed.

Lemma post_octs_ext c : post (do _ <- align; do n <- dec_length_unconstrained;
       if n =? 0 then lift (mk_octs c [])
       else do v <- next_octets (Z.to_nat n); do s <- lift (hex_zfill v n); lift (mk_octs c s))
  (fun o => exists bs, o = DVal (VOcts bs) /\ zlen bs < 16384).
Proof.
  apply post_bind'. intros _. eapply post_bind; [apply post_len|]. intros n Hn. cbn beta in Hn.
  destruct (n =? 0).
  - eapply post_weaken; [apply post_mk_octs|]. intros o ->. exists []. split; [reflexivity|]. unfold zlen. cbn. lia.
  - apply post_octs_tail; [lia|cbn [fst snd]; lia|]. intros s S1 S2. exists s. split; [reflexivity|lia].
Qed.

(** The message of a string of the root, decoded: the outcome is the object
    itself only under [octs_exact]. *)
Lemma octs_variable c l h bs dv : Forall octet bs -> ctest c (zlen bs) = true ->
  clo c = Some l -> chi c = Some h -> l <> h -> h <> 0 -> l <= zlen bs <= h -> h - l < 65536 -> bs <> [] ->
  exists g, octs_after c bs = Ok (Some g) /\ exists e, py_hex (bval (obits bs)) = Ok e /\
  (mk_octs c e = Ok dv -> forall pos, reads (dec_octs_after c) pos (render pos g) dv) /\
  (forall x, mk_octs c e = Err x -> forall p pre rest pos, len pre = pos -> at_ p (pre ++ render pos g ++ rest) pos ->
     dec_octs_after c p = Err x).
Proof.
  intros Ho T L U N N0 B Rr Hn. destruct (py_hex_spec (bval (obits bs))) as (e & E & _); [apply bval_range|].
  unfold octs_after, dec_octs_after. cbv zeta. rewrite L, U. cbn [opt_is some_eq truthy].
  destruct (Z.eqb_spec h 0); [lia|]. destruct (Z.eqb_spec l h); [lia|]. cbn [negb].
  rewrite length_constrained_ok by lia. cbn [bind app]. eexists. split; [reflexivity|]. exists e. split; [exact E|].
  pose proof (zlen_pos bs Hn). split.
  - intros M pos. rewrite render_cons2. eapply reads_bind; [apply reads_len_constrained; lia|].
    destruct (Z.eqb_spec (zlen bs) 0); [lia|]. eapply reads_bind_r; [apply reads_octs_al; exact Hn|].
    eapply reads_bind0; [apply reads_lift; exact E|]. apply reads_lift, M.
  - intros x M p pre rest pos Lp P. rewrite render_cons2, <- app_assoc in P.
    destruct (reads_len_constrained (zlen bs) l h pos B Rr ltac:(lia) p pre _ Lp P) as (p1 & E1 & P1).
    unfold dbind at 1. rewrite E1. destruct (Z.eqb_spec (zlen bs) 0); [lia|].
    pose proof (reads_octs_al bs (pos + len (render pos [cwn_field (zlen bs) l h])) Hn p1
                  (pre ++ render pos [cwn_field (zlen bs) l h]) rest) as R2.
    rewrite <- app_assoc in R2. destruct R2 as (p2 & E2 & _); [rewrite app_length; lia|exact P1|].
    unfold dbind. rewrite E2. unfold lift. rewrite E, M. reflexivity.
Qed.

Lemma first_bit_at {B} (b : bool) fs k p (f : Z -> D B) r :
  at_ p (render 0 (F false [b] :: fs) ++ repeat false k) 0 ->
  (do x <- next_bits 1; f x) p = r ->
  exists p', f (Z.b2z b) p' = r /\ at_ p' ([b] ++ render 1 fs ++ repeat false k) 1.
Proof.
  intros H E. rewrite render_bit in H.
  destruct (reads_bit b 0 p [] (render (0 + 1) fs ++ repeat false k) eq_refl) as (p1 & E1 & A1).
  { cbn [app] in *. exact H. }
  unfold dbind in E. rewrite E1 in E. exists p1. split; [exact E|]. exact A1.
Qed.

Lemma octs_root_neg c bs g q pre rest pos dv p' : Forall octet bs -> ctest c (zlen bs) = true -> sizes c ->
  above (clo c) (zlen bs) -> below (zlen bs) (chi c) ->
  octs_after c bs = Ok (Some g) -> len pre = pos -> at_ q (pre ++ render pos g ++ rest) pos ->
  dec_octs_after c q = Ok (dv, p') -> dv = DVal (VOcts bs) ->
  match chi c with
   | None => 1 <= zlen bs < 16384
   | Some h =>
       h = 0 \/
       exists l, clo c = Some l /\
         ((l = h /\ zlen bs < 65536) \/ (l <> h /\ h - l < 65536 /\ digits_kept bs))
   end.
Proof.
  intros Ho T Sz A B Eg Lp P Dd ->.
  assert (Hc : forall h, chi c = Some h -> 0 <= h).
  { intros h U. rewrite U in B. cbn [below] in B. unfold zlen in B. lia. }
  pose proof (post_octs_after c Sz Hc _ _ _ Dd) as Q. cbn [octs_seen] in Q.
  destruct (chi c) as [h|] eqn:U; [|exact Q]. destruct Q as (l & L & Q1 & Q2). cbn [below] in B.
  rewrite L in A. cbn [above] in A. destruct (Z.eq_dec h 0) as [|N0]; [left; assumption|right].
  exists l. split; [exact L|]. destruct (Z.eq_dec l h) as [->|N]; [left; specialize (Q1 eq_refl); split; [reflexivity|lia]|].
  right. split; [exact N|]. split; [auto|]. destruct bs as [|b bs]; [exact Logic.I|].
  destruct (octs_variable c l h (b :: bs) (DVal (VOcts (b :: bs))) Ho T L U N N0 ltac:(lia) (Q2 N) ltac:(discriminate))
    as (g' & Eg' & e & Ee & _). rewrite Eg in Eg'. injection Eg' as <-.
  destruct (mk_octs c e) as [dv|x] eqn:M.
  - destruct (octs_variable c l h (b :: bs) dv Ho T L U N N0 ltac:(lia) (Q2 N) ltac:(discriminate))
      as (g' & Eg' & e' & Ee' & R & _). rewrite Eg in Eg'. injection Eg' as <-. rewrite Ee in Ee'. injection Ee' as <-.
    destruct (R M pos q pre rest Lp P) as (p2 & R2 & _). rewrite R2 in Dd.
    assert (dv = DVal (VOcts (b :: bs))) as -> by congruence.
    unfold mk_octs in M. cbv zeta in M. destruct (ctest c (zlen (from_hex_string e))); [|discriminate].
    apply (digits_back (b :: bs) e Ho ltac:(discriminate) Ee). congruence.
  - exfalso. destruct (octs_variable c l h (b :: bs) (DVal (VOcts (b :: bs))) Ho T L U N N0 ltac:(lia) (Q2 N) ltac:(discriminate))
      as (g' & Eg' & e' & Ee' & _ & R). rewrite Eg in Eg'. injection Eg' as <-. rewrite Ee in Ee'. injection Ee' as <-.
    rewrite (R x M q pre rest pos Lp P) in Dd. discriminate.
Qed.

Lemma octs_root_pos c bs : Forall octet bs -> ctest c (zlen bs) = true -> sizes c ->
  above (clo c) (zlen bs) -> below (zlen bs) (chi c) -> chi c <> Some 0 ->
  match chi c with
   | None => 1 <= zlen bs < 16384
   | Some h =>
       h = 0 \/
       exists l, clo c = Some l /\
         ((l = h /\ zlen bs < 65536) \/ (l <> h /\ h - l < 65536 /\ digits_kept bs))
   end ->
  exists g, octs_after c bs = Ok (Some g) /\
    forall pos, gets (dec_octs_after c) pos (render pos g) (DVal (VOcts bs)).
Proof.
  intros Ho T Sz A B N0 X. destruct (chi c) as [h|] eqn:U.
  - destruct X as [->|(l & L & X)]; [congruence|]. assert (H0 : h <> 0) by congruence. cbn [below] in B.
    rewrite L in A. cbn [above] in A. pose proof (Sz l L). destruct X as [(-> & X)|(N & X1 & X2)].
    + assert (E : exists o, octs_after c bs = Ok o).
      { unfold octs_after. cbv zeta. rewrite L, U. cbn [opt_is some_eq]. destruct (Z.eqb_spec h 0); [lia|].
        rewrite Z.eqb_refl. destruct (Z.leb_spec (zlen bs) 2); [eexists; reflexivity|].
        replace ((2 <? zlen bs) && (zlen bs <? 65536)) with true by lia. eexists; reflexivity. }
      destruct E as (o & E). destruct (octs_after_rt c bs o Ho T) as (g & -> & R); [|exact E|].
      * rewrite L, U. assert (G : 0 <= h <= zlen bs /\ zlen bs <= h /\ (h < h -> h - h < 65536 /\ match bs with [] => 256 <= h - h + 1 | _ => digits_kept bs end)).
        { repeat split; lia. }
        destruct h; [lia|exact G|exact G].
      * exists g. split; [exact E|]. intros pos. apply reads_gets, R.
    + destruct bs as [|b bs].
      * unfold octs_after. cbv zeta. rewrite L, U. cbn [opt_is some_eq truthy]. destruct (Z.eqb_spec h 0); [lia|].
        destruct (Z.eqb_spec l h); [lia|]. cbn [negb]. rewrite length_constrained_ok by lia. cbn [bind app].
        eexists. split; [reflexivity|]. intros pos. unfold dec_octs_after. rewrite L, U. cbn [opt_is some_eq truthy].
        destruct (Z.eqb_spec h 0); [lia|]. destruct (Z.eqb_spec l h); [lia|]. cbn [negb].
        rewrite render_cons2. eapply gets_bind; [apply reads_len_constrained; lia|].
        change (zlen [] =? 0) with true. cbv iota. intros p pre rest Lp P. exists p. unfold lift, mk_octs.
        cbn [from_hex_string]. now rewrite T.
      * destruct (octs_variable c l h (b :: bs) (DVal (VOcts (b :: bs))) Ho T L U N H0 ltac:(lia) X1 ltac:(discriminate))
          as (g & Eg & e & Ee & R & _). exists g. split; [exact Eg|]. intros pos. apply reads_gets, R.
        unfold mk_octs. apply (digits_back (b :: bs) e Ho ltac:(discriminate) Ee) in X2. rewrite X2, T. reflexivity.
  - assert (E : exists o, octs_after c bs = Ok o).
    { unfold octs_after. cbv zeta. rewrite U. replace (some_eq (clo c) None) with false by (destruct (clo c); reflexivity).
      cbn [opt_is truthy]. rewrite length_unconstrained_ok by lia. eexists; reflexivity. }
    destruct E as (o & E). destruct (octs_after_rt c bs o Ho T) as (g & -> & R); [|exact E|].
    + rewrite U. destruct (clo c); exact X.
    + exists g. split; [exact E|]. intros pos. apply reads_gets, R.
Qed.

Theorem C04_exact : forall c bs, regular c -> sizes c -> Forall (fun b => 0 <= b < 256) bs -> ctest c (zlen bs) = true ->
  (survives (TOcts c) (VOcts bs) <-> octs_exact c bs).
Proof.
  intros c bs Rg Sz Ho T. fold octet in Ho. split.
  - intros S. destruct (survives_elim _ _ S) as (fs & p & k & dv & p' & E & P & Dd & C). clear S.
    cbn [enc dec] in E, Dd. rewrite encode_octs_eq in E by exact Ho. rewrite decode_octs_eq in Dd.
    assert (Cv : dv = DVal (VOcts bs) \/ dv = DEmpty \/ exists u, dv = DVal u /\ eq_empty u = true).
    { destruct C as [C|(_ & C)]; auto. }
    clear C. unfold octs_exact. cbv zeta. destruct (cext c) eqn:X.
    + destruct (chain_le (clo c) (zlen bs) (chi c)) as [[|]|] eqn:Ch; [| |discriminate]; cbn [bind] in E.
      * left. destruct (chain_true _ _ Ch) as (l & h & L & U & B). split; [right; exists l, h; auto|].
        destruct (octs_after c bs) as [[g|]|] eqn:Eg; [| |discriminate]; cbn [bind fill] in E; apply ok_inj in E; subst fs.
        -- destruct (first_bit_at _ _ _ _ _ _ P Dd) as (q & Dq & Aq). cbn [Z.b2z Z.eqb] in Dq.
           assert (Hc : forall h, chi c = Some h -> 0 <= h) by (intros h' U'; rewrite U in U'; injection U' as <-; unfold zlen in B; lia).
           pose proof (post_octs_after c Sz Hc _ _ _ Dq) as Q.
           destruct Cv as [Cv|[Cv|(u & Cv & Y)]].
           ++ eapply (octs_root_neg c bs g q [false]); eauto; [rewrite L; cbn [above]; lia|rewrite U; cbn [below]; lia].
           ++ subst dv. cbn [octs_seen] in Q. rewrite Q. left. reflexivity.
           ++ subst dv. destruct u as [| | | |[|]| | | |]; try discriminate; cbn [octs_seen] in Q; destruct Q.
        -- unfold octs_after in Eg. cbv zeta in Eg. rewrite U in *. cbn [opt_is] in Eg.
           destruct (Z.eqb_spec h 0); [left; assumption|]. exfalso. destruct (some_eq _ _).
           { destruct (zlen bs <=? 2); [discriminate|]. destruct (_ && _); discriminate. }
           destruct (truthy _); [destruct (length_constrained _ _ _); discriminate|].
           destruct (length_unconstrained _); discriminate.
      * right. destruct (length_unconstrained (zlen bs)) as [d|]; [|discriminate]. cbn [bind fill] in E. apply ok_inj in E. subst fs.
        destruct (first_bit _ _ _ _ _ _ P Dd) as (q & Dq). cbn [Z.b2z Z.eqb] in Dq.
        destruct (post_octs_ext c _ _ _ Dq) as (u & -> & Y2).
        split; [split; [exact X|apply chain_false, Ch]|].
        destruct Cv as [Cv|[Cv|(w & Cv & Y)]]; [injection Cv as ->; exact Y2|discriminate|injection Cv as <-; discriminate].
    + left. split; [left; exact X|]. destruct (regular_ends c _ Rg T X) as (A & B).
      assert (Hc : forall h, chi c = Some h -> 0 <= h) by (intros h U; rewrite U in B; cbn [below] in B; unfold zlen in B; lia).
      pose proof (post_octs_after c Sz Hc _ _ _ Dd) as Q.
      destruct (octs_after c bs) as [[g|]|] eqn:Eg; [| |discriminate]; cbn [bind fill] in E; apply ok_inj in E; subst fs.
      * destruct Cv as [Cv|[Cv|(u & Cv & Y)]].
        -- eapply (octs_root_neg c bs g p [] (repeat false k) 0); eauto.
        -- subst dv. cbn [octs_seen] in Q. rewrite Q. left. reflexivity.
        -- subst dv. destruct u as [| | | |[|]| | | |]; try discriminate; cbn [octs_seen] in Q; destruct Q.
      * unfold octs_after in Eg. cbv zeta in Eg. destruct (chi c) as [h|]; cbn [opt_is] in Eg.
        -- destruct (Z.eqb_spec h 0); [left; assumption|]. exfalso. destruct (some_eq _ _).
           { destruct (zlen bs <=? 2); [discriminate|]. destruct (_ && _); discriminate. }
           destruct (truthy _); [destruct (length_constrained _ _ _); discriminate|].
           destruct (length_unconstrained _); discriminate.
        -- exfalso. destruct (some_eq _ _).
           { destruct (zlen bs <=? 2); [discriminate|]. destruct (_ && _); discriminate. }
           destruct (truthy _); [destruct (length_constrained _ _ _); discriminate|].
           destruct (length_unconstrained _); discriminate.
  - intros X. unfold octs_exact in X. cbv zeta in X. destruct X as [(Ro & Y)|(Ou & Y)].
    + assert (Ends : above (clo c) (zlen bs) /\ below (zlen bs) (chi c)).
      { destruct Ro as [Ro|(l & h & L & U & B)]; [now apply regular_ends|]. rewrite L, U. cbn [above below]. lia. }
      destruct (opt_is (chi c) 0) eqn:Z0.
      * assert (C0 : chi c = Some 0).
        { destruct (chi c) as [h|]; [|discriminate]. cbn [opt_is] in Z0. f_equal. lia. }
        assert (bs = []) as ->.
        { destruct Ends as (_ & B). rewrite C0 in B. cbn [below] in B. destruct bs; [reflexivity|]. unfold zlen in B. cbn [List.length] in B. lia. }
        assert (Ea : octs_after c [] = Ok None) by (unfold octs_after; rewrite Z0; reflexivity).
        assert (Ee : enc (TOcts c) (VOcts []) = Ok []).
        { cbn [enc]. rewrite encode_octs_eq by constructor. destruct (cext c) eqn:Ex.
          - rewrite rooted_chain by assumption. cbn [bind]. rewrite Ea. reflexivity.
          - rewrite Ea. reflexivity. }
        eapply survives_intro with (dv := DEmpty); [reflexivity|exact Ee| |].
        -- intros p k K8 P. cbn [dec]. rewrite decode_octs_eq. destruct (cext c) eqn:Ex.
           ++ rewrite (K8 eq_refl) in P. cbn [render app repeat] in P.
              destruct (reads_bit false 0 p [] (repeat false 7) eq_refl P) as (p1 & E1 & _).
              unfold dbind at 1. rewrite E1. cbn [Z.b2z Z.eqb]. unfold dec_octs_after. rewrite Z0. exists p1. reflexivity.
           ++ unfold dec_octs_after. rewrite Z0. exists p. reflexivity.
        -- right. split; [|left; reflexivity]. cbn [from_empty cast]. change (zlen (@nil Z)) with 0 in T. now rewrite T.
      * assert (C0 : chi c <> Some 0) by (intros C0; rewrite C0 in Z0; discriminate).
        destruct (octs_root_pos c bs Ho T Sz (proj1 Ends) (proj2 Ends) C0 Y) as (g & Eg & G).
        destruct (cext c) eqn:Ex.
        -- eapply survives_intro with (dv := DVal (VOcts bs)) (fs := F false [false] :: g); [reflexivity| | |left; split; reflexivity].
           ++ cbn [enc]. rewrite encode_octs_eq, Ex by exact Ho. rewrite rooted_chain by assumption. cbn [bind]. rewrite Eg. reflexivity.
           ++ intros p k _ P. cbn [dec]. rewrite decode_octs_eq, Ex. rewrite render_bit in P.
              match goal with |- exists p', ?d p = _ => assert (G' : gets d 0 ([false] ++ render (0 + 1) g) (DVal (VOcts bs))) end.
              { eapply gets_bind; [apply reads_bit|]. cbn [Z.b2z Z.eqb List.length]. apply G. }
              apply (G' p [] (repeat false k) eq_refl P).
        -- eapply survives_intro with (dv := DVal (VOcts bs)) (fs := g); [reflexivity| | |left; split; reflexivity].
           ++ cbn [enc]. rewrite encode_octs_eq, Ex by exact Ho. rewrite Eg. reflexivity.
           ++ intros p k _ P. cbn [dec]. rewrite decode_octs_eq, Ex. apply (G 0%nat p [] (repeat false k) eq_refl P).
    + pose proof (outside_chain _ _ Ou) as Ch. destruct Ou as (Ex & Ou).
      assert (Ok' : octs_ok c bs).
      { unfold octs_ok. cbv zeta. split; [exact Ho|]. split; [exact T|]. rewrite Ex, (chain_inside _ _ _ Ch). exact Y. }
      assert (0 <= zlen bs) by (unfold zlen; lia).
      assert (E : exists fs, fill (encode_octetstring c bs) = Ok fs).
      { rewrite encode_octs_eq, Ex, Ch by exact Ho. cbn [bind]. rewrite length_unconstrained_ok by lia. eexists. reflexivity. }
      destruct E as (fs & E). destruct (octs_rt c bs fs Ok' E) as (dv & Cv & R).
      destruct dv as [u|].
      * cbn [cast] in Cv. injection Cv as ->.
        eapply survives_intro with (dv := DVal (VOcts bs)) (fs := fs); [reflexivity|exact E| |left; split; reflexivity].
        intros p k _ P. destruct (R 0%nat p [] (repeat false k) eq_refl P) as (p' & G & _). exists p'. exact G.
      * eapply survives_intro with (dv := DEmpty) (fs := fs); [reflexivity|exact E| |right; split; [exact Cv|left; reflexivity]].
        intros p k _ P. destruct (R 0%nat p [] (repeat false k) eq_refl P) as (p' & G & _). exists p'. exact G.
Qed.

(** * ENUMERATED *)

(** Numbers 0, 1, 2 ... as the generator gives them: the root index needs at most
    16 bits; the place of an addition needs at most 16383 octets; without an
    extension marker every item counts as root. *)
Definition enum_exact (ext : bool) (root adds : list Z) (z : Z) : Prop :=
  if ext then
    (z < zlen root /\ zlen root <= 65536) \/ (zlen root <= z /\ ufits 16383 (z - zlen root))
  else zlen (root ++ adds) <= 65536.

Lemma post_mk_enum root adds i : post (lift (mk_enum root adds i)) (fun d => d = DVal (VEnum i)).
Proof. apply post_lift. unfold mk_enum. intros a. destruct (existsb _ _); congruence. Qed.

Lemma post_ns l : post (decode_normally_small l) (fun z => 0 <= z < 64 \/ ufits 16383 (z - l)).
Proof.
  unfold decode_normally_small, decode_non_negative. apply post_bind'. intros b. destruct (b =? 0).
  - eapply post_bind; [apply post_next|]. intros z Hz. cbn [fst snd] in Hz. change (2 ^ Z.of_nat (8 * 0 + 6)) with 64 in Hz.
    apply post_ret. lia.
  - apply post_bind'. intros _. eapply post_weaken; [apply post_semi|]. intros z Hz. right. exact Hz.
Qed.

Theorem C02_exact : forall ext root adds z, numbered root adds -> In z (root ++ adds) ->
  (survives (TEnum ext root adds) (VEnum z) <-> enum_exact ext root adds z).
Proof.
  intros ext root adds z N I. destruct (numbered_in _ _ _ N I) as (Hz & Hr). split.
  - intros S. destruct (survives_elim _ _ S) as (fs & p & k & dv & p' & E & P & Dd & C). clear S.
    assert (dv = DVal (VEnum z)) as -> by (destruct C as [C|(C & _)]; [exact C|discriminate]). clear C.
    cbn [enc dec] in E, Dd. unfold encode_enumerated in E. unfold decode_enumerated in Dd. unfold enum_exact.
    destruct ext; cbn [negb] in E, Dd.
    + destruct (existsb (Z.eqb z) root) eqn:X.
      * apply existsb_Zeqb in X. assert (z < zlen root) by tauto.
        rewrite cwn_fields_ok in E by lia. cbn [bind] in E. apply ok_inj in E. subst fs.
        destruct (first_bit _ _ _ _ _ _ P Dd) as (q & Dq). cbn [Z.b2z Z.eqb] in Dq. left. split; [assumption|].
        destruct (Z.le_gt_cases (zlen root) 65536) as [|G]; [assumption|]. exfalso.
        apply dbind_inv in Dq as (i & q' & D1 & _). apply (post_cwn 0 (zlen root - 1) ltac:(lia) _ _ _ D1).
      * assert (NR : ~ In z root) by (rewrite <- existsb_Zeqb; congruence).
        apply in_app_or in I as I'. destruct I' as [|Ha]; [tauto|].
        rewrite (zindex_numbered root) in E by auto. cbn [bind] in E. right.
        assert (zlen root <= z) by (apply Z.nlt_ge; intros L; apply NR, Hr, L). split; [lia|].
        destruct (encode_normally_small (z - zlen root) 0) as [g|]; [|discriminate]. cbn [bind] in E. apply ok_inj in E. subst fs.
        destruct (first_bit _ _ _ _ _ _ P Dd) as (q & Dq). cbn [Z.b2z Z.eqb] in Dq.
        apply dbind_inv in Dq as (i & q' & D1 & D2). apply post_mk_enum in D2. injection D2 as D2.
        replace (z - zlen root) with i by lia. destruct (post_ns 0 _ _ _ D1) as [Q|Q]; [|now rewrite Z.sub_0_r in Q].
        unfold ufits. split; [lia|]. apply Z.lt_le_trans with (2 ^ 6); [change (2 ^ 6) with 64; lia|].
        apply Z.pow_le_mono_r; lia.
    + destruct (Z.le_gt_cases (zlen (root ++ adds)) 65536) as [|G]; [assumption|]. exfalso.
      apply dbind_inv in Dd as (i & q' & D1 & _). apply (post_cwn 0 (zlen (root ++ adds) - 1) ltac:(lia) _ _ _ D1).
  - intros X. unfold enum_exact in X.
    assert (G : exists fs, encode_enumerated ext root adds z = Ok fs /\
      forall pos, reads (decode_enumerated ext root adds) pos (render pos fs) (DVal (VEnum z))).
    { unfold encode_enumerated, decode_enumerated. destruct ext; cbn [negb].
      - destruct (existsb (Z.eqb z) root) eqn:Y.
        + apply existsb_Zeqb in Y. assert (z < zlen root) by tauto. destruct X as [(_ & X)|(X & _)]; [|lia].
          rewrite cwn_fields_ok by lia. eexists. split; [reflexivity|]. intros pos.
          rewrite render_bit. eapply reads_bind; [apply reads_bit|]. cbn [Z.b2z Z.eqb negb List.length].
          unfold cwn_fields. replace (zlen root - 1 - 0 + 1 <=? 65536) with true by lia.
          eapply reads_bind_r; [apply reads_cwn; lia|]. apply reads_lift, mk_enum_ok; auto.
        + assert (NR : ~ In z root) by (rewrite <- existsb_Zeqb; congruence).
          apply in_app_or in I as I'. destruct I' as [|Ha]; [tauto|].
          rewrite (zindex_numbered root) by auto. cbn [bind].
          assert (Hge : zlen root <= z) by (apply Z.nlt_ge; intros L; apply NR, Hr, L).
          destruct X as [(X & _)|(_ & X)]; [lia|]. apply noct_ufits in X; [|lia..].
          rewrite normally_small_ok by lia. eexists. split; [reflexivity|]. intros pos.
          rewrite render_bit. eapply reads_bind; [apply reads_bit|]. cbn [Z.b2z Z.eqb negb List.length].
          eapply reads_bind_r; [apply reads_nsn; lia|].
          replace (z - zlen root + zlen root) with z by lia. apply reads_lift, mk_enum_ok; auto.
      - rewrite cwn_fields_ok by lia. eexists. split; [reflexivity|]. intros pos.
        unfold cwn_fields. replace (zlen (root ++ adds) - 1 - 0 + 1 <=? 65536) with true by lia.
        eapply reads_bind_r; [apply reads_cwn; lia|]. apply reads_lift, mk_enum_ok; auto. }
    destruct G as (fs & E & R).
    eapply survives_intro with (dv := DVal (VEnum z)) (fs := fs); [reflexivity|exact E| |left; split; reflexivity].
    intros p k _ P. destruct (R 0%nat p [] (repeat false k) eq_refl P) as (p' & G & _). exists p'. exact G.
Qed.

(** * SEQUENCE OF: the number of elements *)

Definition count_exact (c : constr) (n : Z) : Prop :=
  if cext c then
    (exists l h, clo c = Some l /\ chi c = Some h /\ l <= n <= h /\ h - l < 65536 /\ (l = h -> l = 0)) \/
    (outside c n /\ n < 16384)
  else
    exists l, clo c = Some l /\ l <= n /\
      match chi c with
      | None => n < 16384
      | Some h => n <= h /\ h - l < 65536 /\ (l = h -> l < 65536)
      end.


Lemma post_count c n : cext c = false -> sizes c ->
  (forall l h, clo c = Some l -> chi c = Some h -> l <= h) ->
  forall fs body, encode_sequence_of c n body = Ok fs -> 0 <= n ->
  post (dec_seqof_len c) (fun m => Z.max 0 m = n -> count_exact c n).
Proof.
  intros X Sz Or fs body E P. unfold count_exact, dec_seqof_len, encode_sequence_of in *. rewrite X in *.
  destruct (clo c) as [l|] eqn:L; [|discriminate]. cbn [need bind] in E. specialize (Sz l L).
  destruct (Z.ltb_spec n l) as [|Hl]; [discriminate|]. destruct (chi c) as [h|] eqn:U.
  - specialize (Or l h eq_refl eq_refl). destruct (Z.eqb_spec l h) as [->|N]; cbn [andb].
    + destruct (Z.ltb_spec h 65536) as [H6|H6]; cbn [andb].
      * apply post_ret. intros M. exists h. repeat split; lia.
      * cbn [truthy]. destruct (Z.eqb_spec h 0) as [|Hh]; [lia|]. cbn [negb].
        unfold dec_length_constrained. cbn [need]. apply post_bind with (Q := fun u => u = h); [apply post_lift; congruence|].
        intros ? ->. apply post_bind with (Q := fun u => u = h); [apply post_lift; congruence|]. intros ? ->.
        eapply post_weaken; [now apply post_cwn1|]. cbn beta. lia.
    + cbn [truthy]. destruct (Z.eqb_spec h 0) as [|Hh]; [lia|]. cbn [negb].
      cbn [truthy le_opt_r] in E. replace (negb (h =? 0)) with true in E by lia. cbn [andb] in E.
      destruct (Z.leb_spec n h) as [Hn|]; [|discriminate].
      unfold dec_length_constrained. cbn [need]. apply post_bind with (Q := fun u => u = h); [apply post_lift; congruence|].
      intros ? ->. apply post_bind with (Q := fun u => u = l); [apply post_lift; congruence|]. intros ? ->.
      destruct (Z.ltb_spec (h - l) 65536).
      * eapply post_weaken; [apply post_any|]. intros. exists l. repeat split; lia.
      * eapply post_weaken; [apply post_cwn; lia|]. intros ? [].
  - cbn [truthy]. eapply post_weaken; [apply post_len|]. cbn beta. intros m Hm M. exists l. repeat split; lia.
Qed.

(** The elements are whatever survives (C01 to C08 say what does); what is lost or kept by
    SEQUENCE OF itself depends on their number alone. *)
Theorem C05_exact : forall c t vs, sizes c -> (forall l h, clo c = Some l -> chi c = Some h -> l <= h) ->
  (forall v, In v vs -> supported t v /\ ready t v) ->
  ((exists bs vs', encode (TSeqOf c t) (VSeqOf vs) = Ok bs /\ decode bs (TSeqOf c t) = Ok (VSeqOf vs') /\
      map (reading t) vs' = map (reading t) vs)
   <-> count_exact c (zlen vs)).
Proof.
  intros c t vs Sz Or Ev. assert (NN : 0 <= zlen vs) by (unfold zlen; lia). split.
  - intros (bs & vs' & E & Q & M). destruct (encode_inv _ _ bs E) as (fs & E' & -> & O & Fo & Ne).
    destruct (per_init_ok _ Fo Ne) as (p & P1 & P2). rewrite O in P2.
    destruct (produce_spec fs) as (k & S & _). rewrite S in P2.
    unfold decode, decode_pos in Q. rewrite P1 in Q. cbn [bind] in Q.
    destruct (dec (TSeqOf c t) p) as [(dv, p')|] eqn:Dp; [|discriminate]. cbn [bind fst snd] in Q.
    assert (LL : zlen vs' = zlen vs) by (unfold zlen; rewrite <- (map_length (reading t)), M, map_length; reflexivity).
    assert (DV : dv = DVal (VSeqOf vs')).
    { cbn [dec] in Dp. unfold decode_sequence_of in Dp. apply dbind_inv in Dp as (a1 & q1 & _ & Dp).
      apply dbind_inv in Dp as (a2 & q2 & _ & Dp). apply ok_inj in Dp. injection Dp as <- _. cbn [eq_empty] in Q.
      cbn in Q. congruence. }
    subst dv. clear Q. cbn [enc dec] in E', Dp.
    destruct (enc_list (enc t) vs) as [body|]; [|discriminate]. cbn [bind] in E'.
    unfold decode_sequence_of in Dp.
    assert (Ln : forall m, post (dec_n (do d <- dec t; lift (cast t d)) m) (fun us => List.length us = m)).
    { induction m; cbn [dec_n]; [now apply post_ret|]. apply post_bind'. intros v.
      eapply post_bind; [exact IHm|]. intros us V. apply post_ret. cbn. now rewrite V. }
    assert (Cn : exists m q, dec_seqof_len c p = Ok (m, q) /\ Z.max 0 m = zlen vs).
    { apply dbind_inv in Dp as (m & q & D1 & Dp). apply dbind_inv in Dp as (us & q2 & D2 & Dp).
      exists m, q. split; [exact D1|]. pose proof (Ln _ _ _ _ D2) as U. apply ok_inj in Dp. injection Dp as -> _.
      rewrite <- LL. unfold zlen. rewrite U. lia. }
    destruct Cn as (m & q & D1 & Mm). clear Dp.
    destruct (cext c) eqn:X.
    + unfold count_exact. rewrite X. unfold encode_sequence_of in E'. rewrite X in E'.
      destruct (chain_le (clo c) (zlen vs) (chi c)) as [[|]|] eqn:CH; [| |discriminate]; cbn [bind] in E'.
      * apply chain_true in CH as (l & h & L & U & Hlh). rewrite L, U in E'. left. exists l, h.
        destruct (length_constrained (zlen vs) (Some l) (Some h)) as [g|]; [|discriminate]. cbn [bind] in E'.
        apply ok_inj in E'. subst fs. unfold dec_seqof_len in D1. rewrite X, L, U in D1.
        destruct (first_bit _ _ _ _ _ _ P2 D1) as (q2 & Dq). cbn [Z.b2z Z.eqb] in Dq.
        unfold dec_length_constrained in Dq. cbn [need] in Dq.
        repeat split; auto; try lia.
        -- destruct (Z.ltb_spec (h - l) 65536); [assumption|]. exfalso. apply (post_cwn l h ltac:(lia) _ _ _ Dq).
        -- intros e. pose proof (post_cwn1 l h e _ _ _ Dq) as W. cbn beta in W. lia.
      * right. apply chain_false in CH. split; [split; auto|].
        destruct (length_unconstrained (zlen vs)) as [g|]; [|discriminate]. cbn [bind] in E'.
        apply ok_inj in E'. subst fs. unfold dec_seqof_len in D1. rewrite X in D1.
        destruct (first_bit _ _ _ _ _ _ P2 D1) as (q2 & Dq). cbn [Z.b2z Z.eqb] in Dq.
        apply dbind_inv in Dq as (u & q3 & _ & Dq). apply post_len in Dq. cbn beta in Dq. lia.
    + exact (post_count c (zlen vs) X Sz Or _ _ E' NN _ _ _ D1 Mm).
  - intros X.
    assert (CO : count_ok c (zlen vs)).
    { unfold count_exact, count_ok, inside in *. destruct (cext c).
      - destruct X as [(l & h & -> & -> & B)|((_ & l & L & B) & N)].
        + replace ((l <=? zlen vs) && (zlen vs <=? h)) with true by lia. tauto.
        + rewrite L. destruct (chi c) as [h|] eqn:U; [|assumption].
          specialize (Or l h L eq_refl).
          destruct ((l <=? zlen vs) && (zlen vs <=? h)) eqn:Y; [|assumption]. exfalso.
          destruct B as [B|(h' & [= <-] & B)]; lia.
      - destruct X as (l & L & X). rewrite L. specialize (Sz l L). destruct (chi c) as [h|]; lia. }
    assert (EB : exists body, enc_list (enc t) vs = Ok body).
    { clear - Ev. induction vs as [|v vs IH]; [cbn; eauto|].
      destruct IH as (body & Eb); [intros; apply Ev; now right|]. destruct (Ev v ltac:(now left)) as (S1 & R1).
      destruct (total_all octs_ok_sent t v S1 R1) as (f & Ef).
      cbn [enc_list]. rewrite Ef. cbn [bind]. rewrite Eb. cbn [bind]. eauto. }
    destruct EB as (body & EB).
    assert (EF : exists fs, encode_sequence_of c (zlen vs) body = Ok fs).
    { unfold count_exact, encode_sequence_of in *. destruct (cext c) eqn:Y.
      - destruct X as [(l & h & L & U & B)|(Os & N)].
        + destruct B as (B1 & B2). rewrite (rooted_chain c _ Y) by (right; exists l, h; auto). cbn [bind]. rewrite L, U, length_constrained_ok by lia. cbn [bind]. eauto.
        + rewrite (outside_chain _ _ Os). cbn [bind]. rewrite length_unconstrained_ok by lia. cbn [bind]. eauto.
      - destruct X as (l & L & X1 & X2). rewrite L. cbn [need bind]. specialize (Sz l L).
        replace (zlen vs <? l) with false by lia. destruct (chi c) as [h|] eqn:U; cbn [truthy opt_is le_opt_r andb].
        + replace (negb (h =? 0) && negb (zlen vs <=? h)) with false by lia.
          destruct ((h =? l) && (l <? 65536)); [eauto|].
          rewrite length_constrained_ok by lia. destruct (Z.eqb_spec h 0) as [->|]; cbn [negb bind]; [|eauto].
          rewrite length_unconstrained_ok by lia. cbn [bind]. eauto.
        + rewrite length_unconstrained_ok by lia. cbn [bind]. eauto. }
    destruct EF as (fs & EF).
    assert (E : enc (TSeqOf c t) (VSeqOf vs) = Ok fs) by (cbn [enc]; rewrite EB; exact EF).
    pose proof (encode_spec (TSeqOf c t) (VSeqOf vs)) as Es. rewrite E in Es.
    destruct (C05_sequence_of_partial c t vs _ CO (fun v Hv => proj1 (Ev v Hv)) Es) as (vs' & D1 & R).
    eauto.
Qed.

(** * Cases on both sides of each line *)

(** INTEGER (5..5, ...): the extension value 9 survives, the only root value does
    not. *)
Example C01_exact_case :
  survives (TInt (CRange true (Some 5) (Some 5))) (VInt 9) /\
  ~ survives (TInt (CRange true (Some 5) (Some 5))) (VInt 5).
Proof.
  split; rewrite C01_exact by (reflexivity || (left; reflexivity)); unfold int_exact; cbn [cext clo chi].
  - right. split; [lia|]. unfold sfits. split.
    + apply Z.le_trans with (- 2 ^ 4); [|vm_compute; discriminate]. apply -> Z.opp_le_mono. apply Z.pow_le_mono_r; lia.
    + apply Z.lt_le_trans with (2 ^ 4); [reflexivity|]. apply Z.pow_le_mono_r; lia.
  - intros [(_ & _ & A)|(A & _)]; [specialize (A eq_refl)|]; lia.
Qed.

(** ENUMERATED {a, b, ..., c}. *)
Example C02_exact_case :
  numbered [0; 1] [2] /\ In 2 ([0; 1] ++ [2]) /\ survives (TEnum true [0; 1] [2]) (VEnum 2).
Proof.
  split; [reflexivity|]. split; [cbn; auto|]. apply C02_exact; [reflexivity|cbn; auto|].
  right. split; [vm_compute; discriminate|]. unfold ufits. split; [vm_compute; discriminate|].
  apply Z.lt_le_trans with (2 ^ 1); [reflexivity|]. apply Z.pow_le_mono_r; lia.
Qed.

(** An ENUMERATED of 65537 root items loses each of them, with or without the
    extension marker. *)
Example C02_exact_lost : forall ext root z, numbered root [] -> zlen root = 65537 -> In z root ->
  ~ survives (TEnum ext root []) (VEnum z).
Proof.
  intros ext root z N L I. rewrite C02_exact by (rewrite ?app_nil_r; auto). unfold enum_exact. rewrite app_nil_r.
  destruct (numbered_in root [] z N) as (A & Q); [rewrite app_nil_r; auto|]. apply Q in I. destruct ext; lia.
Qed.

(** Such a root exists. *)
Lemma numbered_zcount n : numbered (map Z.of_nat (List.seq 0 n)) [].
Proof. unfold numbered. rewrite app_nil_r, map_length, seq_length. reflexivity. Qed.

(** BIT STRING (SIZE (0..4)): every non-empty one survives, the empty one does not. *)
Example C03_exact_case :
  survives (TBits (CRange false (Some 0) (Some 4))) (VBits [true; false; true]) /\
  ~ survives (TBits (CRange false (Some 0) (Some 4))) (VBits []).
Proof.
  split; rewrite C03_exact by (try (right; reflexivity); try reflexivity; intros l [= <-]; lia); unfold bits_exact.
  - left. split; [left; reflexivity|]. cbn. split; [lia|discriminate].
  - intros (_ & [=]).
Qed.

(** OCTET STRING (SIZE (1..5)): 00 survives, 01 does not, 10 01 does. *)
Example C04_exact_case :
  survives (TOcts (CRange false (Some 1) (Some 5))) (VOcts [0]) /\
  ~ survives (TOcts (CRange false (Some 1) (Some 5))) (VOcts [1]) /\
  survives (TOcts (CRange false (Some 1) (Some 5))) (VOcts [16; 1]).
Proof.
  repeat split; rewrite C04_exact by
    (try (right; reflexivity); try reflexivity; try (intros l [= <-]; lia); repeat constructor; unfold octet; lia);
    unfold octs_exact.
  - left. split; [left; reflexivity|]. cbn [chi clo]. right. exists 1. split; [reflexivity|right].
    split; [lia|]. split; [lia|]. cbn [digits_kept]. left; reflexivity.
  - intros [(_ & A)|((A & _) & _)]; [|discriminate]. cbn [chi clo] in A.
    destruct A as [A|(l & [= <-] & [A|(_ & _ & A)])]; cbn [digits_kept] in *; lia.
  - left. split; [left; reflexivity|]. cbn [chi clo]. right. exists 1. split; [reflexivity|right].
    split; [lia|]. split; [lia|]. cbn [digits_kept]. lia.
Qed.

(** SEQUENCE (SIZE (2..2, ...)) OF BOOLEAN: three elements survive, two do not. *)
Example C05_exact_case : let c := CSeqSize true (Some 2) (Some 2) in
  count_exact c 3 /\ ~ count_exact c 2 /\ sizes c /\
  forall v, In v [VBool true; VBool false; VBool true] -> supported TBool v /\ ready TBool v.
Proof.
  cbn zeta. split; [|split; [|split]].
  - right. split; [|lia]. split; [reflexivity|]. exists 2. split; [reflexivity|]. right. exists 2. split; [reflexivity|lia].
  - intros [(l & h & [= <-] & [= <-] & A)|((_ & l & [= <-] & [A|(h & [= <-] & A)]) & _)]; lia.
  - intros l [= <-]. lia.
  - intros v [<-|[<-|[<-|[]]]]; split; exact Logic.I.
Qed.
