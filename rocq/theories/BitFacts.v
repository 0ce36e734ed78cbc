(** Facts about bit strings, hexadecimal digits and octets. *)
From Coq Require Import ZArith List String Bool Lia Arith.
From Coq Require Import ZifyBool ZifyNat ZifyN.
Import ListNotations.
From Verif Require Import PyBase.
Open Scope Z_scope.

(** Big-endian bits of [z] on [w] positions: the specification counterpart of
    the string formatting done by the code. *)
Fixpoint to_bits (w : nat) (z : Z) : bits :=
  match w with
  | O => []
  | S k => Z.testbit z (Z.of_nat k) :: to_bits k z
  end.

(** Eight bits per octet. *)
Definition obits (bs : list Z) : bits := List.concat (map (to_bits 8) bs).

Definition octet (b : Z) : Prop := 0 <= b < 256.

(** Octets of a bit string whose length is a multiple of eight. *)
Fixpoint octs_of_fuel (n : nat) (s : bits) : list Z :=
  match n with
  | O => []
  | S k => bval (firstn 8 s) :: octs_of_fuel k (skipn 8 s)
  end.
Definition octs_of (s : bits) : list Z := octs_of_fuel (Nat.div (List.length s) 8) s.

Lemma to_bits_length w z : List.length (to_bits w z) = w.
Proof. induction w; cbn; congruence. Qed.

Lemma bval_acc s a :
  fold_left (fun acc b => 2 * acc + Z.b2z b) s a = a * 2 ^ Z.of_nat (List.length s) + bval s.
Proof.
  unfold bval. revert a. induction s as [|b s IH]; intros a.
  - cbn [fold_left List.length]. change (2 ^ Z.of_nat 0) with 1. lia.
  - cbn [fold_left List.length]. rewrite IH, (IH (2 * 0 + Z.b2z b)).
    rewrite Nat2Z.inj_succ, Z.pow_succ_r by lia. ring.
Qed.

Lemma bval_nil : bval [] = 0.
Proof. reflexivity. Qed.

Lemma bval_cons b s : bval (b :: s) = Z.b2z b * 2 ^ Z.of_nat (List.length s) + bval s.
Proof. unfold bval at 1. cbn [fold_left]. rewrite bval_acc. f_equal. Qed.

Lemma bval_app a b : bval (a ++ b) = bval a * 2 ^ Z.of_nat (List.length b) + bval b.
Proof.
  unfold bval at 1. rewrite fold_left_app, bval_acc. reflexivity.
Qed.

Lemma pow2_pos n : 0 < 2 ^ Z.of_nat n.
Proof. apply Z.pow_pos_nonneg; lia. Qed.

Lemma bval_range s : 0 <= bval s < 2 ^ Z.of_nat (List.length s).
Proof.
  induction s as [|b s IH].
  - cbn. lia.
  - rewrite bval_cons. cbn [List.length]. rewrite Nat2Z.inj_succ, Z.pow_succ_r by lia.
    destruct b; cbn [Z.b2z]; lia.
Qed.

Lemma bval_zeros n : bval (repeat false n) = 0.
Proof. induction n; cbn [repeat]; [reflexivity|]. rewrite bval_cons, IHn. cbn; lia. Qed.

Lemma bval_zeros_app n s : bval (repeat false n ++ s) = bval s.
Proof. rewrite bval_app, bval_zeros. lia. Qed.

Lemma bval_inj a b : List.length a = List.length b -> bval a = bval b -> a = b.
Proof.
  revert b. induction a as [|x a IH]; intros [|y b] HL HV; try discriminate; auto.
  rewrite !bval_cons in HV. cbn in HL. injection HL as HL. rewrite HL in HV.
  pose proof (bval_range a) as Ra. pose proof (bval_range b) as Rb. rewrite HL in Ra.
  destruct x, y; cbn [Z.b2z] in HV; try lia; f_equal; apply IH; auto; lia.
Qed.

Lemma testbit_top z k : 0 <= z < 2 ^ Z.of_nat (S k) ->
  z = Z.b2z (Z.testbit z (Z.of_nat k)) * 2 ^ Z.of_nat k + z mod 2 ^ Z.of_nat k.
Proof.
  intros H. rewrite Nat2Z.inj_succ, Z.pow_succ_r in H by lia.
  pose proof (pow2_pos k) as P.
  rewrite Z.testbit_spec' by lia.
  rewrite (Z.div_mod z (2 ^ Z.of_nat k)) at 1 by lia.
  assert (z / 2 ^ Z.of_nat k < 2) by (apply Z.div_lt_upper_bound; lia).
  assert (0 <= z / 2 ^ Z.of_nat k) by (apply Z.div_pos; lia).
  rewrite (Z.mod_small (z / _) 2) by lia. lia.
Qed.

Lemma to_bits_mod w m z : (w <= m)%nat -> to_bits w (z mod 2 ^ Z.of_nat m) = to_bits w z.
Proof.
  induction w; intros H; cbn [to_bits]; auto.
  rewrite Z.mod_pow2_bits_low by lia. f_equal. apply IHw. lia.
Qed.

Lemma bval_to_bits_mod w z : bval (to_bits w z) = z mod 2 ^ Z.of_nat w.
Proof.
  induction w as [|w IH].
  - cbn. rewrite Z.mod_1_r. reflexivity.
  - cbn [to_bits]. rewrite bval_cons, to_bits_length, IH.
    pose proof (pow2_pos w). pose proof (pow2_pos (S w)).
    assert (E : Z.testbit z (Z.of_nat w) = Z.testbit (z mod 2 ^ Z.of_nat (S w)) (Z.of_nat w))
      by (rewrite Z.mod_pow2_bits_low; [reflexivity|lia]).
    rewrite E.
    rewrite (testbit_top (z mod 2 ^ Z.of_nat (S w)) w) at 2 by (apply Z.mod_pos_bound; lia).
    f_equal. rewrite Nat2Z.inj_succ, Z.pow_succ_r by lia.
    rewrite (Z.mul_comm 2), Z.rem_mul_r by lia.
    rewrite Z.mul_comm, Z.mod_add by lia. rewrite Z.mod_mod by lia. reflexivity.
Qed.

Lemma bval_to_bits w z : 0 <= z < 2 ^ Z.of_nat w -> bval (to_bits w z) = z.
Proof. intros. rewrite bval_to_bits_mod. apply Z.mod_small; auto. Qed.

Lemma to_bits_bval s : to_bits (List.length s) (bval s) = s.
Proof.
  apply bval_inj; [apply to_bits_length|]. apply bval_to_bits, bval_range.
Qed.

Lemma to_bits_unique w z s : List.length s = w -> bval s = z -> s = to_bits w z.
Proof. intros <- <-. symmetry. apply to_bits_bval. Qed.

Lemma to_bits_inj w a b : 0 <= a < 2 ^ Z.of_nat w -> 0 <= b < 2 ^ Z.of_nat w ->
  to_bits w a = to_bits w b -> a = b.
Proof. intros Ha Hb E. rewrite <- (bval_to_bits w a), <- (bval_to_bits w b) by auto. congruence. Qed.

(** ** bin() and zfill *)

Lemma pos_bits_val p : bval (pos_bits p) = Zpos p.
Proof.
  induction p; cbn [pos_bits]; rewrite ?bval_app, ?IHp; [| |reflexivity];
    change (List.length [_]) with 1%nat; change (2 ^ Z.of_nat 1) with 2; cbn [bval fold_left]; cbn; lia.
Qed.

Lemma pos_bits_length p : List.length (pos_bits p) = Pos.size_nat p.
Proof. induction p; cbn; rewrite ?app_length; cbn; lia. Qed.

Lemma pos_bits_nonnil p : pos_bits p <> [].
Proof. destruct p; cbn; try discriminate; intro E; apply app_eq_nil in E; destruct E; discriminate. Qed.

Lemma size_nat_pos p : (1 <= Pos.size_nat p)%nat.
Proof. destruct p; cbn; lia. Qed.

Lemma pos_bits_bound p : 2 ^ (Z.of_nat (List.length (pos_bits p)) - 1) <= Zpos p
                         < 2 ^ Z.of_nat (List.length (pos_bits p)).
Proof.
  rewrite pos_bits_length. induction p as [p IH|p IH|].
  - pose proof (size_nat_pos p). cbn [Pos.size_nat]. rewrite Nat2Z.inj_succ.
    replace (Z.succ (Z.of_nat (Pos.size_nat p)) - 1)
      with (Z.succ (Z.of_nat (Pos.size_nat p) - 1)) by lia.
    rewrite !Z.pow_succ_r by lia. lia.
  - pose proof (size_nat_pos p). cbn [Pos.size_nat]. rewrite Nat2Z.inj_succ.
    replace (Z.succ (Z.of_nat (Pos.size_nat p)) - 1)
      with (Z.succ (Z.of_nat (Pos.size_nat p) - 1)) by lia.
    rewrite !Z.pow_succ_r by lia. lia.
  - cbn. lia.
Qed.

(** The number of digits of [bin(z)[2:]]. *)
Definition bin_len (z : Z) : nat :=
  match z with Zpos p => Pos.size_nat p | _ => 1%nat end.

Lemma bin_len_pos z : (1 <= bin_len z)%nat.
Proof. destruct z; cbn; try lia. destruct p; cbn; lia. Qed.

Lemma bin_len_lt z w : 0 <= z -> (1 <= w)%nat -> (bin_len z <= w)%nat <-> z < 2 ^ Z.of_nat w.
Proof.
  intros Hz Hw. destruct z as [|p|p]; try lia.
  - cbn. pose proof (pow2_pos w). lia.
  - cbn [bin_len]. pose proof (pos_bits_bound p) as [L U]. rewrite pos_bits_length in L, U.
    split; intros H.
    + eapply Z.lt_le_trans; [apply U|]. apply Z.pow_le_mono_r; lia.
    + destruct (Nat.le_gt_cases (Pos.size_nat p) w); auto. exfalso.
      assert (2 ^ Z.of_nat w <= 2 ^ (Z.of_nat (Pos.size_nat p) - 1)) by (apply Z.pow_le_mono_r; lia).
      lia.
Qed.

Lemma py_bin_ok z : 0 <= z -> py_bin z = Ok (to_bits (bin_len z) z).
Proof.
  destruct z as [|p|p]; intros H; try lia; cbn [py_bin bin_len].
  - reflexivity.
  - f_equal. apply to_bits_unique; [apply pos_bits_length | apply pos_bits_val].
Qed.

Lemma py_bin_inv z s : py_bin z = Ok s -> 0 <= z /\ s = to_bits (bin_len z) z.
Proof.
  intros H. assert (0 <= z) by (destruct z; try discriminate; lia).
  rewrite py_bin_ok in H by auto. injection H; auto.
Qed.

Lemma zfill_length w s : List.length (zfill w s) = Nat.max w (List.length s).
Proof. unfold zfill. rewrite app_length, repeat_length. lia. Qed.

Lemma zfill_val w s : bval (zfill w s) = bval s.
Proof. apply bval_zeros_app. Qed.

Lemma zfill_to_bits w z : (1 <= w)%nat -> 0 <= z < 2 ^ Z.of_nat w ->
  zfill w (to_bits (bin_len z) z) = to_bits w z.
Proof.
  intros Hw Hz. apply to_bits_unique.
  - rewrite zfill_length, to_bits_length.
    pose proof (proj2 (bin_len_lt z w ltac:(lia) Hw) (proj2 Hz)). lia.
  - rewrite zfill_val. apply bval_to_bits. split; [lia|].
    apply bin_len_lt; [lia| apply bin_len_pos|lia].
Qed.

Lemma py_format_b_ok w z : (1 <= w)%nat -> 0 <= z < 2 ^ Z.of_nat w ->
  py_format_b w z = Ok (to_bits w z).
Proof.
  intros. unfold py_format_b. rewrite py_bin_ok by lia. cbn [bind]. now rewrite zfill_to_bits.
Qed.

Lemma py_int2_ok s : s <> [] -> py_int2 s = Ok (bval s).
Proof. destruct s; [congruence|reflexivity]. Qed.

(** ** Octets *)

Lemma obits_length bs : List.length (obits bs) = (8 * List.length bs)%nat.
Proof. unfold obits. induction bs; cbn [map List.concat List.length]; auto.
  rewrite app_length, to_bits_length, IHbs. lia. Qed.

Lemma obits_app a b : obits (a ++ b) = obits a ++ obits b.
Proof. unfold obits. now rewrite map_app, concat_app. Qed.

Lemma obits_cons a b : obits (a :: b) = to_bits 8 a ++ obits b.
Proof. reflexivity. Qed.

Lemma octs_of_fuel_obits n s : List.length s = (8 * n)%nat -> obits (octs_of_fuel n s) = s.
Proof.
  revert s. induction n; intros s H; cbn [octs_of_fuel].
  - destruct s; [reflexivity|discriminate].
  - rewrite obits_cons, IHn by (rewrite skipn_length; lia).
    replace (to_bits 8 (bval (firstn 8 s))) with (firstn 8 s).
    + apply firstn_skipn.
    + assert (L : List.length (firstn 8 s) = 8%nat) by (rewrite firstn_length; lia).
      rewrite <- L at 2. now rewrite to_bits_bval.
Qed.

Lemma octs_of_obits s : Nat.modulo (List.length s) 8 = 0%nat -> obits (octs_of s) = s.
Proof.
  intros H. apply octs_of_fuel_obits. pose proof (Nat.div_mod (List.length s) 8). lia.
Qed.

Lemma octs_of_fuel_length n s : List.length (octs_of_fuel n s) = n.
Proof. revert s; induction n; intros; cbn; auto. Qed.

Lemma octs_of_length s : List.length (octs_of s) = Nat.div (List.length s) 8.
Proof. apply octs_of_fuel_length. Qed.

Lemma octs_of_fuel_octet n s : Forall octet (octs_of_fuel n s).
Proof.
  revert s; induction n; intros; cbn [octs_of_fuel]; constructor; auto.
  pose proof (bval_range (firstn 8 s)) as R. pose proof (firstn_le_length 8 s).
  assert (2 ^ Z.of_nat (List.length (firstn 8 s)) <= 2 ^ 8) by (apply Z.pow_le_mono_r; lia).
  change (2 ^ 8) with 256 in *. unfold octet. lia.
Qed.

Lemma octs_of_octet s : Forall octet (octs_of s).
Proof. apply octs_of_fuel_octet. Qed.

Lemma obits_inj a b : Forall octet a -> Forall octet b -> obits a = obits b -> a = b.
Proof.
  intros Ha. revert b. induction Ha as [|x a Hx Ha IH]; intros b Hb E.
  - destruct b; auto. rewrite obits_cons in E. discriminate.
  - destruct Hb as [|y b Hy Hb].
    + rewrite obits_cons in E. discriminate.
    + rewrite !obits_cons in E.
      assert (E1 : to_bits 8 x = to_bits 8 y).
      { apply (f_equal (firstn 8)) in E. rewrite !firstn_app in E.
        rewrite !to_bits_length, !Nat.sub_diag, !firstn_O, !app_nil_r in E.
        rewrite !firstn_all2 in E by (rewrite to_bits_length; lia). auto. }
      assert (E2 : obits a = obits b).
      { apply (f_equal (skipn 8)) in E. rewrite !skipn_app in E.
        rewrite !to_bits_length, !Nat.sub_diag, !skipn_O in E.
        rewrite !skipn_all2 in E by (rewrite to_bits_length; lia). auto. }
      f_equal; auto. apply (to_bits_inj 8); auto.
Qed.

Lemma octs_of_unique bs : Forall octet bs -> octs_of (obits bs) = bs.
Proof.
  intros H. apply obits_inj; auto using octs_of_octet.
  apply octs_of_obits. rewrite obits_length. now rewrite Nat.mul_comm, Nat.mod_mul.
Qed.

(** ** Hexadecimal *)

Definition hexdigit (d : Z) : Prop := 0 <= d < 16.

Lemma hval_acc s a :
  fold_left (fun acc d => 16 * acc + d) s a = a * 16 ^ Z.of_nat (List.length s) + hval s.
Proof.
  unfold hval. revert a. induction s as [|b s IH]; intros a.
  - cbn [fold_left List.length]. change (16 ^ Z.of_nat 0) with 1. lia.
  - cbn [fold_left List.length]. rewrite IH, (IH (16 * 0 + b)).
    rewrite Nat2Z.inj_succ, Z.pow_succ_r by lia. ring.
Qed.

Lemma hval_cons b s : hval (b :: s) = b * 16 ^ Z.of_nat (List.length s) + hval s.
Proof. unfold hval at 1. cbn [fold_left]. rewrite hval_acc. f_equal. Qed.

Lemma hval_app a b : hval (a ++ b) = hval a * 16 ^ Z.of_nat (List.length b) + hval b.
Proof. unfold hval at 1. rewrite fold_left_app, hval_acc. reflexivity. Qed.

Lemma pow16_pos n : 0 < 16 ^ Z.of_nat n.
Proof. apply Z.pow_pos_nonneg; lia. Qed.

Lemma hval_range s : Forall hexdigit s -> 0 <= hval s < 16 ^ Z.of_nat (List.length s).
Proof.
  induction 1 as [|d s Hd Hs IH].
  - cbn. lia.
  - rewrite hval_cons. cbn [List.length]. rewrite Nat2Z.inj_succ, Z.pow_succ_r by lia.
    unfold hexdigit in Hd. pose proof (pow16_pos (List.length s)). nia.
Qed.

Lemma hval_inj a b : Forall hexdigit a -> Forall hexdigit b ->
  List.length a = List.length b -> hval a = hval b -> a = b.
Proof.
  intros Ha. revert b. induction Ha as [|x a Hx Ha IH]; intros b Hb HL HV.
  - destruct b; [auto|discriminate].
  - destruct Hb as [|y b Hy Hb]; [discriminate|].
    rewrite !hval_cons in HV. cbn in HL. injection HL as HL. rewrite HL in HV.
    pose proof (hval_range a Ha) as Ra. pose proof (hval_range b Hb) as Rb. rewrite HL in Ra.
    assert (x = y) by (unfold hexdigit in *; nia). subst y.
    f_equal. apply IH; auto. lia.
Qed.

Lemma hex_loop_spec fuel z acc : 0 <= z -> z < 16 ^ Z.of_nat fuel -> Forall hexdigit acc ->
  let h := hex_loop fuel z acc in
  Forall hexdigit h /\ hval h = z * 16 ^ Z.of_nat (List.length acc) + hval acc /\
  (List.length acc <= List.length h)%nat /\
  forall w, (1 <= w)%nat -> z < 16 ^ Z.of_nat w -> (List.length h <= w + List.length acc)%nat.
Proof.
  revert z acc. induction fuel as [|f IH]; intros z acc Hz Hf Ha; cbn [hex_loop].
  - change (16 ^ Z.of_nat 0) with 1 in Hf. assert (z = 0) by lia. subst.
    repeat split; auto; try lia.
  - destruct (Z.eqb_spec z 0) as [->|Hz0].
    + repeat split; auto; try lia.
    + assert (Hd : hexdigit (z mod 16)) by (apply Z.mod_pos_bound; lia).
      destruct (IH (z / 16) (z mod 16 :: acc)) as (A & B & C & D).
      * apply Z.div_pos; lia.
      * apply Z.div_lt_upper_bound; [lia|]. rewrite Nat2Z.inj_succ, Z.pow_succ_r in Hf by lia. lia.
      * constructor; auto.
      * cbn zeta. repeat split; auto.
        -- rewrite B, hval_cons. cbn [List.length]. rewrite Nat2Z.inj_succ, Z.pow_succ_r by lia.
           rewrite (Z.div_mod z 16) at 3 by lia. ring.
        -- cbn [List.length] in C. lia.
        -- intros w Hw Hlt. cbn [List.length] in D.
           destruct w as [|w]; [lia|].
           destruct w as [|w].
           ++ change (16 ^ Z.of_nat 1) with 16 in Hlt.
              rewrite (Z.div_small z 16) by lia.
              destruct f; cbn [hex_loop List.length]; [lia|]. rewrite Z.eqb_refl. cbn. lia.
           ++ specialize (D (S w)). replace (S (S w) + List.length acc)%nat
                with (S w + S (List.length acc))%nat by lia.
              apply D; [lia|]. apply Z.div_lt_upper_bound; [lia|].
              rewrite Nat2Z.inj_succ, Z.pow_succ_r in Hlt by lia. lia.
Qed.

Lemma hzfill_spec w h : Forall hexdigit h ->
  Forall hexdigit (hzfill w h) /\ hval (hzfill w h) = hval h /\
  List.length (hzfill w h) = Nat.max w (List.length h).
Proof.
  intros H. unfold hzfill. repeat split.
  - apply Forall_app. split; auto. apply Forall_forall. intros x Hx. apply repeat_spec in Hx.
    subst; unfold hexdigit; lia.
  - rewrite hval_app. assert (hval (repeat 0 (w - List.length h)) = 0) as ->; [|lia].
    induction (w - List.length h)%nat; cbn [repeat]; [reflexivity|]. rewrite hval_cons; lia.
  - rewrite app_length, repeat_length. lia.
Qed.

Lemma py_hex_spec z : 0 <= z -> exists h, py_hex z = Ok h /\ Forall hexdigit h /\ hval h = z /\
  (1 <= List.length h)%nat /\
  forall w, (1 <= w)%nat -> z < 16 ^ Z.of_nat w -> (List.length h <= w)%nat.
Proof.
  destruct z as [|p|p]; intros H; try lia.
  - exists [0]. cbn. repeat split; auto. constructor; [unfold hexdigit; lia|constructor].
  - cbn [py_hex]. set (z := Z.pos p) in *. eexists; split; [reflexivity|].
    destruct (hex_loop_spec (S (Z.to_nat (Z.log2 z))) z []) as (A & B & C & D); auto.
    + pose proof (Z.log2_spec z ltac:(lia)) as [_ L]. pose proof (Z.log2_nonneg z).
      eapply Z.lt_le_trans; [apply L|].
      rewrite Nat2Z.inj_succ, Z2Nat.id by lia. apply Z.pow_le_mono_l. lia.
    + repeat split; auto.
      * rewrite B. cbn [List.length]. change (16 ^ Z.of_nat 0) with 1. change (hval []) with 0. lia.
      * destruct (hex_loop _ _ _) eqn:E; cbn [List.length]; [|lia].
        exfalso. cbn [List.length] in B. change (16 ^ Z.of_nat 0) with 1 in B.
        change (hval []) with 0 in B. lia.
      * intros w Hw Hlt. specialize (D w Hw Hlt). cbn [List.length] in D. lia.
Qed.

Lemma hexlify_spec bs : Forall octet bs ->
  Forall hexdigit (hexlify bs) /\ List.length (hexlify bs) = (2 * List.length bs)%nat /\
  hval (hexlify bs) = bval (obits bs).
Proof.
  induction 1 as [|b bs Hb Hbs (A & B & C)].
  - repeat split; constructor.
  - cbn [hexlify]. unfold octet in Hb. repeat split.
    + constructor; [|constructor; auto]; unfold hexdigit.
      * split; [apply Z.div_pos; lia| apply Z.div_lt_upper_bound; lia].
      * apply Z.mod_pos_bound; lia.
    + cbn [List.length]. lia.
    + rewrite !hval_cons, C, obits_cons, bval_app, bval_to_bits by (unfold octet; lia).
      cbn [List.length]. rewrite B, obits_length.
      rewrite Nat2Z.inj_succ, Z.pow_succ_r by lia.
      replace (16 ^ Z.of_nat (2 * List.length bs)) with (2 ^ Z.of_nat (8 * List.length bs)).
      * rewrite (Z.div_mod b 16) at 3 by lia. ring.
      * change 16 with (2 ^ 4). rewrite <- Z.pow_mul_r by lia. f_equal. lia.
Qed.

Lemma unhexlify_hexlify bs : unhexlify (hexlify bs) = Ok bs.
Proof.
  induction bs; cbn [hexlify unhexlify]; auto. rewrite IHbs. cbn [bind].
  f_equal. f_equal. pose proof (Z.div_mod a 16). lia.
Qed.

Lemma from_hex_string_hexlify bs : from_hex_string (hexlify bs) = bs.
Proof.
  induction bs; cbn [hexlify from_hex_string]; auto. rewrite IHbs.
  f_equal. pose proof (Z.div_mod a 16). lia.
Qed.

(** The hexadecimal digits of an octet string of known length. *)
Lemma hex_digits_unique bs h : Forall octet bs -> Forall hexdigit h ->
  List.length h = (2 * List.length bs)%nat -> hval h = bval (obits bs) -> h = hexlify bs.
Proof.
  intros Hb Hh HL HV. destruct (hexlify_spec bs Hb) as (A & B & C).
  apply hval_inj; auto; congruence.
Qed.

Lemma obits_val_lt bs : bval (obits bs) < 16 ^ Z.of_nat (2 * List.length bs).
Proof.
  pose proof (bval_range (obits bs)) as [_ H]. rewrite obits_length in H.
  replace (16 ^ Z.of_nat (2 * List.length bs)) with (2 ^ Z.of_nat (8 * List.length bs)); auto.
  change 16 with (2 ^ 4). rewrite <- Z.pow_mul_r by lia. f_equal. lia.
Qed.

Lemma py_hex_zfill bs w : Forall octet bs -> bs <> [] -> w = (2 * List.length bs)%nat ->
  bind (py_hex (bval (obits bs))) (fun h => Ok (hzfill w h)) = Ok (hexlify bs).
Proof.
  intros Hb Hn ->. destruct (py_hex_spec (bval (obits bs))) as (h & E & Hh & HV & _ & HL).
  { apply bval_range. }
  rewrite E. cbn [bind]. f_equal.
  assert (1 <= 2 * List.length bs)%nat by (destruct bs; cbn; [congruence|lia]).
  specialize (HL (2 * List.length bs)%nat ltac:(lia) (obits_val_lt bs)).
  destruct (hzfill_spec (2 * List.length bs) h Hh) as (A & B & C).
  apply hex_digits_unique; auto; try lia.
Qed.
