(** The number and length fields: closed forms of what the encoder writes, and
    the decoder reading them back. *)
From Coq Require Import ZArith List String Bool Lia Arith.
From Coq Require Import ZifyBool ZifyNat ZifyN.
Import ListNotations.
From Verif Require Import PyBase Schema Encoder Decoder BitFacts Stream.
Open Scope Z_scope.

Ltac Zify.zify_post_hook ::= Z.div_mod_to_equations.

(** ** Octet counts *)

(** Least number of octets, at least one, that hold [z] as unsigned. *)
Definition noct (z : Z) : nat := Nat.div (bin_len z + 7) 8.

Lemma noct_pos z : (1 <= noct z)%nat.
Proof. unfold noct. pose proof (bin_len_pos z). lia. Qed.

Lemma noct_le z k : 0 <= z -> (1 <= k)%nat -> (noct z <= k)%nat <-> z < 2 ^ Z.of_nat (8 * k).
Proof.
  intros Hz Hk. rewrite <- bin_len_lt by lia. unfold noct. lia.
Qed.

Lemma noct_lt z : 0 <= z -> z < 2 ^ Z.of_nat (8 * noct z).
Proof. intros. apply noct_le; auto using noct_pos. Qed.

Lemma noct_mono a b : 0 <= a <= b -> (noct a <= noct b)%nat.
Proof.
  intros H. apply noct_le; auto using noct_pos; try lia.
  pose proof (noct_lt b). lia.
Qed.

Lemma min_octets_ok z : 0 <= z ->
  encode_non_negative_min_octets z = Ok (to_bits (8 * noct z) z).
Proof.
  intros Hz. unfold encode_non_negative_min_octets. rewrite py_bin_ok by auto. cbn [bind].
  rewrite to_bits_length. f_equal. pose proof (bin_len_pos z).
  assert (V : bval (to_bits (bin_len z) z) = z).
  { apply bval_to_bits. split; auto. apply bin_len_lt; auto. }
  apply to_bits_unique.
  - unfold pad_to_octet, noct. destruct (Nat.eqb_spec (Nat.modulo (bin_len z) 8) 0);
      rewrite ?app_length, ?repeat_length, ?to_bits_length; lia.
  - destruct (Nat.eqb _ _); auto. unfold pad_to_octet. now rewrite bval_zeros_app.
Qed.

(** Least number of octets, at least three, that hold [r]. *)
Lemma range_loop_spec fuel r m k : (forall j, (m <= j)%nat -> (j < m + k)%nat -> 2 ^ (Z.of_nat j * 8) <= r) ->
  (k < fuel)%nat -> r < 2 ^ (Z.of_nat (m + k) * 8) -> range_octet_loop fuel r m = Ok (m + k)%nat.
Proof.
  revert m k. induction fuel as [|f IH]; intros m k Hlow Hk Hr; [lia|].
  cbn [range_octet_loop]. destruct (Z.ltb_spec r (2 ^ (Z.of_nat m * 8))).
  - destruct k as [|k]; [f_equal; lia|]. specialize (Hlow m). lia.
  - destruct k as [|k]; [rewrite Nat.add_0_r in Hr; lia|].
    replace (m + S k)%nat with (S m + k)%nat in * by lia.
    apply IH; auto; try lia. intros j Hj Hj'. apply Hlow; lia.
Qed.

Lemma range_octet_ok r : 0 <= r -> get_range_octet_len r = Ok (Nat.max 3 (noct r)).
Proof.
  intros Hr. unfold get_range_octet_len.
  replace (Nat.max 3 (noct r)) with (3 + (Nat.max 3 (noct r) - 3))%nat by lia.
  apply range_loop_spec.
  - intros j Hj Hj'. destruct (Z.le_gt_cases (2 ^ (Z.of_nat j * 8)) r); auto.
    assert (noct r <= j)%nat; [|lia]. apply noct_le; try lia.
    replace (Z.of_nat (8 * j)) with (Z.of_nat j * 8) by lia. lia.
  - pose proof (Z.log2_nonneg r). destruct (Z.eq_dec r 0) as [->|]; [cbn; lia|].
    pose proof (Z.log2_spec r ltac:(lia)) as [_ L].
    assert (noct r <= S (Z.to_nat (Z.log2 r)))%nat; [|lia].
    apply noct_le; try lia. eapply Z.lt_le_trans; [apply L|]. apply Z.pow_le_mono_r; lia.
  - replace (Z.of_nat (3 + (Nat.max 3 (noct r) - 3)) * 8) with (Z.of_nat (8 * Nat.max 3 (noct r))) by lia.
    apply noct_le; lia.
Qed.

(** ** Constrained whole number: X.691 11.5 *)

Definition cwn_field (n lb ub : Z) : field :=
  let range := ub - lb + 1 in
  if range =? 1 then F false []
  else if range <=? 255 then F false (to_bits (Z.to_nat (Z.log2_up range)) (n - lb))
  else if range =? 256 then F true (to_bits 8 (n - lb))
  else if range <=? 65536 then F true (to_bits 16 (n - lb))
  else F true (to_bits (8 * noct (n - lb)) (n - lb)).

Lemma bit_field_size_small r : 2 <= r <= 255 ->
  get_bit_field_size r = Ok (Some (0%nat, Z.to_nat (Z.log2_up r))).
Proof.
  intros H. unfold get_bit_field_size.
  assert (U : forall k, 0 < Z.of_nat k -> 2 ^ (Z.of_nat k - 1) < r <= 2 ^ Z.of_nat k ->
              Z.to_nat (Z.log2_up r) = k).
  { intros k Hk Hr. rewrite (Z.log2_up_unique r (Z.of_nat k)); lia. }
  destruct (Z.eqb_spec r 1); [lia|].
  destruct (Z.eqb_spec r 2); [rewrite (U 1%nat) by (cbn; lia); reflexivity|].
  destruct (Z.leb_spec r 4).
  { replace ((3 <=? r) && true) with true by lia. rewrite (U 2%nat) by (cbn; lia). reflexivity. }
  rewrite andb_false_r. destruct (Z.leb_spec r 8).
  { replace ((5 <=? r) && true) with true by lia. rewrite (U 3%nat) by (cbn; lia). reflexivity. }
  rewrite andb_false_r. destruct (Z.leb_spec r 16).
  { replace ((9 <=? r) && true) with true by lia. rewrite (U 4%nat) by (cbn; lia). reflexivity. }
  rewrite andb_false_r. destruct (Z.leb_spec r 32).
  { replace ((17 <=? r) && true) with true by lia. rewrite (U 5%nat) by (cbn; lia). reflexivity. }
  rewrite andb_false_r. destruct (Z.leb_spec r 64).
  { replace ((33 <=? r) && true) with true by lia. rewrite (U 6%nat) by (cbn; lia). reflexivity. }
  rewrite andb_false_r. destruct (Z.leb_spec r 128).
  { replace ((65 <=? r) && true) with true by lia. rewrite (U 7%nat) by (cbn; lia). reflexivity. }
  rewrite andb_false_r. destruct (Z.leb_spec r 255); [|lia].
  replace ((129 <=? r) && true) with true by lia. rewrite (U 8%nat) by (cbn; lia). reflexivity.
Qed.

Lemma bit_field_size_256 : get_bit_field_size 256 = Ok (Some (1, 0)%nat).
Proof. reflexivity. Qed.

Lemma bit_field_size_2 r : 257 <= r <= 65536 -> get_bit_field_size r = Ok (Some (2, 0)%nat).
Proof.
  intros H. unfold get_bit_field_size.
  repeat match goal with
  | |- context [?a =? ?b] => destruct (Z.eqb_spec a b); [lia|]
  | |- context [?a <=? 4] => destruct (Z.leb_spec a 4); [lia|]
  | |- context [?a <=? 8] => destruct (Z.leb_spec a 8); [lia|]
  | |- context [?a <=? 16] => destruct (Z.leb_spec a 16); [lia|]
  | |- context [?a <=? 32] => destruct (Z.leb_spec a 32); [lia|]
  | |- context [?a <=? 64] => destruct (Z.leb_spec a 64); [lia|]
  | |- context [?a <=? 128] => destruct (Z.leb_spec a 128); [lia|]
  | |- context [?a <=? 255] => destruct (Z.leb_spec a 255); [lia|]
  end. rewrite !andb_false_r.
  replace ((256 <? r) && (r <=? 65536)) with true by lia. reflexivity.
Qed.

Lemma bit_field_size_big r : 65536 < r ->
  get_bit_field_size r = Ok (Some (Nat.max 3 (noct r), 0%nat)).
Proof.
  intros H. unfold get_bit_field_size.
  repeat match goal with
  | |- context [?a =? ?b] => destruct (Z.eqb_spec a b); [lia|]
  | |- context [?a <=? ?b] => lazymatch a with r => destruct (Z.leb_spec a b); [lia|] end
  end. rewrite !andb_false_r. replace (65536 <? r) with true by lia.
  rewrite range_octet_ok by lia. reflexivity.
Qed.

Lemma bit_field_size_ok r : 1 <= r -> exists o, get_bit_field_size r = Ok (Some o).
Proof.
  intros H. destruct (Z.eq_dec r 1) as [->|]; [eexists; reflexivity|].
  destruct (Z.le_gt_cases r 255); [rewrite bit_field_size_small by lia; eauto|].
  destruct (Z.eq_dec r 256) as [->|]; [eexists; reflexivity|].
  destruct (Z.le_gt_cases r 65536); [rewrite bit_field_size_2 by lia; eauto|].
  rewrite bit_field_size_big by lia; eauto.
Qed.

Lemma log2_up_width r d : 2 <= r -> 0 <= d < r ->
  (1 <= Z.to_nat (Z.log2_up r))%nat /\ 0 <= d < 2 ^ Z.of_nat (Z.to_nat (Z.log2_up r)).
Proof.
  intros Hr Hd. pose proof (Z.log2_up_spec r ltac:(lia)) as [_ U].
  pose proof (Z.log2_up_pos r ltac:(lia)). rewrite Z2Nat.id by lia. lia.
Qed.

Lemma cwn_ok n lb ub : lb <= n <= ub ->
  encode_constrained_whole_number n lb ub = Ok (cwn_field n lb ub).
Proof.
  intros H. unfold encode_constrained_whole_number, cwn_field. set (r := ub - lb + 1).
  destruct (bit_field_size_ok r) as (o & E); [lia|]. rewrite E. cbn [bind].
  destruct (Z.eqb_spec r 1); auto.
  unfold encode_non_negative_sized.
  destruct (Z.leb_spec r 255).
  { rewrite bit_field_size_small in E by lia. injection E as <-. cbn [fst snd].
    destruct (log2_up_width r (n - lb)); try lia.
    rewrite py_format_b_ok by (cbn [Nat.mul Nat.add]; auto). reflexivity. }
  destruct (Z.eqb_spec r 256) as [R|].
  { rewrite R, bit_field_size_256 in E. injection E as <-. cbn [fst snd].
    rewrite py_format_b_ok; [reflexivity|lia|]. change (2 ^ Z.of_nat (1 * 8 + 0)) with 256. lia. }
  destruct (Z.leb_spec r 65536).
  { replace ((257 <=? r) && true) with true by lia.
    rewrite bit_field_size_2 in E by lia. injection E as <-. cbn [fst snd].
    rewrite py_format_b_ok; [reflexivity|lia|]. change (2 ^ Z.of_nat (2 * 8 + 0)) with 65536. lia. }
  rewrite andb_false_r. rewrite min_octets_ok by lia. reflexivity.
Qed.

(** Reading one field. *)
Lemma reads_field_bits n z pos : (1 <= n)%nat -> 0 <= z < 2 ^ Z.of_nat n ->
  reads (decode_non_negative (Some (0%nat, n)) false) pos (to_bits n z) z.
Proof.
  intros Hn Hz. cbn [decode_non_negative]. eapply reads_bind_r.
  - pose proof (reads_next_bits n pos (to_bits n z) (to_bits_length n z) Hn) as R.
    rewrite bval_to_bits in R by auto. exact R.
  - apply reads_ret.
Qed.

Lemma reads_field_octets k z pos : (1 <= k)%nat -> Nat.modulo pos 8 = 0%nat ->
  0 <= z < 2 ^ Z.of_nat (8 * k) ->
  reads (decode_non_negative (Some (k, 0%nat)) true) pos (to_bits (8 * k) z) z.
Proof.
  intros Hk Hp Hz. cbn [decode_non_negative]. eapply reads_bind_r.
  - pose proof (reads_next_octets k pos (to_bits (8 * k) z) (to_bits_length _ z) Hk) as R.
    rewrite bval_to_bits in R by auto. exact R.
  - rewrite to_bits_length. eapply reads_bind0; [apply reads_align0; lia|]. apply reads_ret.
Qed.

Lemma render_one pos f : render pos [f] = fpad (falign f) pos ++ fbits f.
Proof. cbn [render]. now rewrite app_nil_r. Qed.

Lemma up8_pad pos : (pos + len (padding pos))%nat = up8 pos.
Proof. now rewrite padding_length. Qed.

Lemma reads_cwn n lb ub pos : lb <= n <= ub -> ub - lb + 1 <= 65536 -> (lb = ub -> lb = 0) ->
  reads (decode_constrained_whole_number lb ub) pos (render pos [cwn_field n lb ub]) n.
Proof.
  intros H Hr H1. rewrite render_one. unfold decode_constrained_whole_number, cwn_field, integer_range.
  set (r := ub - lb + 1) in *. destruct (bit_field_size_ok r) as (o & E); [lia|].
  eapply reads_bind0; [apply reads_lift; exact E|].
  destruct (Z.eqb_spec r 1).
  { cbn [falign fbits fpad app]. replace n with 0 by lia. apply reads_ret. }
  destruct (Z.leb_spec r 255).
  { cbn [falign fbits fpad app]. rewrite bit_field_size_small in E by lia. injection E as <-.
    destruct (log2_up_width r (n - lb)); try lia.
    eapply reads_bind_r; [apply reads_field_bits; auto|].
    replace (lb + (n - lb)) with n by lia. apply reads_ret. }
  destruct (Z.eqb_spec r 256) as [R|].
  { cbn [falign fbits fpad]. rewrite R, bit_field_size_256 in E. injection E as <-.
    eapply reads_bind; [apply reads_align|]. rewrite up8_pad.
    eapply reads_bind_r; [apply (reads_field_octets 1); auto using up8_mod|].
    { change (2 ^ Z.of_nat (8 * 1)) with 256. lia. }
    replace (lb + (n - lb)) with n by lia. apply reads_ret. }
  destruct (Z.leb_spec r 65536); [|lia].
  replace ((257 <=? r) && true) with true by lia.
  cbn [falign fbits fpad]. rewrite bit_field_size_2 in E by lia. injection E as <-.
  eapply reads_bind; [apply reads_align|]. rewrite up8_pad.
  eapply reads_bind_r; [apply (reads_field_octets 2); auto using up8_mod|].
  { change (2 ^ Z.of_nat (8 * 2)) with 65536. lia. }
  replace (lb + (n - lb)) with n by lia. apply reads_ret.
Qed.

(** Constrained whole number with its length when the range exceeds 65536. *)
Definition cwn_fields (n lb ub : Z) : list field :=
  if ub - lb + 1 <=? 65536 then [cwn_field n lb ub]
  else [cwn_field (Z.of_nat (noct (n - lb))) 1 (Z.of_nat (Nat.max 3 (noct (ub - lb))));
        F true (to_bits (8 * noct (n - lb)) (n - lb))].

Lemma octets_of_to_bits k z : octets_of (to_bits (8 * k) z) = Z.of_nat k.
Proof. unfold octets_of. rewrite to_bits_length. lia. Qed.

Lemma cwn_fields_ok n lb ub : lb <= n <= ub ->
  create_field_list_for_constrained_whole_number n (Some lb) (Some ub) = Ok (cwn_fields n lb ub).
Proof.
  intros H. unfold create_field_list_for_constrained_whole_number, cwn_fields, integer_range.
  cbn [need bind]. rewrite cwn_ok by auto. cbn [bind].
  destruct (Z.leb_spec (ub - lb + 1) 65536); auto.
  rewrite range_octet_ok by lia. cbn [bind]. unfold length_constrained. cbn [need bind].
  assert (F0 : cwn_field n lb ub = F true (to_bits (8 * noct (n - lb)) (n - lb))).
  { unfold cwn_field. cbv zeta.
    repeat match goal with |- context [ub - lb + 1 =? ?b] => destruct (Z.eqb_spec (ub - lb + 1) b); [lia|]
    | |- context [ub - lb + 1 <=? ?b] => destruct (Z.leb_spec (ub - lb + 1) b); [lia|] end.
    reflexivity. }
  rewrite F0. cbn [fbits]. rewrite octets_of_to_bits.
  pose proof (noct_pos (n - lb)). pose proof (noct_mono (n - lb) (ub - lb) ltac:(lia)).
  rewrite cwn_ok by lia. reflexivity.
Qed.

Lemma render_cons2 pos f r : render pos (f :: r) = render pos [f] ++ render (pos + len (render pos [f])) r.
Proof. rewrite render_cons, render_one. reflexivity. Qed.

Lemma reads_octets_aligned k z pos : (1 <= k)%nat -> 0 <= z < 2 ^ Z.of_nat (8 * k) ->
  reads (per_next (k, 0%nat) true) pos (render pos [F true (to_bits (8 * k) z)]) z.
Proof.
  intros Hk Hz. rewrite render_one. cbn [falign fbits fpad].
  pose proof (reads_next (k, 0%nat) true pos (padding pos) (to_bits (8 * k) z)) as R.
  rewrite bval_to_bits in R by auto. rewrite to_bits_length, padding_length in R. apply R; cbn [fst snd fpos]; try lia.
  unfold up8. lia.
Qed.

Lemma reads_cwn_fields n lb ub pos : lb <= n <= ub -> (lb = ub -> lb = 0) ->
  Z.of_nat (noct (ub - lb)) <= 65536 ->
  reads (decode_constrained_from_field_list (Some lb) (Some ub)) pos (render pos (cwn_fields n lb ub)) n.
Proof.
  intros H H1 Hbig. unfold decode_constrained_from_field_list, cwn_fields, integer_range.
  eapply reads_bind0; [apply reads_lift; reflexivity|].
  eapply reads_bind0; [apply reads_lift; reflexivity|].
  destruct (Z.leb_spec (ub - lb + 1) 65536); [apply reads_cwn; auto|].
  eapply reads_bind0; [apply reads_lift; apply range_octet_ok; lia|].
  rewrite render_cons2. pose proof (noct_pos (n - lb)).
  pose proof (noct_mono (n - lb) (ub - lb) ltac:(lia)).
  eapply reads_bind.
  { unfold dec_length_constrained.
    eapply reads_bind0; [apply reads_lift; reflexivity|].
    eapply reads_bind0; [apply reads_lift; reflexivity|].
    apply reads_cwn; lia. }
  rewrite Nat2Z.id. eapply reads_bind_r.
  - apply reads_octets_aligned; auto. split; [lia|]. apply noct_lt. lia.
  - replace (lb + (n - lb)) with n by lia. apply reads_ret.
Qed.

(** ** Length determinants: X.691 11.9 *)

Definition len_field (n : Z) : field :=
  if n <=? 127 then F true (to_bits 8 n) else F true (true :: false :: to_bits 14 n).

Lemma to_bits_S w z : 0 <= z < 2 ^ Z.of_nat w -> to_bits (S w) z = false :: to_bits w z.
Proof.
  intros H. symmetry. apply to_bits_unique.
  - cbn [List.length]. now rewrite to_bits_length.
  - rewrite bval_cons, bval_to_bits by auto. cbn [Z.b2z]. lia.
Qed.

Lemma length_unconstrained_ok n : 0 <= n < 16384 -> length_unconstrained n = Ok [len_field n].
Proof.
  intros H. unfold length_unconstrained, len_field, encode_non_negative_sized.
  destruct (Z.leb_spec n 127).
  - rewrite py_format_b_ok; cbn [fst snd]; [|lia|change (2 ^ Z.of_nat (0 * 8 + 7)) with 128; lia].
    cbn [bind Nat.mul Nat.add]. rewrite (to_bits_S 7); [reflexivity|]. change (2 ^ Z.of_nat 7) with 128. lia.
  - replace ((127 <? n) && (n <=? 16384)) with true by lia.
    rewrite py_format_b_ok; cbn [fst snd]; [|lia|change (2 ^ Z.of_nat (1 * 8 + 6)) with 16384; lia].
    reflexivity.
Qed.

Lemma reads_len n pos : 0 <= n < 16384 ->
  reads dec_length_unconstrained pos (render pos [len_field n]) n.
Proof.
  intros H. rewrite render_one. unfold dec_length_unconstrained, len_field.
  destruct (Z.leb_spec n 127); cbn [falign fbits fpad].
  - eapply reads_bind; [apply reads_align|]. rewrite up8_pad.
    rewrite (to_bits_S 7) by (change (2 ^ Z.of_nat 7) with 128; lia).
    change (false :: to_bits 7 n) with ([false] ++ to_bits 7 n).
    eapply reads_bind; [apply (reads_next_bits 1); auto|].
    cbn [bval fold_left]. cbn [Z.mul Z.add Z.b2z Z.eqb]. cbn [List.length].
    pose proof (up8_mod pos).
    cbn [decode_non_negative]. eapply reads_bind_r.
    + pose proof (reads_next_bits 7 (up8 pos + 1) (to_bits 7 n) (to_bits_length _ _)) as R.
      rewrite bval_to_bits in R by (change (2 ^ Z.of_nat 7) with 128; lia). apply R. lia.
    + rewrite to_bits_length. eapply reads_bind0; [apply reads_align0; lia|]. apply reads_ret.
  - eapply reads_bind; [apply reads_align|]. rewrite up8_pad.
    change (true :: false :: to_bits 14 n) with ([true] ++ [false] ++ to_bits 14 n).
    eapply reads_bind; [apply (reads_next_bits 1); auto|].
    cbn [bval fold_left]. cbn [Z.mul Z.add Z.b2z Z.eqb]. cbn [List.length].
    eapply reads_bind; [apply (reads_next_bits 1); auto|].
    cbn [bval fold_left]. cbn [Z.mul Z.add Z.b2z Z.eqb]. cbn [List.length].
    pose proof (up8_mod pos). cbn [decode_non_negative].
    eapply reads_bind_r.
    + pose proof (reads_next (1, 6)%nat false (up8 pos + 1 + 1) [] (to_bits 14 n)) as R.
      rewrite to_bits_length in R.
      rewrite bval_to_bits in R by (change (2 ^ Z.of_nat 14) with 16384; lia).
      apply R; cbn [fst snd fpos List.length]; lia.
    + rewrite to_bits_length. eapply reads_bind0; [apply reads_align0; lia|]. apply reads_ret.
Qed.

(** Normally small length (1..64) and normally small number. *)
Definition nsl_fields (n : Z) : list field := [F false [false]; F false (to_bits 6 (n - 1))].

Lemma length_normally_small_ok n : 1 <= n <= 64 -> length_normally_small n = Ok (nsl_fields n).
Proof.
  intros H. unfold length_normally_small, nsl_fields, encode_non_negative_sized.
  replace (n <=? 64) with true by lia.
  rewrite py_format_b_ok; cbn [fst snd]; [reflexivity|lia|].
  change (2 ^ Z.of_nat (0 * 8 + 6)) with 64. lia.
Qed.

Lemma length_normally_small_inv n fs : length_normally_small n = Ok fs -> n <= 64.
Proof. unfold length_normally_small. destruct (Z.leb_spec n 64); [auto|discriminate]. Qed.

Lemma reads_bit b pos : reads (next_bits 1) pos [b] (Z.b2z b).
Proof.
  replace (Z.b2z b) with (bval [b]) by (destruct b; reflexivity).
  apply reads_next_bits; auto.
Qed.

Lemma render_bit pos b r : render pos (F false [b] :: r) = [b] ++ render (pos + 1) r.
Proof. reflexivity. Qed.

Lemma render_plain pos s r : render pos (F false s :: r) = s ++ render (pos + len s) r.
Proof. reflexivity. Qed.

Lemma reads_nsl n pos : 1 <= n <= 64 ->
  reads dec_length_normally_small pos (render pos (nsl_fields n)) n.
Proof.
  intros H. unfold nsl_fields, dec_length_normally_small. rewrite render_bit.
  eapply reads_bind; [apply reads_bit|]. cbn [Z.b2z Z.eqb List.length].
  rewrite render_one. cbn [falign fbits fpad app].
  eapply reads_bind_r; [apply reads_field_bits; [lia|change (2 ^ Z.of_nat 6) with 64; lia]|].
  replace (n - 1 + 1) with n by lia. apply reads_ret.
Qed.

Definition nsn_fields (n : Z) : list field :=
  if n <=? 63 then [F false [false]; F false (to_bits 6 n)]
  else [F false [true]; len_field (Z.of_nat (noct n)); F true (to_bits (8 * noct n) n)].

Lemma normally_small_ok n : 0 <= n -> Z.of_nat (noct n) < 16384 ->
  encode_normally_small n 0 = Ok (nsn_fields n).
Proof.
  intros H Hn. unfold encode_normally_small, nsn_fields.
  destruct (Z.leb_spec n 63).
  - unfold encode_non_negative_sized. rewrite py_format_b_ok; cbn [fst snd]; [reflexivity|lia|].
    change (2 ^ Z.of_nat (0 * 8 + 6)) with 64. lia.
  - unfold encode_semi_constrained_whole_number. rewrite min_octets_ok by lia. cbn [bind fbits].
    rewrite octets_of_to_bits. rewrite Z.sub_0_r, length_unconstrained_ok by lia. reflexivity.
Qed.

(** Semi-constrained whole number after its length. *)
Definition semi_fields (n lb : Z) : list field :=
  [len_field (Z.of_nat (noct (n - lb))); F true (to_bits (8 * noct (n - lb)) (n - lb))].

Lemma len_field_align n : falign (len_field n) = true.
Proof. unfold len_field. destruct (n <=? 127); reflexivity. Qed.

Lemma len_field_mod8 n : Nat.modulo (len (fbits (len_field n))) 8 = 0%nat.
Proof. unfold len_field. destruct (n <=? 127); reflexivity. Qed.

Lemma render_len_mod8 n pos : Nat.modulo (pos + len (render pos [len_field n])) 8 = 0%nat.
Proof.
  rewrite render_one, len_field_align, app_length. cbn [fpad]. rewrite padding_length.
  pose proof (len_field_mod8 n). pose proof (up8_mod pos). unfold up8 in *. lia.
Qed.

Lemma render_true_at0 pos s r : Nat.modulo pos 8 = 0%nat ->
  render pos (F true s :: r) = s ++ render (pos + len s) r.
Proof.
  intros H. cbn [render falign fbits fpad fpos]. unfold padding.
  rewrite padn_0, up8_id by auto. reflexivity.
Qed.

Lemma render_true_one pos s : Nat.modulo pos 8 = 0%nat -> render pos [F true s] = s.
Proof. intros H. rewrite render_true_at0 by auto. cbn [render]. apply app_nil_r. Qed.

Lemma reads_semi n lb pos : lb <= n -> Z.of_nat (noct (n - lb)) < 16384 ->
  reads (decode_semi_constrained lb) pos (render pos (semi_fields n lb)) n.
Proof.
  intros H Hn. unfold decode_semi_constrained, semi_fields. rewrite render_cons2.
  eapply reads_bind; [apply reads_len; lia|].
  rewrite render_true_one by apply render_len_mod8. rewrite Nat2Z.id.
  eapply reads_bind_r.
  - apply (reads_next_octets _ _ _ (to_bits_length _ _) (noct_pos _)).
  - rewrite bval_to_bits by (split; [lia|apply noct_lt; lia]).
    replace (lb + (n - lb)) with n by lia. apply reads_ret.
Qed.

Lemma reads_nsn n pos : 0 <= n -> Z.of_nat (noct n) < 16384 ->
  reads (decode_normally_small 0) pos (render pos (nsn_fields n)) n.
Proof.
  intros H Hn. unfold decode_normally_small, nsn_fields.
  destruct (Z.leb_spec n 63).
  - rewrite render_bit. eapply reads_bind; [apply reads_bit|]. cbn [Z.b2z Z.eqb List.length].
    rewrite render_one. cbn [falign fbits fpad app].
    apply reads_field_bits; [lia|change (2 ^ Z.of_nat 6) with 64; lia].
  - rewrite render_bit. eapply reads_bind; [apply reads_bit|]. cbn [Z.b2z Z.eqb List.length].
    assert (E : exists s, len_field (Z.of_nat (noct n)) = F true s).
    { unfold len_field. destruct (_ <=? 127); eauto. }
    destruct E as (s & E). rewrite render_aligned by apply len_field_align.
    eapply reads_bind; [apply reads_align|]. rewrite up8_pad.
    pose proof (reads_semi n 0 (up8 (pos + 1)) ltac:(lia)) as R. unfold semi_fields in R.
    rewrite Z.sub_0_r in R. auto.
Qed.

(** ** Unconstrained whole number *)

(** Least number of octets, at least one, holding [z] in two's complement. *)
Definition toct (z : Z) : nat :=
  Nat.div (bin_len (if 0 <=? z then 2 * z else 2 * (- z - 1)) + 7) 8.

Lemma toct_noct z : toct z = noct (if 0 <=? z then 2 * z else 2 * (- z - 1)).
Proof. reflexivity. Qed.

Lemma toct_pos z : (1 <= toct z)%nat.
Proof. apply noct_pos. Qed.

Lemma pow_8m k : (1 <= k)%nat -> 2 ^ Z.of_nat (8 * k) = 2 * 2 ^ (Z.of_nat k * 8 - 1).
Proof.
  intros. replace (Z.of_nat (8 * k)) with (Z.succ (Z.of_nat k * 8 - 1)) by lia.
  rewrite Z.pow_succ_r by lia. reflexivity.
Qed.

Lemma toct_le z k : (1 <= k)%nat ->
  (toct z <= k)%nat <-> - 2 ^ (Z.of_nat k * 8 - 1) <= z < 2 ^ (Z.of_nat k * 8 - 1).
Proof.
  intros Hk. rewrite toct_noct. pose proof (pow_8m k Hk).
  assert (0 < 2 ^ (Z.of_nat k * 8 - 1)) by (apply Z.pow_pos_nonneg; lia).
  destruct (Z.leb_spec 0 z); rewrite noct_le by lia; lia.
Qed.

Lemma twos_loop_spec fuel z m k :
  (forall j, (m <= j)%nat -> (j < m + k)%nat ->
     ~ (- 2 ^ (Z.of_nat j * 8 - 1) <= z < 2 ^ (Z.of_nat j * 8 - 1))) ->
  (1 <= m)%nat -> (k < fuel)%nat ->
  - 2 ^ (Z.of_nat (m + k) * 8 - 1) <= z < 2 ^ (Z.of_nat (m + k) * 8 - 1) ->
  twos_octet_loop fuel z m = Ok (m + k)%nat.
Proof.
  revert m k. induction fuel as [|f IH]; intros m k Hlow Hm Hk Hr; [lia|].
  cbn [twos_octet_loop].
  assert (0 < 2 ^ (Z.of_nat m * 8 - 1)) by (apply Z.pow_pos_nonneg; lia).
  destruct k as [|k].
  - rewrite Nat.add_0_r in *. destruct (Z.leb_spec 0 z).
    + replace (z <? _) with true by lia. reflexivity.
    + replace (_ <=? z) with true by lia. reflexivity.
  - replace (m + S k)%nat with (S m + k)%nat in * by lia.
    assert (N : twos_octet_loop f z (S m) = Ok (S m + k)%nat).
    { apply IH; auto; try lia. intros j Hj Hj'. apply Hlow; lia. }
    specialize (Hlow m ltac:(lia) ltac:(lia)).
    destruct (Z.leb_spec 0 z).
    + replace (z <? _) with false by lia. auto.
    + replace (_ <=? z) with false by lia. auto.
Qed.

Lemma twos_octet_ok z : get_twos_complement_octet_len z = Ok (toct z).
Proof.
  unfold get_twos_complement_octet_len. pose proof (toct_pos z).
  replace (toct z) with (1 + (toct z - 1))%nat at 1 by lia.
  apply twos_loop_spec; try lia.
  - intros j Hj Hj' C. apply toct_le in C; lia.
  - assert (toct z <= S (Z.to_nat (Z.log2 (Z.abs z))))%nat; [|lia].
    apply toct_le; [lia|]. pose proof (Z.log2_nonneg (Z.abs z)).
    destruct (Z.eq_dec z 0) as [->|]; [cbn; lia|].
    pose proof (Z.log2_spec (Z.abs z) ltac:(lia)) as [_ L].
    assert (2 ^ Z.succ (Z.log2 (Z.abs z)) <= 2 ^ (Z.of_nat (S (Z.to_nat (Z.log2 (Z.abs z)))) * 8 - 1)).
    { apply Z.pow_le_mono_r; lia. }
    lia.
  - replace (1 + (toct z - 1))%nat with (toct z) by lia. apply toct_le; lia.
Qed.

Lemma bval_ones w : bval (repeat true w) = 2 ^ Z.of_nat w - 1.
Proof.
  induction w; [reflexivity|]. cbn [repeat]. rewrite bval_cons, IHw, repeat_length.
  rewrite Nat2Z.inj_succ, Z.pow_succ_r by lia. cbn [Z.b2z]. lia.
Qed.

Lemma lxor_ones a w : 0 <= a < 2 ^ Z.of_nat w -> Z.lxor a (2 ^ Z.of_nat w - 1) = 2 ^ Z.of_nat w - 1 - a.
Proof.
  intros H. replace (2 ^ Z.of_nat w - 1) with (Z.ones (Z.of_nat w)) by (rewrite Z.ones_equiv; lia).
  assert (L : forall i, Z.of_nat w <= i -> Z.testbit a i = false).
  { intros i Hi. destruct (Z.eq_dec a 0) as [->|]; [apply Z.bits_0|].
    apply Z.bits_above_log2; [lia|]. assert (Z.log2 a < Z.of_nat w) by (apply Z.log2_lt_pow2; lia). lia. }
  rewrite Z.sub_nocarry_ldiff.
  - apply Z.bits_inj'. intros i Hi. rewrite Z.ldiff_spec, Z.lxor_spec.
    destruct (Z.lt_ge_cases i (Z.of_nat w)).
    + rewrite Z.ones_spec_low by lia. destruct (Z.testbit a i); reflexivity.
    + rewrite Z.ones_spec_high, L by lia. reflexivity.
  - apply Z.bits_inj'. intros i Hi. rewrite Z.ldiff_spec, Z.bits_0.
    destruct (Z.lt_ge_cases i (Z.of_nat w)).
    + rewrite Z.ones_spec_low by lia. destruct (Z.testbit a i); reflexivity.
    + rewrite L by lia. reflexivity.
Qed.

Lemma to_bits_neg w z : to_bits w (z + 2 ^ Z.of_nat w) = to_bits w z.
Proof.
  rewrite <- (to_bits_mod w w (z + _)), <- (to_bits_mod w w z) by lia. f_equal.
  rewrite <- (Z.mul_1_l (2 ^ Z.of_nat w)) at 1. apply Z.mod_add. pose proof (pow2_pos w). lia.
Qed.

Lemma twos_ok z k : (1 <= k)%nat -> - 2 ^ (Z.of_nat k * 8 - 1) <= z < 2 ^ (Z.of_nat k * 8 - 1) ->
  encode_twos_complement z (8 * k) = Ok (to_bits (8 * k) z).
Proof.
  intros Hk Hz. unfold encode_twos_complement. pose proof (pow_8m k Hk).
  assert (0 < 2 ^ (Z.of_nat k * 8 - 1)) by (apply Z.pow_pos_nonneg; lia).
  destruct (Z.eqb_spec z 0) as [->|].
  { f_equal. apply to_bits_unique; [apply repeat_length|apply bval_zeros]. }
  destruct (Z.ltb_spec 0 z).
  { rewrite py_bin_ok by lia. cbn [bind]. rewrite zfill_to_bits by lia. reflexivity. }
  destruct (repeat true (8 * k)) eqn:E.
  { apply (f_equal (@List.length _)) in E. rewrite repeat_length in E. cbn [List.length] in E. lia. }
  rewrite <- E. rewrite py_int2_ok by (rewrite E; discriminate). cbn [bind].
  rewrite bval_ones, lxor_ones by lia.
  replace (2 ^ Z.of_nat (8 * k) - 1 - (Z.abs z - 1)) with (z + 2 ^ Z.of_nat (8 * k)) by lia.
  rewrite py_bin_ok by lia. f_equal.
  replace (bin_len (z + 2 ^ Z.of_nat (8 * k))) with (8 * k)%nat; [apply to_bits_neg|].
  apply Nat.le_antisymm.
  - destruct (Nat.le_gt_cases (8 * k) (bin_len (z + 2 ^ Z.of_nat (8 * k)))); auto.
    assert (L : (bin_len (z + 2 ^ Z.of_nat (8 * k)) <= 8 * k - 1)%nat) by lia.
    apply bin_len_lt in L; try lia.
    replace (Z.of_nat (8 * k - 1)) with (Z.of_nat k * 8 - 1) in L by lia. lia.
  - apply bin_len_lt; lia.
Qed.

Definition unc_field (z : Z) : field := F true (to_bits 8 (Z.of_nat (toct z)) ++ to_bits (8 * toct z) z).

Lemma unconstrained_ok z : Z.of_nat (toct z) < 256 ->
  create_field_list_for_unconstrained_whole_number z = Ok [unc_field z].
Proof.
  intros H. unfold create_field_list_for_unconstrained_whole_number.
  rewrite twos_octet_ok. cbn [bind]. pose proof (toct_pos z).
  rewrite twos_ok by (auto; apply toct_le; auto). cbn [bind].
  rewrite py_format_b_ok by (change (2 ^ Z.of_nat 8) with 256; lia). reflexivity.
Qed.

Lemma twos_comp_ok z k : (1 <= k)%nat -> - 2 ^ (Z.of_nat k * 8 - 1) <= z < 2 ^ (Z.of_nat k * 8 - 1) ->
  twos_comp (z mod 2 ^ Z.of_nat (8 * k)) (8 * Z.of_nat k) = Ok z.
Proof.
  intros Hk Hz. unfold twos_comp.
  assert (N1 : S (8 * k - 1) = (8 * k)%nat) by lia.
  assert (N2 : Z.of_nat (8 * k - 1) = Z.of_nat k * 8 - 1) by lia.
  pose proof (pow_8m k Hk) as P.
  assert (0 < 2 ^ (Z.of_nat k * 8 - 1)) by (apply Z.pow_pos_nonneg; lia).
  destruct (Z.eqb_spec (8 * Z.of_nat k) 0); [lia|].
  rewrite !Z.shiftl_mul_pow2, !Z.mul_1_l by lia.
  replace (8 * Z.of_nat k - 1) with (Z.of_nat k * 8 - 1) by lia.
  replace (8 * Z.of_nat k) with (Z.of_nat (8 * k)) by lia.
  set (p := 2 ^ (Z.of_nat k * 8 - 1)) in *. set (i := Z.of_nat k * 8 - 1) in *.
  assert (T : (Z.land (z mod 2 ^ Z.of_nat (8 * k)) p =? 0) = negb (Z.testbit z i)).
  { destruct (Z.testbit z i) eqn:B; cbn [negb].
    - apply Z.eqb_neq. intros E. apply (f_equal (fun x => Z.testbit x i)) in E.
      rewrite Z.land_spec, Z.bits_0, Z.mod_pow2_bits_low, B in E by lia.
      unfold p in E. rewrite Z.pow2_bits_true in E by lia. discriminate.
    - apply Z.eqb_eq. apply Z.bits_inj'. intros j Hj. rewrite Z.land_spec, Z.bits_0.
      unfold p. rewrite Z.pow2_bits_eqb by lia. destruct (Z.eqb_spec i j) as [<-|]; [|apply andb_false_r].
      rewrite Z.mod_pow2_bits_low, B by lia. reflexivity. }
  rewrite T, negb_involutive.
  destruct (Z.lt_ge_cases z 0).
  - replace (z mod 2 ^ Z.of_nat (8 * k)) with (z + 2 ^ Z.of_nat (8 * k)).
    + assert (Z.testbit z i = true) as ->; [|f_equal; lia].
      rewrite <- (Z.mod_pow2_bits_low z (Z.of_nat (8 * k))) by lia.
      replace (z mod 2 ^ Z.of_nat (8 * k)) with (z + 2 ^ Z.of_nat (8 * k)).
      * pose proof (testbit_top (z + 2 ^ Z.of_nat (8 * k)) (8 * k - 1)) as TT.
        rewrite N1, N2 in TT. fold i in TT. fold p in TT. clear T N1 N2.
        destruct (Z.testbit (z + 2 ^ Z.of_nat (8 * k)) i); auto.
        cbn [Z.b2z] in TT. pose proof (Z.mod_pos_bound (z + 2 ^ Z.of_nat (8 * k)) p). lia.
      * symmetry. rewrite <- (Z.mod_add z 1) by lia. rewrite Z.mul_1_l. apply Z.mod_small. lia.
    + symmetry. rewrite <- (Z.mod_add z 1) by lia. rewrite Z.mul_1_l. apply Z.mod_small. lia.
  - rewrite Z.mod_small by lia.
    assert (Z.testbit z i = false) as ->; [|reflexivity].
    destruct (Z.eq_dec z 0) as [->|]; [apply Z.bits_0|].
    apply Z.bits_above_log2; [lia|]. apply Z.log2_lt_pow2; lia.
Qed.

Lemma reads_unc z pos : Z.of_nat (toct z) < 256 ->
  reads decode_unconstrained_whole_number pos (render pos [unc_field z]) z.
Proof.
  intros H. rewrite render_one. unfold unc_field, decode_unconstrained_whole_number.
  cbn [falign fbits fpad]. rewrite app_assoc. pose proof (toct_pos z).
  eapply reads_bind.
  - pose proof (reads_next (1, 0)%nat true pos (padding pos) (to_bits 8 (Z.of_nat (toct z)))) as R.
    rewrite bval_to_bits in R by (change (2 ^ Z.of_nat 8) with 256; lia).
    rewrite to_bits_length, padding_length in R. apply R; cbn [fst snd fpos]; try lia.
    unfold up8. lia.
  - rewrite Nat2Z.id. eapply reads_bind_r.
    + apply (reads_next_octets _ _ _ (to_bits_length _ _) (toct_pos _)).
    + rewrite bval_to_bits_mod. apply reads_lift. apply twos_comp_ok; auto. apply toct_le; auto.
Qed.
