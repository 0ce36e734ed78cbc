(** Where the library leaves X.691: for simple types and lists the conditions of
    C45 are exact. *)
From Coq Require Import ZArith List String Bool Lia Arith.
From Coq Require Import ZifyBool ZifyNat ZifyN.
Import ListNotations.
From Verif Require Import PyBase Schema Encoder BitFacts Stream Prims Spec SimpleTypes.
From Verif Require Import RoundTrip Layout Constraints X691 Conform.
Open Scope Z_scope.
Ltac Zify.zify_post_hook ::= Z.to_euclidean_division_equations.

(** * Lengths *)

Lemma at_octet_length pos w x : at_octet pos w x -> len x = (padn pos + len w)%nat.
Proof. intros A. rewrite (at_octet_fun _ _ _ _ A (at_octet_pad pos w)), app_length, padding_length. reflexivity. Qed.

Lemma general_length_length n pos d : general_length n pos d ->
  (n <= 127 /\ len d = (padn pos + 8)%nat) \/ (128 <= n < 16384 /\ len d = (padn pos + 16)%nat).
Proof.
  intros [s s' N U A|s s' N U A]; [left|right]; (split; [exact N|]); rewrite (at_octet_length _ _ _ A); cbn [List.length];
    destruct U as (L & _); rewrite L; reflexivity.
Qed.

Lemma general_length_mod8 n pos d : general_length n pos d -> Nat.modulo (pos + len d) 8 = 0%nat.
Proof.
  intros G. pose proof (up8_mod pos) as U. unfold up8 in U. destruct (general_length_length _ _ _ G) as [(_ & ->)|(_ & ->)]; lia.
Qed.

Lemma unbounded_length z pos w : unbounded z pos w ->
  exists k, Z.of_nat k < 16384 /\ k = toct z /\
    len w = (padn pos + (if (Z.of_nat k <=? 127)%Z then 8 else 16) + 8 * k)%nat.
Proof.
  intros [k d s s' Sh L G A]. exists k.
  pose proof (shortest_signed_fun _ _ _ Sh (toct_shortest z)) as X. pose proof (f_equal (@List.length _) X) as Y.
  rewrite to_bits_length, L in Y. pose proof (general_length_mod8 _ _ _ G) as M.
  rewrite app_length, (at_octet_length _ _ _ A), (padn_0 _ M), L.
  destruct (general_length_length _ _ _ G) as [(N & ->)|(N & ->)].
  - replace (_ <=? 127) with true by lia. repeat split; lia.
  - replace (_ <=? 127) with false by lia. repeat split; lia.
Qed.

(** What is written for an integer without bounds. *)
Lemma unc_written z : exists det, create_field_list_for_unconstrained_whole_number z =
    Ok [F true (det ++ to_bits (8 * toct z) z)] /\ len det = Nat.max 8 (bin_len (Z.of_nat (toct z))).
Proof.
  unfold create_field_list_for_unconstrained_whole_number. rewrite twos_octet_ok. cbn [bind].
  pose proof (toct_pos z) as P. pose proof (proj1 (toct_le z (toct z) P) (Nat.le_refl _)) as R.
  rewrite twos_ok by auto. cbn [bind]. unfold py_format_b. rewrite py_bin_ok by lia. cbn [bind].
  eexists. split; [reflexivity|]. unfold zfill. rewrite app_length, repeat_length, to_bits_length. lia.
Qed.

Lemma unc_short z pos fs : create_field_list_for_unconstrained_whole_number z = Ok fs ->
  unbounded z pos (render pos fs) -> sfits 127 z.
Proof.
  intros E U. destruct (unc_written z) as (det & W & L). rewrite W in E. injection E as <-.
  destruct (unbounded_length _ _ _ U) as (k & K & -> & Lw). apply toct_sfits; [lia|].
  rewrite render_al, !app_length, padding_length, to_bits_length in Lw.
  assert (Q : (bin_len (Z.of_nat (toct z)) <= 14)%nat).
  { apply bin_len_lt; [lia|lia|]. change (2 ^ Z.of_nat 14) with 16384. lia. }
  destruct (Z.leb_spec (Z.of_nat (toct z)) 127); lia.
Qed.

(** * INTEGER *)

Lemma integer_tight c z fs : visible c ->
  (forall l h, clo c = Some l -> chi c = Some h -> ufits 65535 (h - l)) -> encode_integer c z = Ok fs ->
  conforms (TInt c) (AInt z) fs -> int_conf c z.
Proof.
  intros V B E C. pose proof (C 0%nat) as P. cbn [per] in P. destruct P as (e & lo & hi & Bd & P).
  destruct (bounds_fun _ _ _ _ _ _ _ Bd V) as (-> & -> & ->). unfold int_conf. split; [exact V|].
  unfold encode_integer in E. destruct (cext c) eqn:X; cbn [andb].
  - split; [discriminate|]. destruct (chain_le (clo c) z (chi c)) as [b|] eqn:Ch; [|discriminate]. cbn [bind] in E.
    pose proof (chain_within _ _ _ Ch) as I. rewrite (chain_inside _ _ _ Ch). destruct b; cbn [negb].
    + unfold chain_le in Ch. destruct (clo c) as [l|] eqn:EL; [|discriminate]. cbn [need bind] in Ch.
      destruct (l <=? z); [|discriminate]. destruct (chi c) as [h|] eqn:EH; [|discriminate]. now apply B.
    + destruct P as [(P & _)|(_ & w' & Ew & U)]; [apply I in P; discriminate|].
      destruct (create_field_list_for_unconstrained_whole_number z) as [f|] eqn:Eu; [|discriminate].
      cbn [bind] in E. injection E as <-. rewrite render_bit in Ew. injection Ew as <-. eapply unc_short; eauto.
  - destruct P as (W & P). split; [now intros _|]. remember (render 0 fs) as x eqn:Ex.
    destruct P as [l h w EL EH P|l w EL EH P|w EL P].
    + rewrite EL, EH. auto.
    + rewrite EL, EH. destruct P as [k d s s' Lk G U A]. apply noct_ufits.
      * destruct W as (W & _). specialize (W _ EL). lia.
      * lia.
      * assert (K : k = noct (z - l)).
        { eapply least_octets_fun; [exact Lk|]. apply least_octets_noct. destruct W as (W & _). specialize (W _ EL). lia. }
        subst k. destruct (general_length_length _ _ _ G); lia.
    + rewrite EL in E |- *. subst w. eapply unc_short; eauto.
Qed.

(** * Strings *)

Lemma whole_small_length lb ub n m pos d d' : whole_small lb ub n pos d -> whole_small lb ub m pos d' -> len d = len d'.
Proof.
  intros A A'. destruct A as [R|s w R L U|s s' R U O|s s' R U O], A' as [R'|t w' R' L' U'|t t' R' U' O'|t t' R' U' O'];
    try lia; try reflexivity.
  - pose proof (least_bits_fun _ _ _ L L'). subst w'. destruct U as (-> & _), U' as (-> & _). reflexivity.
  - rewrite (at_octet_length _ _ _ O), (at_octet_length _ _ _ O'). destruct U as (-> & _), U' as (-> & _). reflexivity.
  - rewrite (at_octet_length _ _ _ O), (at_octet_length _ _ _ O'). destruct U as (-> & _), U' as (-> & _). reflexivity.
Qed.

Lemma count_length lb ub n m pos d d' : n <= 127 -> m <= 127 -> count lb ub n pos d -> count lb ub m pos d' -> len d = len d'.
Proof.
  intros N M. unfold count.
  assert (X : general_length n pos d -> general_length m pos d' -> len d = len d').
  { intros A A'. destruct (general_length_length _ _ _ A) as [(_ & ->)|]; [|lia].
    destruct (general_length_length _ _ _ A') as [(_ & ->)|]; [reflexivity|lia]. }
  destruct ub as [u|]; [|exact X]. destruct (u <? 65536); [apply whole_small_length|exact X].
Qed.

Lemma no_16384 pos d : ~ general_length 16384 pos d.
Proof. intros A. destruct (general_length_length _ _ _ A); lia. Qed.

(** A size of 16384 is sent only when it is bounded. *)
Lemma sized_16384 short lo hi s pos w : 0 <= short < 16384 -> within lo hi 16384 -> sized short lo hi 16384 s pos w ->
  exists h, hi = Some h /\ h < 65536.
Proof.
  intros Sh (A & B) P. destruct P as [E|k K L H|k s' K L H O|d s' N F C O].
  - specialize (B _ E). lia.
  - specialize (B _ H). lia.
  - specialize (A _ L). exists k. split; [exact H|lia].
  - unfold count in C. destruct hi as [h|]; [|now apply no_16384 in C]. exists h. split; [reflexivity|].
    destruct (Z.ltb_spec h 65536); [auto|now apply no_16384 in C].
Qed.

Lemma string_within short c n s pos w : visible c -> per_string short c n s pos w ->
  (cext c = false -> within (clo c) (chi c) n).
Proof.
  intros V (e & lo & hi & Bd & P) X. destruct (bounds_fun _ _ _ _ _ _ _ Bd V) as (-> & -> & ->). rewrite X in P. apply P.
Qed.

Lemma string_16384 short c s pos w : 0 <= short < 16384 -> visible c -> per_string short c 16384 s pos w ->
  exists h, chi c = Some h /\ h < 65536 /\ within (clo c) (chi c) 16384.
Proof.
  intros Sh V (e & lo & hi & Bd & P). destruct (bounds_fun _ _ _ _ _ _ _ Bd V) as (-> & -> & ->).
  destruct (cext c).
  - destruct P as [(W & w' & -> & P)|(_ & d & s' & _ & G & _)]; [|now apply no_16384 in G].
    destruct (sized_16384 _ _ _ _ _ _ Sh W P) as (h & E & K). eauto.
  - destruct P as (W & P). destruct (sized_16384 _ _ _ _ _ _ Sh W P) as (h & E & K). eauto.
Qed.

(** An empty string is its length alone. *)
Lemma sized_empty short lo hi pos w : 0 <= short -> within lo hi 0 -> hi <> Some 0 -> sized short lo hi 0 [] pos w ->
  count (floor lo) hi 0 pos w.
Proof.
  intros Sh (A & B) N P. destruct P as [E|k K L H|k s' K L H O|d s' _ F C O].
  - contradiction.
  - specialize (A _ L). lia.
  - specialize (A _ L). lia.
  - inversion O; subst; [now rewrite app_nil_r|congruence].
Qed.

(** * BIT STRING *)

(** The bit that stands for an empty BIT STRING, with its length. *)
Lemma bits_after_one c o pos : (forall l, clo c = Some l -> 0 <= l) -> above (clo c) 0 -> chi c <> Some 0 ->
  (forall h, chi c = Some h -> 0 <= h) -> bits_after c [false] = Ok o ->
  exists d, count (floor (clo c)) (chi c) 1 pos d /\ (len d < len (render pos (filled o)))%nat.
Proof.
  intros P A N H E. unfold bits_after in E. cbv zeta in E. change (zlen [false]) with 1 in E.
  destruct (opt_is (chi c) 0) eqn:E0.
  { unfold opt_is in E0. destruct (chi c) as [h|]; [|discriminate]. exfalso. apply N. f_equal. lia. }
  destruct (some_eq (clo c) (chi c)) eqn:E1.
  { unfold some_eq in E1. destruct (clo c) as [l|]; [|discriminate]. destruct (chi c) as [h|]; [|discriminate].
    specialize (A _ eq_refl). specialize (P _ eq_refl). exfalso. apply N. f_equal. lia. }
  destruct (truthy (chi c) && lt65536 (chi c)) eqn:E2.
  - destruct (chi c) as [h|] eqn:EH; [|discriminate]. cbn [truthy lt65536] in E2. specialize (H _ eq_refl).
    destruct (clo c) as [l|] eqn:EL; [|discriminate]. specialize (A _ eq_refl). specialize (P _ eq_refl).
    assert (l = 0) by lia. subst l. rewrite length_constrained_ok in E by lia. cbn [bind app] in E. injection E as <-.
    cbn [filled]. rewrite render_cons2, render_al. exists (render pos [cwn_field 1 0 h]). split.
    + unfold count, floor. replace (h <? 65536) with true by lia. apply cwn_whole; lia.
    + rewrite !app_length. cbn [List.length]. lia.
  - rewrite length_unconstrained_ok in E by lia. cbn [bind app] in E. injection E as <-. cbn [filled].
    rewrite render_cons2, render_al. exists (render pos [len_field 1]). split.
    + unfold count. destruct (chi c) as [h|]; [|apply len_general; lia]. cbn [truthy lt65536] in E2.
      specialize (H _ eq_refl). destruct (Z.ltb_spec h 65536); [exfalso; assert (h <> 0) by (intros ->; now apply N); lia|]. apply len_general; lia.
    + rewrite !app_length. cbn [List.length]. lia.
Qed.

Lemma bits_tight c s fs : visible c -> (forall l, clo c = Some l -> 0 <= l) -> fill (encode_bitstring c s) = Ok fs ->
  conforms (TBits c) (ABits s) fs -> bits_conf c s.
Proof.
  intros V P E C. pose proof (C 0%nat) as Q. cbn [per] in Q. change (Z.of_nat (len s)) with (zlen s) in Q.
  rewrite encode_bits_eq in E. cbv zeta in E.
  split; [split; [exact V|split; [exact P|exact (string_within _ _ _ _ _ _ V Q)]]|]. split.
  - intros S. rewrite S in Q. destruct (string_16384 16 _ _ _ _ ltac:(lia) V Q) as (h & EH & K & W).
    assert (D : s <> []) by (intros ->; discriminate S). rewrite as_binary_id, S in E by auto.
    split; [|intros h' X; congruence]. unfold inside. destruct W as (A & B). specialize (B _ EH).
    destruct (clo c) as [l|] eqn:EL; [rewrite EH; specialize (A _ eq_refl); lia|]. exfalso.
    destruct (cext c); [discriminate E|]. unfold bits_after in E. cbv zeta in E. rewrite S, EL, EH in E.
    cbn [opt_is some_eq truthy lt65536] in E. replace (h =? 0) with false in E by lia. replace (h <? 65536) with true in E by lia.
    cbn [andb negb length_constrained need bind fill] in E. discriminate E.
  - intros ->. cbn [as_binary] in E. change (zlen [false]) with 1 in E. destruct Q as (e & lo & hi & Bd & Q).
    change (zlen []) with 0 in Q.
    destruct (bounds_fun _ _ _ _ _ _ _ Bd V) as (-> & -> & ->). destruct (cext c) eqn:X.
    + exfalso. destruct (chain_le (clo c) 1 (chi c)) as [b|] eqn:Ch; [|discriminate]. cbn [bind] in E.
      pose proof (chain_within _ _ _ Ch) as I. destruct b.
      * assert (W1 : within (clo c) (chi c) 1) by (now apply I).
        destruct (bits_after c [false]) as [o|] eqn:EA; [|discriminate]. cbn [bind fill] in E.
        assert (N : chi c <> Some 0) by (intros Y; destruct W1 as (_ & W1); specialize (W1 _ Y); lia).
        assert (O : exists f, o = Some f).
        { destruct o; eauto. unfold bits_after in EA. cbv zeta in EA. destruct (opt_is (chi c) 0) eqn:Z0.
          - unfold opt_is in Z0. destruct (chi c) as [h|]; [|discriminate]. exfalso. apply N. f_equal. lia.
          - destruct (some_eq _ _); [destruct (_ <=? _); [discriminate|]; destruct (_ && _); discriminate|].
            destruct (_ && _); [destruct (length_constrained _ _ _)|destruct (length_unconstrained _)]; discriminate. }
        destruct O as (f & ->). injection E as <-. rewrite render_bit in Q.
        destruct Q as [(W0 & w' & Ew & Z1)|(_ & d & s' & Ew & _)]; [|discriminate Ew]. injection Ew as <-.
        apply sized_empty in Z1; [|lia|auto|auto].
        destruct (bits_after_one c (Some f) (0 + 1) P (proj1 W0) N) as (d & Cd & Ld); auto.
        { intros h Y. destruct W1 as (_ & W1). specialize (W1 _ Y). lia. }
        cbn [filled] in Ld. change (0 + 1)%nat with 1%nat in *. pose proof (count_length _ _ 0 1 _ _ _ ltac:(lia) ltac:(lia) Z1 Cd) as Y. rewrite <- Y in Ld. exact (Nat.lt_irrefl _ Ld).
      * rewrite length_unconstrained_ok in E by lia. cbn [bind app fill] in E. injection E as <-. rewrite render_bit, render_cons2 in Q.
        destruct Q as [(W0 & w' & Ew & _)|(_ & d & s' & Ew & G & O)]; [discriminate Ew|].
        inversion O; subst; [|congruence]. rewrite app_nil_r in Ew.
        destruct (general_length_length _ _ _ G) as [(_ & L)|]; [|lia].
        pose proof (len_general 1 (0 + 1) ltac:(lia)) as G1. destruct (general_length_length _ _ _ G1) as [(_ & L1)|]; [|lia].
        apply (f_equal (@List.length _)) in Ew. rewrite !app_length, L1, render_al, app_length in Ew.
        cbn [List.length] in Ew. rewrite L in Ew. lia.
    + split; [reflexivity|]. destruct Q as (W0 & Q). destruct (bits_after c [false]) as [o|] eqn:EA; [|discriminate].
      assert (Eo : fs = filled o) by (cbn [bind fill] in E; destruct o; injection E as <-; reflexivity). subst fs.
      assert (D : chi c = Some 0 \/ chi c <> Some 0).
      { destruct (chi c) as [h|]; [|right; discriminate]. destruct (Z.eq_dec h 0); [left; congruence|right; congruence]. }
      destruct D as [D|D]; auto. exfalso. apply sized_empty in Q; [|lia|auto|auto].
      destruct (bits_after_one c o 0 P (proj1 W0) D) as (d & Cd & Ld); auto.
      { intros h Y. destruct W0 as (_ & W0). specialize (W0 _ Y). lia. }
      pose proof (count_length _ _ 0 1 _ _ _ ltac:(lia) ltac:(lia) Q Cd) as Y. rewrite <- Y in Ld. exact (Nat.lt_irrefl _ Ld).
Qed.

(** * OCTET STRING *)

Lemma ok_inj (A : Type) (a b : A) : Ok a = Ok b -> a = b.
Proof. congruence. Qed.

Lemma unsigned_bval s w n : unsigned s w n -> len s = w /\ bval s = n.
Proof.
  intros U. assert (N : 0 <= n < 2 ^ Z.of_nat w).
  { destruct U as (L & E). pose proof (bval_range s) as Rg. rewrite L in Rg. rewrite <- E. exact Rg. }
  rewrite (unsigned_fun _ _ _ _ U (unsigned_to_bits w n N)), to_bits_length, bval_to_bits; auto.
Qed.

(** A general length on an octet boundary. *)
Lemma general_length_at n pos d : 0 <= n -> Nat.modulo pos 8 = 0%nat -> general_length n pos d ->
  (n <= 127 /\ len d = 8%nat /\ bval d = n) \/ (128 <= n < 16384 /\ len d = 16%nat /\ bval d = 32768 + n).
Proof.
  intros N M [s s' Q U A|s s' Q U A]; apply unsigned_bval in U as (L & V);
    rewrite (at_octet_fun _ _ _ _ A (at_octet_pad pos _)); unfold padding; rewrite (padn_0 _ M); cbn [repeat app List.length];
    [left|right]; rewrite !bval_cons; cbn [List.length]; rewrite L; (split; [exact Q|]); cbn [Z.b2z].
  - lia.
  - change (2 ^ Z.of_nat (S 14)) with 32768. lia.
Qed.

Lemma octs_big c bs o l h p : Nat.modulo p 8 = 0%nat -> clo c = Some l -> chi c = Some h -> 0 <= l <= zlen bs -> zlen bs <= h ->
  65536 <= h -> octs_after c bs = Ok o -> sized 2 (clo c) (chi c) (zlen bs) (obits bs) p (render p (filled o)) ->
  l = 0 /\ zlen bs <= 127.
Proof.
  intros M EL EH A B K E Q. unfold octs_after in E. cbv zeta in E. rewrite EL, EH in E, Q. cbn [opt_is some_eq truthy] in E.
  replace (h =? 0) with false in E by lia. destruct (Z.eqb_spec l h) as [X|X].
  { replace (zlen bs <=? 2) with false in E by lia. replace ((2 <? zlen bs) && (zlen bs <? 65536)) with false in E by lia. discriminate E. }
  cbn [negb] in E. rewrite length_constrained_ok in E by lia. cbn [bind app] in E. apply ok_inj in E. subst o.
  cbn [filled] in Q. remember (render p [cwn_field (zlen bs) l h; F true (obits bs)]) as w eqn:Ew.
  destruct Q as [Q|k Q Q1 Q2|k s' Q Q1 Q2 O|d s' N1 N2 C O]; try (injection Q2 as ->; lia).
  { injection Q as ->. lia. }
  unfold count in C. replace (h <? 65536) with false in C by lia. pose proof (general_length_mod8 _ _ _ C) as G8.
  rewrite render_cons2 in Ew.
  assert (Es : s' = obits bs).
  { inversion O; subst; auto. match goal with J : at_octet _ _ _ |- _ =>
      rewrite (at_octet_fun _ _ _ _ J (at_octet_pad _ _)) end. unfold padding. rewrite (padn_0 _ G8). reflexivity. }
  apply general_length_at in C; [|lia|exact M].
  assert (R : 257 <= h - l + 1) by (destruct C; lia).
  pose proof (cwn_field_mod8 (zlen bs) l h p ltac:(lia)) as C8.
  rewrite render_al in Ew. unfold padding in Ew. rewrite (padn_0 _ C8) in Ew. cbn [repeat app] in Ew.
  rewrite Es in Ew. apply app_inv_tail in Ew. subst d. unfold cwn_field in C.
  replace (h - l + 1 =? 1) with false in C by lia. replace (h - l + 1 <=? 255) with false in C by lia.
  replace (h - l + 1 =? 256) with false in C by lia. destruct (Z.leb_spec (h - l + 1) 65536).
  - rewrite render_al in C. unfold padding in C. rewrite (padn_0 _ M) in C. cbn [repeat app] in C.
    rewrite to_bits_length, bval_to_bits in C by (change (2 ^ Z.of_nat 16) with 65536; lia). lia.
  - rewrite render_al in C. unfold padding in C. rewrite (padn_0 _ M) in C. cbn [repeat app] in C.
    assert (V : bval (to_bits (8 * noct (zlen bs - l)) (zlen bs - l)) = zlen bs - l).
    { apply bval_to_bits. split; [lia|]. apply noct_le; [lia|apply noct_pos|lia]. }
    rewrite V in C. lia.
Qed.

Lemma octs_void c o h : clo c = Some 0 -> chi c = Some h -> 0 < h < 255 -> octs_after c [] = Ok o ->
  (forall p, sized 2 (clo c) (chi c) 0 [] (p + 1) (render (p + 1) (filled o))) -> False.
Proof.
  intros EL EH K E Q. unfold octs_after in E. cbv zeta in E. rewrite EL, EH in E, Q. cbn [opt_is some_eq truthy] in E.
  replace (h =? 0) with false in E by lia. replace (0 =? h) with false in E by lia. cbn [negb] in E. change (zlen []) with 0 in E.
  rewrite length_constrained_ok in E by lia. cbn [bind app] in E. apply ok_inj in E. subst o. cbn [filled] in Q.
  set (w := Z.to_nat (Z.log2_up (h - 0 + 1))).
  assert (W : (w <= 8)%nat).
  { pose proof (Z.log2_up_le_mono (h - 0 + 1) 256 ltac:(lia)) as Y. change (Z.log2_up 256) with 8 in Y. unfold w. lia. }
  specialize (Q (16 - w)%nat). set (p := (16 - w + 1)%nat) in Q. rewrite render_cons2 in Q.
  apply sized_empty in Q; [|lia|split; [intros x [= <-]; lia|intros x [= <-]; lia]|intros [= X]; lia].
  unfold count, floor in Q. replace (h <? 65536) with true in Q by lia.
  pose proof (whole_small_length _ _ _ _ _ _ _ Q (cwn_whole 0 0 h p ltac:(lia) ltac:(lia))) as Y.
  rewrite app_length, render_al, app_length, padding_length in Y.
  assert (Lw : len (render p [cwn_field 0 0 h]) = w).
  { unfold cwn_field. replace (h - 0 + 1 =? 1) with false by lia. replace (h - 0 + 1 <=? 255) with true by lia. fold w.
    cbn [render]. rewrite app_nil_r. apply to_bits_length. }
  rewrite Lw in Y. pose proof (up8_mod (p + w)) as U. unfold up8 in U. change (zlen []) with 0 in Y. unfold p in *. lia.
Qed.

Lemma octs_tight c bs fs : visible c -> (forall l, clo c = Some l -> 0 <= l) -> fill (encode_octetstring c bs) = Ok fs ->
  conforms (TOcts c) (AOcts bs) fs -> octs_conf c bs.
Proof.
  intros V P E C. assert (O : Forall (fun b => 0 <= b < 256) bs) by (exact (proj1 (C 0%nat))).
  assert (Q : forall pos, per_string 2 c (zlen bs) (obits bs) pos (render pos fs)).
  { intros pos. destruct (C pos) as (_ & X). rewrite bytes_bits_obits in X. exact X. }
  rewrite encode_octs_eq in E by exact O.
  split; [exact O|]. split; [split; [exact V|split; [exact P|exact (string_within _ _ _ _ _ _ V (Q 0%nat))]]|].
  (* the fields within the root *)
  assert (IN : forall o, octs_after c bs = Ok o -> within (clo c) (chi c) (zlen bs) ->
    (forall p, sized 2 (clo c) (chi c) (zlen bs) (obits bs) (p + 1) (render (p + 1) (filled o))) ->
    (inside c (zlen bs) = true -> forall h, chi c = Some h -> h < 65536 \/ (clo c = Some 0 /\ zlen bs <= 127)) /\
    (bs = [] -> clo c = Some 0 -> forall h, chi c = Some h -> 0 < h -> 255 <= h)).
  { intros o EO W SZ. split.
    - intros I h EH. destruct (Z.ltb_spec h 65536) as [L|L]; [now left|right].
      destruct (clo c) as [l|] eqn:EL; [|unfold inside in I; rewrite EL in I; discriminate].
      destruct W as (W1 & W2). specialize (W1 _ eq_refl). specialize (W2 _ EH). specialize (P _ eq_refl).
      destruct (octs_big c bs o l h 8 eq_refl EL EH ltac:(lia) W2 L EO) as (-> & N); [|split; auto].
      rewrite EL. exact (SZ 7%nat).
    - intros -> EL h EH K. destruct (Z.leb_spec 255 h) as [L|L]; [exact L|exfalso].
      exact (octs_void c o h EL EH ltac:(lia) EO SZ). }
  (* nothing of 16384 octets goes with a general length *)
  assert (OUT : inside c (zlen bs) = false -> zlen bs <> 16384).
  { intros I S. pose proof (Q 0%nat) as Q0. rewrite S in Q0, I.
    destruct (string_16384 2 _ _ _ _ ltac:(lia) V Q0) as (h & EH & K & W1 & W2). specialize (W2 _ EH).
    unfold inside in I. rewrite EH in I. destruct (clo c) as [l|] eqn:EL; [specialize (W1 _ eq_refl); lia|].
    destruct (cext c); [discriminate E|]. unfold octs_after in E. cbv zeta in E. rewrite S, EL, EH in E.
    cbn [opt_is some_eq truthy] in E. replace (h =? 0) with false in E by lia.
    cbn [negb length_constrained need bind fill] in E. discriminate E. }
  assert (OUTSIDE : inside c (zlen bs) = false -> bs = [] -> clo c = Some 0 -> forall h, chi c = Some h -> 0 < h -> 255 <= h).
  { intros I -> EL h EH K. unfold inside in I. rewrite EL, EH in I. change (zlen []) with 0 in I. lia. }
  enough (GOAL : (inside c (zlen bs) = true -> forall h, chi c = Some h -> h < 65536 \/ (clo c = Some 0 /\ zlen bs <= 127)) /\
    (cext c = true -> inside c (zlen bs) = true -> chi c <> Some 0) /\
    (bs = [] -> clo c = Some 0 -> forall h, chi c = Some h -> 0 < h -> 255 <= h)).
  { destruct GOAL as (G1 & G2 & G3). split; [|now split]. unfold limited_size.
    destruct (inside c (zlen bs)); auto. }
  destruct (cext c) eqn:X.
  - destruct (chain_le (clo c) (zlen bs) (chi c)) as [b|] eqn:Ch; [|discriminate]. cbn [bind] in E.
    pose proof (chain_within _ _ _ Ch) as I. pose proof (chain_inside _ _ _ Ch) as J. destruct b.
    + destruct (octs_after c bs) as [o|] eqn:EO; [|discriminate]. cbn [bind] in E.
      assert (W : within (clo c) (chi c) (zlen bs)) by (now apply I).
      destruct o as [f|]; cbn [fill] in E; apply ok_inj in E; subst fs.
      * assert (SZ : forall p, sized 2 (clo c) (chi c) (zlen bs) (obits bs) (p + 1) (render (p + 1) (filled (Some f)))).
        { intros p. pose proof (Q p) as (e & lo & hi & Bd & Qp). destruct (bounds_fun _ _ _ _ _ _ _ Bd V) as (-> & -> & ->).
          rewrite X, render_bit in Qp. destruct Qp as [(_ & w' & Ew & Qp)|(_ & d & s' & Ew & _)]; [|discriminate Ew].
          injection Ew as <-. exact Qp. }
        destruct (IN _ eq_refl W SZ) as (G1 & G3). split; [exact G1|split; [|exact G3]]. intros _ _ H0.
        unfold octs_after in EO. rewrite H0 in EO. discriminate EO.
      * exfalso. pose proof (Q 0%nat) as (e & lo & hi & Bd & Qp). destruct (bounds_fun _ _ _ _ _ _ _ Bd V) as (-> & -> & ->).
        rewrite X in Qp. cbn [render] in Qp. destruct Qp as [(_ & w' & Ew & _)|(_ & d & s' & Ew & _)]; discriminate Ew.
    + rewrite J in *. split; [discriminate|]. split; [discriminate|]. auto.
  - destruct (octs_after c bs) as [o|] eqn:EO; [|discriminate].
    assert (Eo : fs = filled o) by (cbn [fill] in E; destruct o; apply ok_inj in E; subst; reflexivity). subst fs.
    assert (SZ : forall p, within (clo c) (chi c) (zlen bs) /\ sized 2 (clo c) (chi c) (zlen bs) (obits bs) p (render p (filled o))).
    { intros p. pose proof (Q p) as (e & lo & hi & Bd & Qp). destruct (bounds_fun _ _ _ _ _ _ _ Bd V) as (-> & -> & ->).
      rewrite X in Qp. exact Qp. }
    destruct (IN _ eq_refl (proj1 (SZ 0%nat)) (fun p => proj2 (SZ (p + 1)%nat))) as (G1 & G3).
    split; [exact G1|]. split; [discriminate|exact G3].
Qed.

(** * SEQUENCE OF *)

Lemma render_mod8 fs : forall p q, Nat.modulo p 8 = Nat.modulo q 8 -> render p fs = render q fs.
Proof.
  induction fs as [|f fs IH]; intros p q E; cbn [render]; [reflexivity|].
  assert (X : padn p = padn q) by (unfold padn; lia).
  replace (fpad (falign f) q) with (fpad (falign f) p) by (unfold fpad, padding; rewrite X; reflexivity).
  f_equal. f_equal. apply IH. unfold fpos, up8. rewrite X. destruct (falign f); lia.
Qed.

Lemma list_big t vs body l h p w d : Nat.modulo p 8 = 0%nat -> 0 <= l <= zlen vs -> zlen vs <= h -> 65536 <= h ->
  all_of (map (conf t) vs) -> enc_list (enc t) vs = Ok body ->
  render p (cwn_field (zlen vs) l h :: body) = d ++ w ->
  elem_count (Some l) (Some h) (zlen vs) p d -> elements (per t) (map (reading t) vs) (p + len d) w ->
  l = 0 /\ zlen vs <= 127.
Proof.
  intros M A B K SE EB Ew C EL.
  destruct C as [k Kk Q1 Q2|d C1 C]; [injection Q2 as ->; lia|].
  unfold count in C. replace (h <? 65536) with false in C by lia.
  pose proof (general_length_mod8 _ _ _ C) as G8. apply general_length_at in C; [|lia|exact M].
  assert (R : 257 <= h - l + 1) by (destruct C; lia).
  pose proof (cwn_field_mod8 (zlen vs) l h p ltac:(lia)) as C8.
  pose proof (elements_fun _ _ (per_functional t) _ _ _ EL (elements_conform t (encoder_conforms t) vs body SE EB _)) as X. subst w.
  rewrite render_cons2, (render_mod8 body _ (p + len d)) in Ew by lia. apply app_inv_tail in Ew. subst d.
  unfold cwn_field in C.
  replace (h - l + 1 =? 1) with false in C by lia. replace (h - l + 1 <=? 255) with false in C by lia.
  replace (h - l + 1 =? 256) with false in C by lia. destruct (Z.leb_spec (h - l + 1) 65536).
  - rewrite render_al in C. unfold padding in C. rewrite (padn_0 _ M) in C. cbn [repeat app] in C.
    rewrite to_bits_length, bval_to_bits in C by (change (2 ^ Z.of_nat 16) with 65536; lia). lia.
  - rewrite render_al in C. unfold padding in C. rewrite (padn_0 _ M) in C. cbn [repeat app] in C.
    assert (V : bval (to_bits (8 * noct (zlen vs - l)) (zlen vs - l)) = zlen vs - l).
    { apply bval_to_bits. split; [lia|]. apply noct_le; [lia|apply noct_pos|lia]. }
    rewrite V in C. lia.
Qed.

Lemma list_tight c t vs fs : visible c -> (forall l, clo c = Some l -> 0 <= l) -> all_of (map (conf t) vs) ->
  enc (TSeqOf c t) (VSeqOf vs) = Ok fs -> conforms (TSeqOf c t) (reading (TSeqOf c t) (VSeqOf vs)) fs ->
  conf (TSeqOf c t) (VSeqOf vs).
Proof.
  intros V P SE E C. cbn [conf]. cbn [enc] in E.
  destruct (enc_list (enc t) vs) as [body|] eqn:EB; [|discriminate]. cbn [bind] in E.
  assert (Q : forall pos,
    if cext c then
      (within (clo c) (chi c) (zlen vs) /\ exists d w', render pos fs = false :: d ++ w' /\
         elem_count (clo c) (chi c) (zlen vs) (pos + 1) d /\ elements (per t) (map (reading t) vs) (pos + 1 + len d) w') \/
      (~ within (clo c) (chi c) (zlen vs) /\ exists d w', render pos fs = true :: d ++ w' /\
         general_length (zlen vs) (pos + 1) d /\ elements (per t) (map (reading t) vs) (pos + 1 + len d) w')
    else within (clo c) (chi c) (zlen vs) /\ exists d w', render pos fs = d ++ w' /\
         elem_count (clo c) (chi c) (zlen vs) pos d /\ elements (per t) (map (reading t) vs) (pos + len d) w').
  { intros pos. pose proof (C pos) as Y. cbn [reading per] in Y. unfold per_list in Y. cbv zeta in Y. rewrite map_length in Y.
    change (Z.of_nat (len vs)) with (zlen vs) in Y. destruct Y as (e & lo & hi & Bd & Y).
    destruct (bounds_fun _ _ _ _ _ _ _ Bd V) as (-> & -> & ->). exact Y. }
  split; [split; [exact V|split; [exact P|]]|split; [|exact SE]].
  { intros X. specialize (Q 0%nat). rewrite X in Q. apply Q. }
  unfold limited_size. unfold encode_sequence_of in E.
  destruct (cext c) eqn:X.
  - destruct (chain_le (clo c) (zlen vs) (chi c)) as [b|] eqn:Ch; [|discriminate]. cbn [bind] in E.
    pose proof (chain_within _ _ _ Ch) as W. pose proof (chain_inside _ _ _ Ch) as J. rewrite J. destruct b.
    + intros h EH. destruct (Z.ltb_spec h 65536) as [L|L]; [now left|right].
      destruct (clo c) as [l|] eqn:EL; [|unfold inside in J; rewrite EL in J; discriminate].
      unfold inside in J. rewrite EL, EH in J. specialize (P _ eq_refl). rewrite EH in *.
      rewrite length_constrained_ok in E by lia. cbn [bind app] in E. apply ok_inj in E. subst fs.
      destruct (Q 7%nat) as [(_ & d & w' & Ew & EC & Els)|(N & _)]; [|destruct N; now apply W].
      rewrite render_bit in Ew. injection Ew as Ew. change (7 + 1)%nat with 8%nat in *.
      destruct (list_big t vs body l h 8 w' d) as (-> & N); auto; lia.
    + destruct (Q 0%nat) as [(N & _)|(_ & d & w' & _ & GL & _)]; [apply W in N; discriminate|].
      intros S. rewrite S in GL. now apply no_16384 in GL.
  - destruct (clo c) as [l|] eqn:EL; [|discriminate]. cbn [need bind] in E.
    destruct (Q 0%nat) as ((W1 & W2) & d & w' & Ew & EC & Els). specialize (W1 _ eq_refl). specialize (P _ eq_refl).
    unfold inside. rewrite EL. destruct (chi c) as [h|] eqn:EH.
    + specialize (W2 _ eq_refl). replace ((l <=? zlen vs) && (zlen vs <=? h)) with true by lia.
      intros h' [= <-]. destruct (Z.ltb_spec h 65536) as [L|L]; [now left|right].
      replace (zlen vs <? l) with false in E by lia. cbn [truthy le_opt_r opt_is] in E.
      replace (zlen vs <=? h) with true in E by lia. replace (h =? 0) with false in E by lia. cbn [negb andb] in E.
      replace ((h =? l) && (l <? 65536)) with false in E by lia.
      rewrite length_constrained_ok in E by lia. cbn [bind app] in E. apply ok_inj in E. subst fs.
      destruct (list_big t vs body l h 0 w' d) as (-> & N); auto; lia.
    + intros S. rewrite S in EC. destruct EC as [k Q0 Q1 Q2|d0 C1 C0]; [discriminate|]. now apply no_16384 in C0.
Qed.

(** * C45: the conditions for simple types and lists are exact *)

(** A declaration: bounds X.691 sees as the library does, sizes not negative, a
    range of at most 65535 octets, items in the order of their numbers. *)
Definition declared (t : ty) : Prop :=
  match t with
  | TBool => True
  | TInt c => visible c /\ forall l h, clo c = Some l -> chi c = Some h -> ufits 65535 (h - l)
  | TEnum ext root adds => numbered root adds /\ (ext = false -> adds = []) /\
      ufits 65535 (zlen root - 1) /\ ufits 16383 (zlen adds)
  | TBits c | TOcts c | TSeqOf c _ => visible c /\ forall l, clo c = Some l -> 0 <= l
  | _ => False
  end.

(** Whatever is sent for a value of a simple type is what X.691 says wherever it
    stands in a message exactly if the value is one of those of [conf]. *)
Theorem C45_simple_exact : forall t v fs, is_simple t = true -> declared t -> enc t v = Ok fs ->
  ((forall pos, per t (reading t v) pos (render pos fs)) <-> conf t v).
Proof.
  intros t v fs S D E. split.
  - intros C. destruct t as [|c|ext root adds|c|c| | |]; try discriminate S; destruct v; try discriminate E; cbn [conf].
    + exact Logic.I.
    + destruct D as (V & B). eapply integer_tight; eauto.
    + destruct D as (N & X & L1 & L2). split; [exact N|]. split; [|auto]. specialize (C 0%nat). cbn [reading per] in C.
      unfold per_enumerated in C. cbv zeta in C. rewrite in_app_iff. destruct ext; [|left; apply C].
      destruct C as [(C & _)|(_ & C & _)]; auto.
    + destruct D as (V & P). eapply bits_tight; eauto.
    + destruct D as (V & P). eapply octs_tight; eauto.
  - intros C pos. now apply encoder_conforms.
Qed.

(** The same for a list of such elements. *)
Theorem C45_list_exact : forall c t vs fs, declared (TSeqOf c t) -> (forall v, In v vs -> conf t v) ->
  enc (TSeqOf c t) (VSeqOf vs) = Ok fs ->
  ((forall pos, per (TSeqOf c t) (reading (TSeqOf c t) (VSeqOf vs)) pos (render pos fs)) <-> conf (TSeqOf c t) (VSeqOf vs)).
Proof.
  intros c t vs fs (V & P) SE E. split.
  - intros C. eapply list_tight; eauto. clear -SE. induction vs as [|v vs IH]; cbn [map]; [intros x []|].
    apply all_of_cons. split; [apply SE; now left|]. apply IH. intros x J. apply SE. now right.
  - intros C pos. now apply encoder_conforms.
Qed.

(** An OCTET STRING of up to 100000 octets: three octets are sent as X.691 says,
    two hundred are not. *)
Example C45_exact_case :
  let t := TOcts (CSeqSize false (Some 0) (Some 100000)) in
  declared t /\
  (exists fs, enc t (VOcts [1; 2; 3]) = Ok fs) /\ conf t (VOcts [1; 2; 3]) /\
  (exists fs, enc t (VOcts (repeat 7 200)) = Ok fs) /\ ~ conf t (VOcts (repeat 7 200)).
Proof.
  cbv zeta. split; [split; [constructor|intros l [= <-]; lia]|].
  split; [eexists; vm_compute; reflexivity|]. split.
  { split; [repeat constructor; lia|]. split; [split; [constructor|split; [intros l [= <-]; lia|]]|].
    - intros _. split; intros x [= <-]; cbn; lia.
    - split; [|split; [discriminate|discriminate]]. unfold limited_size. cbn. intros h [= <-]. right. split; [reflexivity|lia]. }
  split; [eexists; vm_compute; reflexivity|]. intros (_ & _ & G & _). unfold limited_size in G.
  change (zlen (repeat 7 200)) with 200 in G.
  change (inside (CSeqSize false (Some 0) (Some 100000)) 200) with true in G.
  destruct (G 100000 eq_refl) as [X|(_ & X)]; [apply Z.ltb_lt in X; discriminate X|apply Z.leb_le in X; discriminate X].
Qed.
