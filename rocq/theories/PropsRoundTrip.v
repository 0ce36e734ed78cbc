(** C01-C08, C11: what is encoded is read back.

    [int_ok], [enum_ok], [bits_ok], [octs_ok], [count_ok] and [supported]
    (Spec.v) say for which values the round trip is claimed, [ready]
    (Totality.v) when encode answers; the [_refuted] theorems show that the
    excluded values really fail. *)
From Coq Require Import ZArith List String Bool Lia ZifyBool ZifyNat.
Import ListNotations.
From Verif Require Import PyBase Schema Encoder Decoder BitFacts Stream Prims Spec SimpleTypes RoundTrip
  Reading Totality.
Open Scope string_scope.
Open Scope list_scope.
Open Scope Z_scope.

(** encode answers and decode gives the same object back. *)
Definition survives (t : ty) (v : val) : Prop :=
  exists bs, encode t v = Ok bs /\ decode bs t = Ok v.

(** encode answers and decode gives back an object that reads the same. *)
Definition survives_reading (t : ty) (v : val) : Prop :=
  exists bs v', encode t v = Ok bs /\ decode bs t = Ok v' /\ reading t v' = reading t v.

(** encode answers, and decode does not give the object back. *)
Definition lost (t : ty) (v : val) : Prop :=
  match encode t v with
  | Ok bs => match decode bs t with Ok v' => reading t v' <> reading t v | Err _ => True end
  | Err _ => False
  end.

Lemma simple_survives t v : is_simple t = true -> supported t v -> ready t v -> survives t v.
Proof.
  intros T S R. destruct (encode_total t v S R) as (bs & E). exists bs. split; auto.
  rewrite <- (app_nil_r bs). rewrite (decode_encode_canon t v bs []) by (auto; destruct t; try exact I; discriminate).
  destruct t, v; try contradiction; try discriminate; reflexivity.
Qed.

Lemma small_ufits k z : 3 <= k -> 0 <= z < 16777216 -> ufits k z.
Proof.
  intros Hk Hz. unfold ufits. split; [tauto|]. apply (Z.lt_le_trans _ (2 ^ 24)); [exact (proj2 Hz)|].
  apply Z.pow_le_mono_r; lia.
Qed.

Lemma small_range (l h z : Z) : l <= z <= h -> 0 <= h - l < 16777216 -> int_ok (CRange false (Some l) (Some h)) z.
Proof.
  intros H R. split; cbn [ctest le_opt_l le_opt_r clo chi cext orb inside].
  - lia.
  - unfold inside. cbn [clo chi]. replace ((l <=? z) && (z <=? h)) with true by lia.
    split; [|discriminate]. apply small_ufits; lia.
Qed.

(** * C01 INTEGER *)

(** Missing from the full statement: an extensible constraint whose root is one
    value other than 0; unconstrained (or outside the root) values of more than
    255 octets; ranges of more than 65536 octets. *)
Theorem C01_integer_partial : forall c z,
  int_ok c z -> bounded_ext c -> survives (TInt c) (VInt z).
Proof. intros c z H B. apply simple_survives; auto. Qed.

(** The side conditions spelled out for the four shapes of constraint. *)
Theorem C01_constrained_partial : forall l h z,
  l <= z <= h -> h - l < 2 ^ 524288 ->
  survives (TInt (CRange false (Some l) (Some h))) (VInt z).
Proof.
  intros l h z H R. apply C01_integer_partial; [|intros X; discriminate].
  split; cbn [ctest le_opt_l le_opt_r clo chi cext orb].
  - apply andb_true_intro. split; apply Z.leb_le; tauto.
  - unfold inside. cbn [clo chi].
    replace ((l <=? z) && (z <=? h)) with true
      by (symmetry; apply andb_true_intro; split; apply Z.leb_le; tauto).
    split; [|discriminate]. unfold ufits. change (8 * 65536) with 524288.
    generalize dependent (2 ^ 524288). intros. split; [apply Z.le_0_sub; etransitivity; apply H|assumption].
Qed.

Theorem C01_semi_constrained_partial : forall l z,
  l <= z -> z - l < 2 ^ 131064 ->
  survives (TInt (CRange false (Some l) None)) (VInt z).
Proof.
  intros l z H R. apply C01_integer_partial; [|intros X; discriminate].
  split; cbn [ctest le_opt_l le_opt_r clo chi cext orb].
  - rewrite andb_true_r. now apply Z.leb_le.
  - unfold ufits. change (8 * 16383) with 131064. generalize dependent (2 ^ 131064).
    intros. split; [now apply Z.le_0_sub|assumption].
Qed.

Theorem C01_unconstrained_partial : forall z,
  - 2 ^ 2039 <= z < 2 ^ 2039 -> survives (TInt CNone) (VInt z).
Proof.
  intros z H. apply C01_integer_partial; [|intros X; discriminate].
  split; [reflexivity|]. cbn [clo cext]. split; [reflexivity|exact H].
Qed.

Theorem C01_extensible_partial : forall l h z,
  l <= z <= h \/ - 2 ^ 2039 <= z < 2 ^ 2039 -> h - l < 2 ^ 524288 -> l < h ->
  survives (TInt (CRange true (Some l) (Some h))) (VInt z).
Proof.
  intros l h z H R LH. apply C01_integer_partial; [|intros X; split; discriminate].
  split; [reflexivity|]. cbn [clo chi cext]. unfold inside. cbn [clo chi].
  destruct ((l <=? z) && (z <=? h)) eqn:I.
  - unfold ufits. change (8 * 65536) with 524288. generalize dependent (2 ^ 524288). intros.
    split; [split; [apply Z.le_0_sub, Z.lt_le_incl; assumption|assumption]|].
    intros _ ->. now apply Z.lt_irrefl in LH.
  - split; [reflexivity|]. unfold sfits. destruct H as [(H1 & H2)|H]; [|exact H].
    apply Z.leb_le in H1, H2. rewrite H1, H2 in I. discriminate.
Qed.

Example C01_case_constrained :
  int_ok (CRange false (Some (-70000)) (Some 70000)) 12345 /\
  bounded_ext (CRange false (Some (-70000)) (Some 70000)) /\
  encode (TInt (CRange false (Some (-70000)) (Some 70000))) (VInt 12345) = Ok [128; 1; 65; 169] /\
  decode [128; 1; 65; 169] (TInt (CRange false (Some (-70000)) (Some 70000))) = Ok (VInt 12345).
Proof.
  split; [|split; [intros X; discriminate|vm_compute; auto]].
  split; [reflexivity|]. cbn [clo chi cext]. change (inside _ 12345) with true. cbv iota.
  split; [|discriminate]. unfold ufits. split; [discriminate|]. change (70000 - -70000) with 140000.
  apply (Z.lt_le_trans _ (2 ^ 18)); [reflexivity|]. apply Z.pow_le_mono_r; [reflexivity|discriminate].
Qed.

Example C01_case_extended :
  survives (TInt (CRange true (Some 0) (Some 10))) (VInt (-129)) /\
  encode (TInt (CRange true (Some 0) (Some 10))) (VInt (-129)) = Ok [128; 2; 255; 127].
Proof.
  split; [|vm_compute; reflexivity]. exists [128; 2; 255; 127]. vm_compute. split; reflexivity.
Qed.

(** INTEGER (5..5, ...) loses its only root value: 5 comes back as 0. *)
Theorem C01_integer_refuted : exists c z bs,
  ctest c z = true /\ encode (TInt c) (VInt z) = Ok bs /\ decode bs (TInt c) = Ok (VInt 0) /\ z <> 0.
Proof.
  exists (CRange true (Some 5) (Some 5)), 5, [0]. vm_compute. repeat split; discriminate.
Qed.

(** An unconstrained INTEGER of 256 octets is sent with a 9-bit length. *)
Theorem C01_long_integer_refuted : exists z, lost (TInt CNone) (VInt z).
Proof.
  exists (2 ^ 2040). vm_compute. discriminate.
Qed.

(** * C02 ENUMERATED *)

(** Missing: more than 65536 root items, and no limit that matters on the
    additions. *)
Theorem C02_enumerated_partial : forall ext root adds z,
  enum_ok ext root adds z -> survives (TEnum ext root adds) (VEnum z).
Proof. intros ext root adds z H. apply simple_survives; auto. exact I. Qed.

Example C02_case :
  let adds := map Z.of_nat (List.seq 3 70) in
  enum_ok true [0; 1; 2] adds 70 /\
  encode (TEnum true [0; 1; 2] adds) (VEnum 70) = Ok [192; 1; 67] /\
  decode [192; 1; 67] (TEnum true [0; 1; 2] adds) = Ok (VEnum 70).
Proof.
  cbv zeta. split; [|vm_compute; auto]. unfold enum_ok. split; [reflexivity|]. split.
  - apply existsb_Zeqb. reflexivity.
  - split; [vm_compute; discriminate|]. split; [discriminate|].
    unfold ufits. split; [vm_compute; discriminate|].
    apply (Z.lt_le_trans _ (2 ^ 18)); [reflexivity|]. apply Z.pow_le_mono_r; [reflexivity|discriminate].
Qed.

(** More than 65536 items: encode sends a length the decoder never reads, for
    every item. *)
Theorem C02_large_enumerated_lost : forall root z,
  numbered root [] -> In z root -> 65536 < zlen root -> lost (TEnum false root []) (VEnum z).
Proof.
  intros root z N Hin H. unfold lost. rewrite encode_spec.
  destruct (numbered_in root [] z N ltac:(now rewrite app_nil_r)) as (Hz & _).
  cbn [enc]. unfold encode_enumerated. cbn [negb]. rewrite app_nil_r in *.
  rewrite cwn_fields_ok by lia.
  match goal with |- context [decode (octs_of (produce_complete_encoding ?f)) _] => set (fs := f) end.
  unfold decode, decode_pos.
  destruct (per_init_ok (octs_of (produce_complete_encoding fs))) as (p & E & _).
  - apply octs_of_octet.
  - intros X. pose proof (octs_of_obits _ (produce_mod8 fs)) as K. rewrite X in K. cbn in K.
    symmetry in K. now apply produce_nonempty in K.
  - rewrite E. cbn [bind dec]. unfold decode_enumerated. cbn [negb]. rewrite app_nil_r.
    unfold decode_constrained_whole_number, integer_range, dbind, lift.
    destruct (get_bit_field_size _); cbn [bind]; [|exact I].
    replace (zlen root - 1 - 0 + 1 =? 1) with false by lia.
    replace (zlen root - 1 - 0 + 1 <=? 255) with false by lia.
    replace (zlen root - 1 - 0 + 1 =? 256) with false by lia.
    replace (zlen root - 1 - 0 + 1 <=? 65536) with false by lia.
    rewrite andb_false_r. exact I.
Qed.

Theorem C02_enumerated_refuted : exists root z,
  numbered root [] /\ In z root /\ lost (TEnum false root []) (VEnum z).
Proof.
  exists (map Z.of_nat (List.seq 0 (Z.to_nat 65537))), 0.
  assert (N : numbered (map Z.of_nat (List.seq 0 (Z.to_nat 65537))) []).
  { unfold numbered. rewrite app_nil_r, map_length, seq_length. reflexivity. }
  assert (Hin : In 0 (map Z.of_nat (List.seq 0 (Z.to_nat 65537)))).
  { apply in_map_iff. exists 0%nat. split; [reflexivity|]. apply in_seq. lia. }
  split; [exact N|]. split; [exact Hin|]. apply C02_large_enumerated_lost; auto.
  unfold zlen. rewrite map_length, seq_length. lia.
Qed.

(** * C03 BIT STRING *)

(** Missing: the empty string unless the size is fixed at 0; a string outside
    an extensible root whose length is no multiple of 8; unfragmented lengths of
    16384 and more. *)
Theorem C03_bit_string_partial : forall c s,
  bits_ok c s -> bounded_ext c -> fixed_small c -> survives (TBits c) (VBits s).
Proof. intros c s H B F. apply simple_survives; auto. split; auto. Qed.

Theorem C03_fixed_size : forall n s,
  zlen s = n -> n < 65536 ->
  survives (TBits (CRange false (Some n) (Some n))) (VBits s).
Proof.
  intros n s L H. apply C03_bit_string_partial.
  - unfold bits_ok. cbn [ctest clo chi cext le_opt_l le_opt_r orb andb]. cbv zeta. rewrite L, Z.leb_refl.
    split; [reflexivity|]. destruct s as [|b s].
    + change (zlen (@nil bool)) with 0 in L. subst n. split; reflexivity.
    + assert (0 < n) by (unfold zlen in L; cbn [List.length] in L; lia). destruct n; try lia.
      repeat split; try discriminate; lia.
  - intros X; discriminate.
  - intros l [= <-] _. exact H.
Qed.

Theorem C03_variable_size_partial : forall l h s,
  0 <= l <= zlen s -> zlen s <= h -> h < 65536 -> s <> [] ->
  survives (TBits (CRange false (Some l) (Some h))) (VBits s).
Proof.
  intros l h s L H H' Hn. pose proof (zlen_pos s Hn). apply C03_bit_string_partial.
  - unfold bits_ok. cbn [ctest clo chi cext le_opt_l le_opt_r orb andb]. cbv zeta.
    replace (l <=? zlen s) with true by lia. replace (zlen s <=? h) with true by lia. split; [reflexivity|].
    destruct h; try lia. repeat split; auto; lia.
  - intros X; discriminate.
  - intros k [= <-] [= <-]. lia.
Qed.

Example C03_case :
  encode (TBits (CRange true (Some 1) (Some 4))) (VBits [true; false; true; true; false; false; true; true])
    = Ok [128; 8; 179] /\
  bits_ok (CRange true (Some 1) (Some 4)) [true; false; true; true; false; false; true; true].
Proof. split; [vm_compute; reflexivity|]. split; [reflexivity|]. cbn. split; [discriminate|]. lia. Qed.

(** The empty BIT STRING (SIZE (0..5)) comes back as the one-bit string '0'B. *)
Theorem C03_empty_refuted : exists c s bs,
  ctest c (zlen s) = true /\ encode (TBits c) (VBits s) = Ok bs /\
  decode bs (TBits c) = Ok (VBits [false]) /\ s = [].
Proof. exists (CRange false (Some 0) (Some 5)), [], [32; 0]. vm_compute. auto. Qed.

(** Outside an extensible root the decoder aligns after the bits, the encoder
    does not: what follows the string is read from the wrong place. *)
Theorem C03_extended_refuted : exists c s,
  ctest c (zlen s) = true /\ survives (TBits c) (VBits s) /\
  lost (TSeq false [Comp "a" Mand (TBits c); Comp "b" Mand TBool] [] [])
       (VSeq (Some [Some (VBits s); Some (VBool true)])).
Proof.
  exists (CRange true (Some 1) (Some 2)), [true; true; true]. split; [reflexivity|]. split.
  - exists [128; 3; 224]. vm_compute. split; reflexivity.
  - vm_compute. exact I.
Qed.

(** * C04 OCTET STRING *)

(** Missing: with a variable size, contents whose first octet is below 16; the
    empty string in several forms; unfragmented lengths of 16384 and more. *)
Theorem C04_octet_string_partial : forall c bs,
  octs_ok c bs -> bounded_ext c -> fixed_small c -> survives (TOcts c) (VOcts bs).
Proof. intros c s H B F. apply simple_survives; auto. split; auto. Qed.

Theorem C04_fixed_size : forall n bs,
  Forall (fun b => 0 <= b < 256) bs -> zlen bs = n -> n < 65536 ->
  survives (TOcts (CRange false (Some n) (Some n))) (VOcts bs).
Proof.
  intros n s O L H. apply C04_octet_string_partial.
  - unfold octs_ok. cbn [ctest clo chi cext le_opt_l le_opt_r orb andb]. cbv zeta. rewrite L, Z.leb_refl.
    split; [exact O|]. split; [reflexivity|]. assert (0 <= n) by (unfold zlen in L; lia).
    destruct n as [|p|p]; [| |lia].
    + split; [reflexivity|]. destruct s; [reflexivity|unfold zlen in L; cbn [List.length] in L; lia].
    + split; [lia|]. split; [lia|]. intros X. lia.
  - intros X; discriminate.
  - intros l [= <-] _. exact H.
Qed.

Theorem C04_unconstrained_partial : forall bs,
  Forall (fun b => 0 <= b < 256) bs -> 1 <= zlen bs < 16384 -> survives (TOcts CNone) (VOcts bs).
Proof.
  intros bs O L. apply C04_octet_string_partial.
  - split; [exact O|]. split; [reflexivity|]. cbn. exact L.
  - intros X; discriminate.
  - intros l X. discriminate.
Qed.

(** A variable size: the contents without a leading zero digit survive, and a single zero. *)
Theorem C04_variable_size_partial : forall l h b bs,
  Forall (fun b => 0 <= b < 256) (b :: bs) -> 0 <= l <= zlen (b :: bs) -> zlen (b :: bs) <= h ->
  l < h -> h - l < 65536 -> digits_kept (b :: bs) ->
  survives (TOcts (CRange false (Some l) (Some h))) (VOcts (b :: bs)).
Proof.
  intros l h b bs O L H LH R B. apply C04_octet_string_partial.
  - unfold octs_ok. cbn [ctest clo chi cext le_opt_l le_opt_r orb andb]. cbv zeta.
    replace (l <=? zlen (b :: bs)) with true by lia. replace (zlen (b :: bs) <=? h) with true by lia.
    split; [exact O|]. split; [reflexivity|]. destruct h as [|p|p]; [unfold zlen in L; cbn [List.length] in *; lia| |lia].
    split; [auto|]. split; [auto|]. intros _. split; [lia|exact B].
  - intros X; discriminate.
  - intros k [= <-] [= <-]. lia.
Qed.

Example C04_case :
  octs_ok (CRange false (Some 1) (Some 20)) [18; 0; 255] /\
  encode (TOcts (CRange false (Some 1) (Some 20))) (VOcts [18; 0; 255]) = Ok [16; 18; 0; 255].
Proof.
  split; [|vm_compute; reflexivity]. split; [repeat constructor; lia|]. split; [reflexivity|]. cbn. lia.
Qed.

(** OCTET STRING (SIZE (0..5)): 05 01 comes back as 50 10. *)
Theorem C04_octet_string_refuted : exists c bs es,
  ctest c (zlen bs) = true /\ encode (TOcts c) (VOcts bs) = Ok es /\
  decode es (TOcts c) = Ok (VOcts [80; 16]) /\ bs = [5; 1].
Proof. exists (CRange false (Some 0) (Some 5)), [5; 1], [64; 5; 1]. vm_compute. auto. Qed.

(** An empty OCTET STRING without constraint comes back as one zero octet. *)
Theorem C04_empty_refuted : exists es,
  encode (TOcts CNone) (VOcts []) = Ok es /\ decode es (TOcts CNone) = Ok (VOcts [0]).
Proof. exists [0]. vm_compute. auto. Qed.

(** * C05 SEQUENCE OF *)

(** Missing: an extensible SIZE whose root is one size other than 0, sizes and
    ranges beyond the implemented limits. *)
Theorem C05_sequence_of_partial : forall c t vs bs,
  count_ok c (zlen vs) -> (forall v, In v vs -> supported t v) ->
  encode (TSeqOf c t) (VSeqOf vs) = Ok bs ->
  exists vs', decode bs (TSeqOf c t) = Ok (VSeqOf vs') /\ map (reading t) vs' = map (reading t) vs.
Proof.
  intros c t vs bs HC HV E.
  assert (S : supported (TSeqOf c t) (VSeqOf vs)).
  { split; [exact HC|]. intros p Hp. apply in_map_iff in Hp as (v & <- & Hv). auto. }
  exists (map (canon t) vs). split.
  - rewrite <- (app_nil_r bs). apply (decode_encode_canon (TSeqOf c t) (VSeqOf vs)); auto. exact I.
  - apply encode_inv in E as (fs & E & _). pose proof (same_reading_all _ _ _ S E) as R.
    cbn [canon_by reading] in R. congruence.
Qed.

(** When the elements are of a simple type the list itself comes back. *)
Theorem C05_simple_elements_partial : forall c t vs bs,
  is_simple t = true -> count_ok c (zlen vs) -> (forall v, In v vs -> supported t v) ->
  encode (TSeqOf c t) (VSeqOf vs) = Ok bs -> decode bs (TSeqOf c t) = Ok (VSeqOf vs).
Proof.
  intros c t vs bs T HC HV E.
  assert (S : supported (TSeqOf c t) (VSeqOf vs)).
  { split; [exact HC|]. intros p Hp. apply in_map_iff in Hp as (v & <- & Hv). auto. }
  rewrite <- (app_nil_r bs). rewrite (decode_encode_canon (TSeqOf c t) (VSeqOf vs)); auto; [|exact I].
  cbn [canon_by]. do 2 f_equal. rewrite <- (map_id vs) at 2. apply map_ext_in. intros v Hv.
  specialize (HV v Hv). destruct t, v; try contradiction; try discriminate; reflexivity.
Qed.

Example C05_case :
  count_ok (CSeqSize false (Some 1) (Some 300)) 3 /\
  (forall v, In v [VInt 1; VInt 300; VInt 0] -> supported (TInt (CRange false (Some 0) (Some 300))) v) /\
  encode (TSeqOf (CSeqSize false (Some 1) (Some 300)) (TInt (CRange false (Some 0) (Some 300))))
         (VSeqOf [VInt 1; VInt 300; VInt 0]) = Ok [0; 2; 0; 1; 1; 44; 0; 0].
Proof.
  split; [cbn; lia|]. split; [|vm_compute; reflexivity].
  intros v [<-|[<-|[<-|[]]]]; apply small_range; lia.
Qed.

(** SEQUENCE (SIZE (2..2, ...)) OF BOOLEAN with two elements comes back empty. *)
Theorem C05_sequence_of_refuted : exists c vs bs,
  encode (TSeqOf c TBool) (VSeqOf vs) = Ok bs /\ decode bs (TSeqOf c TBool) = Ok (VSeqOf []) /\
  vs = [VBool true; VBool true].
Proof. exists (CSeqSize true (Some 2) (Some 2)), [VBool true; VBool true], [96]. vm_compute. auto. Qed.

(** * C06 CHOICE *)

(** Missing: contents that do not survive themselves, and (for the outermost
    type) an empty BIT STRING as content. *)
Theorem C06_choice_partial : forall ext root adds groups i v bs,
  supported (TChoice ext root adds groups) (VChoice (Some (i, v))) ->
  empty_inside v = false ->
  encode (TChoice ext root adds groups) (VChoice (Some (i, v))) = Ok bs ->
  exists v' c, decode bs (TChoice ext root adds groups) = Ok (VChoice (Some (i, v'))) /\
    nth_error (all_comps root adds groups) i = Some c /\ reading (cty c) v' = reading (cty c) v.
Proof.
  intros ext root adds groups i v bs S N E.
  pose proof (decode_encode_canon _ _ bs [] S ltac:(exact N) E ltac:(constructor)) as D.
  rewrite app_nil_r in D. cbn [canon_by] in D. rewrite all_att, nth_error_att in D.
  pose proof S as S'. cbn [supported_by] in S'. destruct S' as (_ & _ & _ & S').
  rewrite all_att, nth_error_att in S'.
  apply encode_inv in E as (fs & E & _). pose proof (same_reading_all _ _ _ S E) as R.
  cbn [canon_by reading] in R. rewrite all_att, nth_error_att in R.
  destruct (nth_error (all_comps root adds groups) i) as [c|] eqn:N'; [|contradiction].
  cbn [option_map snd] in D, R. exists (canon (cty c) v), c. split; [exact D|]. split; [reflexivity|].
  cbn [reading] in R. rewrite all_att, nth_error_att, N' in R. cbn [option_map snd] in R. congruence.
Qed.

Definition C06_ty : ty :=
  TChoice true [Comp "a" Mand TBool; Comp "b" Mand (TInt CNone)] [Comp "c" Mand (TOcts CNone)] [].

Example C06_case :
  supported C06_ty (VChoice (Some (2%nat, VOcts [171; 205]))) /\
  encode C06_ty (VChoice (Some (2%nat, VOcts [171; 205]))) = Ok [128; 3; 2; 171; 205].
Proof.
  split; [|vm_compute; reflexivity]. cbn [C06_ty supported_by]. split.
  - repeat constructor; cbn; intuition discriminate.
  - split; [discriminate|]. split.
    + unfold ufits. split; [vm_compute; discriminate|].
      apply (Z.lt_le_trans _ (2 ^ 18)); [reflexivity|]. apply Z.pow_le_mono_r; [reflexivity|discriminate].
    + cbn [att map app List.concat nth_error snd fst cty]. split.
      * cbn. split; [repeat constructor; lia|]. split; [reflexivity|]. vm_compute. split; congruence.
      * intros _. split; [apply small_ufits; lia|].
        intros bs E. vm_compute in E. injection E as <-. vm_compute. reflexivity.
Qed.

(** A CHOICE around an empty BIT STRING (SIZE (0)) cannot be read back as a
    message. *)
Theorem C06_choice_refuted : exists t v, supported t v /\ lost t v.
Proof.
  exists (TChoice false [Comp "a" Mand (TBits (CRange false (Some 0) (Some 0)))] [] []),
         (VChoice (Some (0%nat, VBits []))).
  split.
  - cbn [supported_by]. split; [repeat constructor; cbn; tauto|]. split; [auto|]. split.
    + unfold ufits. split; [vm_compute; discriminate|].
      apply (Z.lt_le_trans _ (2 ^ 18)); [reflexivity|]. apply Z.pow_le_mono_r; [reflexivity|discriminate].
    + cbn. split; [split; [reflexivity|split; reflexivity]|]. intros X. inversion X.
  - vm_compute. exact I.
Qed.

(** * C07 SEQUENCE *)

(** Component by component: same presence, same content. Missing: components
    that do not survive themselves, OPTIONAL components whose object has no
    visible content, DEFAULT BIT STRINGs told apart only by their length. *)
Theorem C07_sequence_partial : forall ext root adds groups slots bs,
  supported (TSeq ext root adds groups) (VSeq slots) ->
  encode (TSeq ext root adds groups) (VSeq slots) = Ok bs ->
  exists slots', decode bs (TSeq ext root adds groups) = Ok (VSeq slots') /\
    forall i, nth_error (match reading (TSeq ext root adds groups) (VSeq slots') with ASeq l => l | _ => [] end) i =
              nth_error (match reading (TSeq ext root adds groups) (VSeq slots) with ASeq l => l | _ => [] end) i.
Proof.
  intros ext root adds groups slots bs S E.
  destruct (round_trip _ _ _ S ltac:(exact I) E) as (v' & D & R).
  pose proof D as D'. rewrite <- (app_nil_r bs) in D'.
  rewrite (decode_encode_canon _ _ bs [] S ltac:(exact I) E ltac:(constructor)) in D'.
  injection D' as <-. cbn [canon_by] in *. eexists. split; [exact D|]. intros i. now rewrite R.
Qed.

Definition C07_ty : ty :=
  TSeq true [Comp "a" Opt (TInt (CRange false (Some 0) (Some 7))); Comp "b" Mand TBool;
             Comp "c" (Dflt (VInt 5)) (TInt (CRange false (Some 0) (Some 7)))]
       [Comp "d" Opt (TInt CNone)] [[Comp "e" Mand TBool; Comp "f" Opt TBool]].

Definition C07_val : val :=
  VSeq (Some [Some (VInt 3); Some (VBool true); None; None; Some (VBool true); Some (VBool false)]).

Example C07_case :
  supported C07_ty C07_val /\
  encode C07_ty C07_val = Ok [206; 5; 1; 192] /\
  decode [206; 5; 1; 192] C07_ty =
    Ok (VSeq (Some [Some (VInt 3); Some (VBool true); None; None; Some (VBool true); Some (VBool false)])).
Proof.
  split; [|vm_compute; auto]. cbn [C07_ty C07_val supported_by]. cbv zeta. split; [|split; [|split; [|split; [|split]]]].
  - repeat constructor; cbn; intuition discriminate.
  - reflexivity.
  - discriminate.
  - cbn [slots_list att map zipw]. intros p [<-|[<-|[<-|[]]]].
    + intros _. split; [exact I|]. apply small_range; lia.
    + exact I.
    + split; [left; reflexivity|]. intros X. now elim X.
  - cbn [slots_list att map zipw skipn List.length]. intros p [<-|[]].
    split; [discriminate|]. intros X. discriminate.
  - cbn [slots_list att map skipn List.length supp_groups Nat.add].
    split; [|exact I]. split.
    + cbn. intros p [<-|[<-|[]]]; discriminate.
    + intros _. split; [|split].
      * cbn. intros p [<-|[<-|[]]]; cbn; auto.
      * cbn. intros p [<-|[<-|[]]]; cbn; auto.
      * intros bs E. vm_compute in E. injection E as <-. vm_compute. reflexivity.
Qed.

(** SEQUENCE { x SEQUENCE { a INTEGER DEFAULT 5 } OPTIONAL } with x.a set to 5:
    x is sent as present but empty, and comes back absent. *)
Theorem C07_sequence_refuted : exists t v bs v',
  encode t v = Ok bs /\ decode bs t = Ok v' /\
  reading t v = ASeq [Some (ASeq [Some (AInt 5)])] /\ reading t v' = ASeq [None].
Proof.
  exists (TSeq false [Comp "x" Opt (TSeq false [Comp "a" (Dflt (VInt 5)) (TInt CNone)] [] [])] [] []),
         (VSeq (Some [Some (VSeq (Some [Some (VInt 5)]))])), [128], (VSeq (Some [Some (VSeq None)])).
  vm_compute. auto.
Qed.

(** * C08 whole messages *)

(** Missing: the values for which C01-C07 fail. *)
Theorem C08_message_partial : forall t v,
  supported t v -> ready t v -> top_ok t v -> survives_reading t v.
Proof.
  intros t v S R T. destruct (encode_total t v S R) as (bs & E).
  destruct (round_trip t v bs S T E) as (v' & D & H). exists bs, v'. auto.
Qed.

(** The same when encode is known to have answered. *)
Theorem C08_answered_message_partial : forall t v bs,
  supported t v -> top_ok t v -> encode t v = Ok bs ->
  exists v', decode bs t = Ok v' /\ reading t v' = reading t v.
Proof. exact round_trip. Qed.

(** At any bit offset, in any context: after [pre] the decoder reads the fields
    of the message, whatever [post] follows, and stops right behind them. *)
Theorem C08_any_offset_partial : forall t v fs,
  supported t v -> enc t v = Ok fs ->
  exists dv, cast t dv = Ok (canon t v) /\ reading t (canon t v) = reading t v /\
  forall pre post p, pb_bits p = pre ++ render (List.length pre) fs ++ post ->
    curr_octets (pb_off p) = Nat.div (List.length pre) 8 ->
    curr_bits (pb_off p) = Nat.modulo (List.length pre) 8 ->
    exists p', dec t p = Ok (dv, p') /\ pb_bits p' = pb_bits p /\
      (8 * curr_octets (pb_off p') + curr_bits (pb_off p') =
       List.length (pre ++ render (List.length pre) fs))%nat.
Proof.
  intros t v fs S E. destruct (rt_all t v fs S E) as (dv & C & R). exists dv. split; [exact C|]. split.
  { eapply same_reading_all; eauto. }
  intros pre post p B O1 O2.
  destruct (R (List.length pre) p pre post) as (p' & D & A); auto.
  { split; auto. }
  exists p'. split; [exact D|]. destruct A as (A1 & A2 & A3). split; [congruence|].
  rewrite A2, A3. symmetry. rewrite app_length. apply Nat.div_mod. discriminate.
Qed.

Definition C08_ty : ty :=
  TSeqOf (CSeqSize false (Some 0) None)
    (TChoice false [Comp "x" Mand C07_ty; Comp "y" Mand (TBits (CRange false (Some 3) (Some 3)))] [] []).

Definition C08_val : val :=
  VSeqOf [VChoice (Some (1%nat, VBits [true; false; true])); VChoice (Some (0%nat, C07_val))].

Example C07_ready : ready C07_ty C07_val.
Proof.
  cbn [C07_ty C07_val ready]. cbv zeta. cbn [slots_list att map zipw skipn List.length].
  split; [reflexivity|]. split; [vm_compute; discriminate|].
  split; [repeat constructor; discriminate|].
  split; [|split; [|split; [|split]]].
  - intros p [<-|[<-|[<-|[]]]]; cbn; auto.
    + intros _ X. discriminate.
    + split; [exact I|]. intros X. now elim X.
  - intros p [<-|[]]. intros X. discriminate.
  - split; [|exact I]. split; [cbn; auto|]. intros _. split; [reflexivity|].
    intros p [<-|[<-|[]]]; cbn; auto.
  - cbn. auto.
  - cbn. auto.
Qed.

Lemma C08_names : NoDup (map (@cname ty) (all_comps [Comp "x" Mand C07_ty; Comp "y" Mand (TBits (CRange false (Some 3) (Some 3)))] [] [])).
Proof. repeat constructor; cbn; intuition discriminate. Qed.

Example C08_case :
  supported C08_ty C08_val /\ ready C08_ty C08_val /\ top_ok C08_ty C08_val /\
  encode C08_ty C08_val = Ok [2; 214; 112; 40; 1; 192] /\
  decode [2; 214; 112; 40; 1; 192] C08_ty = Ok C08_val.
Proof.
  split; [|split; [|split; [exact I|vm_compute; auto]]].
  - split; [cbn; lia|]. intros p [<-|[<-|[]]].
    + split; [exact C08_names|]. split; [auto|]. split; [apply small_ufits; [lia|vm_compute; split; congruence]|].
      split; [cbn; repeat split; try discriminate; lia|]. intros H. exfalso. cbn in H. lia.
    + split; [exact C08_names|]. split; [auto|]. split; [apply small_ufits; [lia|vm_compute; split; congruence]|].
      split; [exact (proj1 C07_case)|]. intros H. exfalso. cbn in H. lia.
  - split; [intros X; discriminate|]. intros p [<-|[<-|[]]].
    + split; [intros X; discriminate|]. intros l [= <-] _. lia.
    + exact C07_ready.
Qed.

Theorem C08_message_refuted : exists t v, lost t v /\ ready t v.
Proof.
  exists (TSeq false [Comp "x" Opt (TSeq false [Comp "a" (Dflt (VInt 5)) (TInt CNone)] [] [])] [] []),
         (VSeq (Some [Some (VSeq (Some [Some (VInt 5)]))])).
  split.
  - vm_compute. discriminate.
  - cbn. split; [reflexivity|]. split; [discriminate|]. split; [constructor|]. split.
    + intros p [<-|[]]. intros _. cbn. split; [reflexivity|]. split; [discriminate|]. split; [constructor|].
      split; [|split; [intros p []|auto]].
      intros p [<-|[]]. cbn. split; [exact I|]. intros X. now elim X.
    + split; [intros p []|auto].
Qed.

(** * C11 injectivity *)
Theorem C11_injective_partial : forall t v w bs,
  supported t v -> supported t w -> top_ok t v -> top_ok t w ->
  encode t v = Ok bs -> encode t w = Ok bs -> reading t v = reading t w.
Proof.
  intros t v w bs Sv Sw Tv Tw Ev Ew.
  destruct (round_trip t v bs Sv Tv Ev) as (v' & D & R).
  destruct (round_trip t w bs Sw Tw Ew) as (w' & D' & R'). congruence.
Qed.

(** No message's encoding is a proper beginning of another's, up to reading:
    decoding does not look at what follows. *)
Theorem C11_prefix_free_partial : forall t v w bs rest,
  supported t v -> supported t w -> top_ok t v -> top_ok t w ->
  encode t v = Ok bs -> encode t w = Ok (bs ++ rest) -> reading t v = reading t w.
Proof.
  intros t v w bs rest Sv Sw Tv Tw Ev Ew.
  assert (O : Forall octet rest).
  { apply encode_inv in Ew as (fs & _ & _ & _ & O & _). now apply Forall_app in O. }
  pose proof (decode_encode_canon t v bs rest Sv Tv Ev O) as D.
  pose proof (decode_encode_canon t w _ [] Sw Tw Ew ltac:(constructor)) as D'.
  rewrite app_nil_r in D'. rewrite D in D'. injection D' as D'.
  apply encode_inv in Ev as (fs & Ev & _). apply encode_inv in Ew as (gs & Ew & _).
  rewrite <- (same_reading_all t v fs Sv Ev), <- (same_reading_all t w gs Sw Ew). congruence.
Qed.

Example C11_case :
  supported C08_ty C08_val /\ top_ok C08_ty C08_val /\
  encode (TInt CNone) (VInt 127) = Ok [1; 127] /\ encode (TInt CNone) (VInt (-128)) = Ok [1; 128].
Proof. split; [exact (proj1 C08_case)|]. split; [exact I|]. vm_compute. auto. Qed.

(** '' and '0'B of BIT STRING (SIZE (0..5)) have the same encoding. *)
Theorem C11_injective_refuted : exists t v w bs,
  encode t v = Ok bs /\ encode t w = Ok bs /\ reading t v <> reading t w.
Proof.
  exists (TBits (CRange false (Some 0) (Some 5))), (VBits []), (VBits [false]), [32; 0].
  vm_compute. repeat split; discriminate.
Qed.
