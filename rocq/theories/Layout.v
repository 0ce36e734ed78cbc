(** C09, C14-C17: what the bits look like. *)
From Coq Require Import ZArith List String Bool Lia ZifyBool ZifyNat ZifyN.
Import ListNotations.
From Verif Require Import PyBase Schema Encoder Decoder BitFacts Stream Prims Spec SimpleTypes.
Open Scope Z_scope.
Ltac Zify.zify_post_hook ::= Z.div_mod_to_equations.

(** * Specification vocabulary *)

(** The bits of a byte string, most significant bit first. *)
Definition octet_bits (b : Z) : bits := map (Z.testbit b) [7; 6; 5; 4; 3; 2; 1; 0].
Definition bytes_bits (bs : list Z) : bits := flat_map octet_bits bs.

(** [laid fs s]: the bits [s] are the fields [fs] written one after the other,
    an aligned field after the fewest zero bits that reach a multiple of 8. *)
Inductive laid : list field -> bits -> Prop :=
| laid_nil : laid [] []
| laid_plain fs s w : laid fs s -> laid (fs ++ [F false w]) (s ++ w)
| laid_aligned fs s k w : laid fs s -> (k < 8)%nat ->
    Nat.modulo (List.length s + k) 8 = 0%nat ->
    laid (fs ++ [F true w]) (s ++ repeat false k ++ w).

(** [s] writes [n] in exactly [w] bits. *)
Definition unsigned (s : bits) (w : nat) (n : Z) : Prop := List.length s = w /\ bval s = n.

(** Least number of bits, of octets (at least one), of two's complement octets. *)
Definition least_bits (n : Z) (w : nat) : Prop :=
  n < 2 ^ Z.of_nat w /\ forall w', n < 2 ^ Z.of_nat w' -> (w <= w')%nat.
Definition least_octets (n : Z) (k : nat) : Prop :=
  (1 <= k)%nat /\ n < 2 ^ Z.of_nat (8 * k) /\
  forall k', (1 <= k')%nat -> n < 2 ^ Z.of_nat (8 * k') -> (k <= k')%nat.

(** Two's complement: the first bit counts negatively. *)
Definition signed (s : bits) : Z :=
  match s with [] => 0 | b :: r => bval r - Z.b2z b * 2 ^ Z.of_nat (List.length r) end.
Definition shortest_signed (s : bits) (z : Z) : Prop :=
  Nat.modulo (List.length s) 8 = 0%nat /\ s <> [] /\ signed s = z /\
  forall s', Nat.modulo (List.length s') 8 = 0%nat -> s' <> [] -> signed s' = z ->
             (List.length s <= List.length s')%nat.

(** Fields that put something on the wire. *)
Definition on_wire (fs : list field) : list field :=
  filter (fun f => falign f || negb (isnil (fbits f))) fs.

(** X.691 11.5: [n] as a constrained whole number of [lb..ub]. *)
Inductive cwn_layout (lb ub n : Z) : list field -> Prop :=
| cwn_one : ub - lb + 1 = 1 -> cwn_layout lb ub n []
| cwn_bits s w : 2 <= ub - lb + 1 <= 255 -> least_bits (ub - lb) w ->
    unsigned s w (n - lb) -> cwn_layout lb ub n [F false s]
| cwn_octet s : ub - lb + 1 = 256 -> unsigned s 8 (n - lb) -> cwn_layout lb ub n [F true s]
| cwn_two s : 257 <= ub - lb + 1 <= 65536 -> unsigned s 16 (n - lb) -> cwn_layout lb ub n [F true s]
| cwn_long det s m k : 65536 < ub - lb + 1 ->
    least_octets (ub - lb) m -> least_octets (n - lb) k -> unsigned s (8 * k) (n - lb) ->
    (Z.of_nat m <= 65536 -> cwn_layout 1 (Z.of_nat m) (Z.of_nat k) (on_wire det)) ->
    cwn_layout lb ub n (det ++ [F true s]).

(** X.691 11.9: a general length below 16K. *)
Inductive len_layout (n : Z) : list field -> Prop :=
| len_short s : n <= 127 -> unsigned s 7 n -> len_layout n [F true (false :: s)]
| len_long s : 128 <= n <= 16383 -> unsigned s 14 n -> len_layout n [F true (true :: false :: s)].

(** * C09 *)

Lemma bytes_bits_obits bs : bytes_bits bs = obits bs.
Proof.
  unfold bytes_bits, obits. rewrite flat_map_concat_map. f_equal.
Qed.

Lemma laid_add fs s f : laid fs s -> laid (fs ++ [f]) (add_field s f).
Proof.
  intros H. destruct f as [[|] w]; rewrite add_field_render; cbn [falign fbits fpad].
  - apply laid_aligned; auto; [apply padn_lt|]. apply (up8_mod (len s)).
  - now apply laid_plain.
Qed.

Lemma laid_fold fs : forall gs acc, laid gs acc -> laid (gs ++ fs) (fold_left add_field fs acc).
Proof.
  induction fs as [|f fs IH]; intros gs acc H; cbn [fold_left].
  - now rewrite app_nil_r.
  - replace (gs ++ f :: fs) with ((gs ++ [f]) ++ fs) by (rewrite <- app_assoc; reflexivity).
    apply IH. now apply laid_add.
Qed.

Lemma laid_render fs : laid fs (render 0 fs).
Proof.
  pose proof (laid_fold fs [] [] laid_nil) as H. rewrite fold_render in H. exact H.
Qed.

(** The layout determines the bits. *)
Lemma laid_length_nil fs s : laid fs s -> fs = [] -> s = [].
Proof. intros H. destruct H; auto; intros X; now apply app_eq_nil in X. Qed.

Lemma laid_fun fs : forall s s', laid fs s -> laid fs s' -> s = s'.
Proof.
  induction fs as [|f fs IH] using rev_ind; intros s s' H H'.
  - rewrite (laid_length_nil _ _ H), (laid_length_nil _ _ H'); auto.
  - inversion H as [E|fs1 s1 w1 L1 E|fs1 s1 k1 w1 L1 K1 M1 E]; subst.
    + now apply app_cons_not_nil in E.
    + apply app_inj_tail in E as (<- & <-).
      inversion H' as [E|fs2 s2 w2 L2 E|fs2 s2 k2 w2 L2 K2 M2 E]; subst.
      * now apply app_cons_not_nil in E.
      * apply app_inj_tail in E as (<- & [= <-]). f_equal. auto.
      * apply app_inj_tail in E as (<- & X). discriminate.
    + apply app_inj_tail in E as (<- & <-).
      inversion H' as [E|fs2 s2 w2 L2 E|fs2 s2 k2 w2 L2 K2 M2 E]; subst.
      * now apply app_cons_not_nil in E.
      * apply app_inj_tail in E as (<- & X). discriminate.
      * apply app_inj_tail in E as (<- & [= <-]).
        pose proof (IH _ _ L1 L2). subst s2. replace k2 with k1 by lia. reflexivity.
Qed.

Theorem C09_whole_octets : forall t v bs, encode t v = Ok bs ->
  exists fs s k, enc t v = Ok fs /\ laid fs s /\
    Forall (fun b => 0 <= b < 256) bs /\ bytes_bits bs = s ++ repeat false k /\
    (s <> [] -> (k < 8)%nat) /\ (s = [] -> bs = [0]).
Proof.
  intros t v bs E. apply encode_inv in E as (fs & E & -> & O & Ho & Hn).
  exists fs, (render 0 fs). destruct (produce_spec fs) as (k & P & K). exists k.
  split; [exact E|]. split; [apply laid_render|]. split; [exact Ho|].
  split; [rewrite bytes_bits_obits, O; exact P|]. split.
  - intros X. destruct K as [->|(K & _)]; [apply padn_lt|congruence].
  - intros X. destruct K as [->|(_ & ->)]; rewrite X in P.
    + exfalso. apply (produce_nonempty fs). rewrite P. reflexivity.
    + rewrite P. reflexivity.
Qed.

(** The padding is determined: two byte strings laid out like this are equal. *)
Theorem C09_unique : forall fs s k k' bs bs',
  laid fs s -> Forall (fun b => 0 <= b < 256) bs -> Forall (fun b => 0 <= b < 256) bs' ->
  bytes_bits bs = s ++ repeat false k -> bytes_bits bs' = s ++ repeat false k' ->
  (k < 8)%nat -> (k' < 8)%nat -> bs = bs'.
Proof.
  intros fs s k k' bs bs' _ O O' E E' K K'. rewrite bytes_bits_obits in E, E'.
  assert (k = k').
  { pose proof (f_equal (@List.length _) E) as L. pose proof (f_equal (@List.length _) E') as L'.
    rewrite obits_length, app_length, repeat_length in L, L'. lia. }
  subst k'. apply obits_inj; auto. congruence.
Qed.

Example C09_case :
  let t := TSeqOf (CSeqSize false (Some 0) (Some 3)) (TInt CNone) in
  exists fs, enc t (VSeqOf [VInt 5; VInt (-300)]) = Ok fs /\
  encode t (VSeqOf [VInt 5; VInt (-300)]) = Ok [128; 1; 5; 2; 254; 212] /\
  map falign fs = [false; true; true].
Proof. cbv zeta. eexists. split; [vm_compute; reflexivity|]. vm_compute. auto. Qed.

(** * C14 *)

Lemma unsigned_to_bits w z : 0 <= z < 2 ^ Z.of_nat w -> unsigned (to_bits w z) w z.
Proof. intros H. split; [apply to_bits_length|now apply bval_to_bits]. Qed.

Lemma least_octets_noct z : 0 <= z -> least_octets z (noct z).
Proof.
  intros H. split; [apply noct_pos|]. split; [now apply noct_lt|].
  intros k' K L. now apply noct_le.
Qed.

Lemma least_bits_log2_up r : 2 <= r -> least_bits (r - 1) (Z.to_nat (Z.log2_up r)).
Proof.
  intros H. assert (0 < Z.log2_up r) by (apply Z.log2_up_pos; lia). split.
  - rewrite Z2Nat.id by lia. pose proof (Z.log2_up_spec r ltac:(lia)). lia.
  - intros w L. apply Nat2Z.inj_le. rewrite Z2Nat.id by lia. apply Z.log2_up_le_pow2; lia.
Qed.

Lemma cwn_field_layout lb ub n : lb <= n <= ub -> ub - lb + 1 <= 65536 ->
  cwn_layout lb ub n (on_wire [cwn_field n lb ub]).
Proof.
  intros H R. unfold cwn_field, on_wire. cbn [filter].
  destruct (Z.eqb_spec (ub - lb + 1) 1) as [E|E]; [cbn; now constructor|].
  destruct (Z.leb_spec (ub - lb + 1) 255) as [E2|E2].
  - destruct (log2_up_width (ub - lb + 1) (n - lb) ltac:(lia) ltac:(lia)) as (W & B).
    set (w := Z.to_nat (Z.log2_up (ub - lb + 1))) in *.
    assert (Hn : isnil (to_bits w (n - lb)) = false) by (destruct w; [lia|reflexivity]).
    cbn [falign fbits orb]. rewrite Hn. cbn [negb].
    apply (cwn_bits lb ub n _ w); [lia| |now apply unsigned_to_bits].
    replace (ub - lb) with (ub - lb + 1 - 1) by lia. apply least_bits_log2_up. lia.
  - destruct (Z.eqb_spec (ub - lb + 1) 256) as [E3|E3]; cbn [falign orb].
    + apply cwn_octet; auto. apply unsigned_to_bits. change (2 ^ Z.of_nat 8) with 256. lia.
    + destruct (Z.leb_spec (ub - lb + 1) 65536); [|lia]. cbn [falign orb].
      apply cwn_two; [lia|]. apply unsigned_to_bits. change (2 ^ Z.of_nat 16) with 65536. lia.
Qed.

Lemma on_wire_app a b : on_wire (a ++ b) = on_wire a ++ on_wire b.
Proof. apply filter_app. Qed.

Lemma on_wire_idem a : on_wire (on_wire a) = on_wire a.
Proof.
  induction a as [|f a IH]; [reflexivity|]. unfold on_wire in *. cbn [filter].
  destruct (falign f || negb (isnil (fbits f))) eqn:E; [|exact IH]. cbn [filter]. rewrite E. congruence.
Qed.

Lemma noct_3 z : 65536 <= z -> Nat.max 3 (noct z) = noct z.
Proof.
  intros H. assert (~ (noct z <= 2)%nat); [|lia]. rewrite (noct_le z 2) by lia.
  change (2 ^ Z.of_nat (8 * 2)) with 65536. lia.
Qed.

Lemma cwn_fields_layout lb ub n : lb <= n <= ub ->
  cwn_layout lb ub n (on_wire (cwn_fields n lb ub)).
Proof.
  intros H. unfold cwn_fields. destruct (Z.leb_spec (ub - lb + 1) 65536) as [R|R].
  - now apply cwn_field_layout.
  - rewrite noct_3 by lia. set (m := noct (ub - lb)). set (k := noct (n - lb)).
    change [?a; F true ?s] with ([a] ++ [F true s]). rewrite on_wire_app.
    change (on_wire [F true ?s]) with [F true s].
    apply (cwn_long lb ub n _ _ m k); auto.
    + apply least_octets_noct. lia.
    + apply least_octets_noct. lia.
    + apply unsigned_to_bits. split; [lia|]. apply noct_lt. lia.
    + intros M. rewrite on_wire_idem. apply cwn_field_layout; [|lia].
      pose proof (noct_pos (n - lb)). pose proof (noct_mono (n - lb) (ub - lb) ltac:(lia)). subst k m. lia.
Qed.

Theorem C14_constrained_layout : forall lb ub n, lb <= n <= ub ->
  exists fs, enc (TInt (CRange false (Some lb) (Some ub))) (VInt n) = Ok fs /\
             cwn_layout lb ub n (on_wire fs).
Proof.
  intros lb ub n H. exists (cwn_fields n lb ub). split; [|now apply cwn_fields_layout].
  cbn [enc]. unfold encode_integer. cbn [cext clo chi]. now apply cwn_fields_ok.
Qed.

(** The layout leaves no freedom: it fixes the fields, so it fixes the bits. *)
Lemma unsigned_fun s s' w n : unsigned s w n -> unsigned s' w n -> s = s'.
Proof. intros (A & B) (A' & B'). apply bval_inj; congruence. Qed.

Lemma least_octets_fun n k k' : least_octets n k -> least_octets n k' -> k = k'.
Proof. intros (A & B & C) (A' & B' & C'). apply Nat.le_antisymm; auto. Qed.

Lemma least_bits_fun n k k' : least_bits n k -> least_bits n k' -> k = k'.
Proof. intros (B & C) (B' & C'). apply Nat.le_antisymm; auto. Qed.

Theorem C14_unique : forall lb ub n fs fs',
  ub - lb < 65536 -> cwn_layout lb ub n fs -> cwn_layout lb ub n fs' -> fs = fs'.
Proof.
  intros lb ub n fs fs' R H H'. destruct H; destruct H'; try lia; auto.
  - match goal with A : least_bits _ ?w, B : least_bits _ ?w' |- _ =>
      pose proof (least_bits_fun _ _ _ A B); subst end.
    do 2 f_equal. eapply unsigned_fun; eauto.
  - do 2 f_equal. eapply unsigned_fun; eauto.
  - do 2 f_equal. eapply unsigned_fun; eauto.
Qed.

(** The same layout, after a zero bit, for a root value of an extensible type;
    and for the numbers of ENUMERATED items and CHOICE alternatives. *)
Theorem C14_extensible_root : forall lb ub n, lb <= n <= ub ->
  exists fs, enc (TInt (CRange true (Some lb) (Some ub))) (VInt n) = Ok (F false [false] :: fs) /\
             cwn_layout lb ub n (on_wire fs).
Proof.
  intros lb ub n H. exists (cwn_fields n lb ub). split; [|now apply cwn_fields_layout].
  cbn [enc]. unfold encode_integer. cbn [cext clo chi]. unfold chain_le. cbn [need bind].
  replace (lb <=? n) with true by lia. replace (n <=? ub) with true by lia. cbn [need bind].
  now rewrite cwn_fields_ok.
Qed.

Theorem C14_enumerated : forall root z, numbered root [] -> In z root ->
  exists fs, enc (TEnum false root []) (VEnum z) = Ok fs /\
             cwn_layout 0 (zlen root - 1) z (on_wire fs).
Proof.
  intros root z N H. destruct (numbered_in root [] z N ltac:(now rewrite app_nil_r)) as (Hz & _).
  rewrite app_nil_r in Hz. exists (cwn_fields z 0 (zlen root - 1)). split.
  - cbn [enc]. unfold encode_enumerated. cbn [negb]. rewrite app_nil_r. apply cwn_fields_ok. lia.
  - apply cwn_fields_layout. lia.
Qed.

Example C14_case_bits :
  enc (TInt (CRange false (Some 10) (Some 20))) (VInt 13) = Ok [F false [false; false; true; true]].
Proof. reflexivity. Qed.

Example C14_case_long :
  encode (TInt (CRange false (Some 1) (Some 100000))) (VInt 257) = Ok [64; 1; 0].
Proof. reflexivity. Qed.

(** * C17 *)

Lemma len_layout_ok n : 0 <= n < 16384 -> len_layout n [len_field n].
Proof.
  intros H. unfold len_field. destruct (Z.leb_spec n 127) as [L|L].
  - change 8%nat with (S 7). rewrite to_bits_S by (change (2 ^ Z.of_nat 7) with 128; lia).
    apply len_short; auto. apply unsigned_to_bits. change (2 ^ Z.of_nat 7) with 128. lia.
  - apply len_long; [lia|]. apply unsigned_to_bits. change (2 ^ Z.of_nat 14) with 16384. lia.
Qed.

Lemma len_layout_fun n fs : len_layout n fs -> 0 <= n < 16384 /\ fs = [len_field n].
Proof.
  intros H. assert (R : 0 <= n < 16384).
  { destruct H as [s L (A & B)|s L _]; [|lia]. pose proof (bval_range s). lia. }
  split; [exact R|]. pose proof (len_layout_ok n R) as G. unfold len_field in *.
  generalize dependent (to_bits 8 n). generalize dependent (to_bits 14 n). intros t14 t8 G.
  destruct H as [s L U|s L U]; destruct (Z.leb_spec n 127); try lia;
    inversion G as [s' L' U' E|s' L' U' E]; try lia.
  - rewrite (unsigned_fun _ _ _ _ U U'). congruence.
  - rewrite (unsigned_fun _ _ _ _ U U'). congruence.
Qed.

(** The lengths sent by the API: an unconstrained OCTET STRING of [n] octets
    and a SEQUENCE OF with [n] elements.  Missing: n = 16384 (see below). *)
Theorem C17_octet_string_partial : forall bs,
  Forall (fun b => 0 <= b < 256) bs -> zlen bs <> 16384 ->
  (zlen bs < 16384 ->
     exists det, enc (TOcts CNone) (VOcts bs) = Ok (det ++ [F true (bytes_bits bs)]) /\
                 len_layout (zlen bs) det) /\
  (16384 < zlen bs -> exists e, encode (TOcts CNone) (VOcts bs) = Err e).
Proof.
  intros bs O Hne. rewrite bytes_bits_obits. split; intros H.
  - exists [len_field (zlen bs)]. split; [|apply len_layout_ok; unfold zlen in *; lia].
    cbn [enc]. rewrite encode_octs_eq by exact O. cbn [cext].
    unfold octs_after. cbn [chi clo opt_is some_eq truthy].
    rewrite length_unconstrained_ok by (unfold zlen in *; lia). reflexivity.
  - exists RaiseNotImplemented. rewrite encode_spec. cbn [enc]. rewrite encode_octs_eq by exact O.
    cbn [cext]. unfold octs_after. cbn [chi clo opt_is some_eq truthy]. unfold length_unconstrained.
    replace (zlen bs <=? 127) with false by lia. replace (zlen bs <=? 16384) with false by lia.
    rewrite andb_false_r. reflexivity.
Qed.

Theorem C17_sequence_of_partial : forall t vs fs, zlen vs < 16384 ->
  enc (TSeqOf (CSeqSize false (Some 0) None) t) (VSeqOf vs) = Ok fs ->
  exists det body, fs = det ++ body /\ len_layout (zlen vs) det /\ enc_list (enc t) vs = Ok body.
Proof.
  intros t vs fs L E. cbn [enc] in E. destruct (enc_list (enc t) vs) as [body|e]; [|discriminate].
  cbn [bind] in E. unfold encode_sequence_of in E. cbn [cext clo chi need bind truthy andb opt_is] in E.
  assert (0 <= zlen vs) by (unfold zlen; lia).
  replace (zlen vs <? 0) with false in E by lia. rewrite length_unconstrained_ok in E by lia.
  cbn [bind] in E. injection E as <-. exists [len_field (zlen vs)], body.
  split; [reflexivity|]. split; [now apply len_layout_ok|reflexivity].
Qed.

(** The decoder recovers the length, wherever it is and whatever follows. *)
Theorem C17_decoded : forall n det pre post p, len_layout n det ->
  pb_bits p = pre ++ render (List.length pre) det ++ post ->
  curr_octets (pb_off p) = Nat.div (List.length pre) 8 ->
  curr_bits (pb_off p) = Nat.modulo (List.length pre) 8 ->
  exists p', dec_length_unconstrained p = Ok (n, p').
Proof.
  intros n det pre post p L B O1 O2. apply len_layout_fun in L as (R & ->).
  destruct (reads_len n (List.length pre) R p pre post eq_refl) as (p' & E & _).
  - split; auto.
  - exists p'. exact E.
Qed.

(** 16384 octets are sent with a length of 17 bits, which X.691 does not know. *)
Lemma C17_sixteen_k : forall bs,
  Forall (fun b => 0 <= b < 256) bs -> zlen bs = 16384 ->
  exists det, enc (TOcts CNone) (VOcts bs) = Ok ([F true det] ++ [F true (bytes_bits bs)]) /\
    List.length det = 17%nat.
Proof.
  intros bs O L. rewrite bytes_bits_obits. exists (true :: false :: true :: repeat false 14).
  split; [|reflexivity].
  cbn [enc]. rewrite encode_octs_eq by exact O. cbn [cext].
  unfold octs_after. cbn [chi clo opt_is some_eq truthy]. rewrite L. reflexivity.
Qed.

Theorem C17_length_refuted : exists bs det,
  Forall (fun b => 0 <= b < 256) bs /\
  enc (TOcts CNone) (VOcts bs) = Ok ([F true det] ++ [F true (bytes_bits bs)]) /\
  List.length det = 17%nat /\ ~ len_layout (zlen bs) [F true det].
Proof.
  exists (repeat 65 (Z.to_nat 16384)).
  assert (O : Forall (fun b => 0 <= b < 256) (repeat 65 (Z.to_nat 16384))).
  { apply Forall_forall. intros x H. apply repeat_spec in H. subst. lia. }
  assert (L : zlen (repeat 65 (Z.to_nat 16384)) = 16384).
  { unfold zlen. rewrite repeat_length. lia. }
  destruct (C17_sixteen_k _ O L) as (det & E & K). exists det.
  split; [exact O|]. split; [exact E|]. split; [exact K|].
  intros X. apply len_layout_fun in X as (X & _). lia.
Qed.

Example C17_case :
  let bs := repeat 7 200 in
  Forall (fun b => 0 <= b < 256) bs /\
  exists r, enc (TOcts CNone) (VOcts bs) = Ok (F true (true :: false :: to_bits 14 200) :: r).
Proof.
  cbv zeta. split.
  - apply Forall_forall. intros x H. apply repeat_spec in H. subst. lia.
  - eexists. vm_compute. reflexivity.
Qed.

(** * C15 *)

Lemma signed_bval s : s <> [] -> signed s = bval s - (if hd false s then 2 ^ Z.of_nat (len s) else 0).
Proof.
  destruct s as [|b r]; [congruence|]. intros _. cbn [signed hd]. rewrite bval_cons.
  cbn [List.length]. rewrite Nat2Z.inj_succ, Z.pow_succ_r by lia. destruct b; cbn [Z.b2z]; lia.
Qed.

Lemma signed_range s : s <> [] -> - 2 ^ (Z.of_nat (len s) - 1) <= signed s < 2 ^ (Z.of_nat (len s) - 1).
Proof.
  destruct s as [|b r]; [congruence|]. intros _. cbn [signed List.length].
  replace (Z.of_nat (S (len r)) - 1) with (Z.of_nat (len r)) by lia. pose proof (bval_range r).
  destruct b; cbn [Z.b2z]; lia.
Qed.

Lemma signed_to_bits w z : (1 <= w)%nat -> - 2 ^ (Z.of_nat w - 1) <= z < 2 ^ (Z.of_nat w - 1) ->
  signed (to_bits w z) = z.
Proof.
  intros Hw H. destruct w as [|w]; [lia|]. cbn [to_bits signed]. rewrite to_bits_length.
  rewrite bval_to_bits_mod. replace (Z.of_nat (S w) - 1) with (Z.of_nat w) in H by lia.
  pose proof (pow2_pos w) as P. rewrite Z.testbit_spec' by lia.
  destruct (Z.neg_nonneg_cases z) as [N|N].
  - assert (D : z / 2 ^ Z.of_nat w = -1).
    { symmetry. apply (Z.div_unique z (2 ^ Z.of_nat w) (-1) (z + 2 ^ Z.of_nat w)); lia. }
    assert (M : z mod 2 ^ Z.of_nat w = z + 2 ^ Z.of_nat w).
    { symmetry. apply (Z.mod_unique z (2 ^ Z.of_nat w) (-1)); lia. }
    rewrite D, M. change ((-1) mod 2) with 1. lia.
  - rewrite Z.div_small, Z.mod_small by lia. change (0 mod 2) with 0. lia.
Qed.

Lemma toct_shortest z : shortest_signed (to_bits (8 * toct z) z) z.
Proof.
  pose proof (toct_pos z) as P. pose proof (proj1 (toct_le z (toct z) P) (Nat.le_refl _)) as R.
  assert (Hn : to_bits (8 * toct z) z <> []).
  { intros X. apply (f_equal (@List.length _)) in X. rewrite to_bits_length in X. change (len (@nil bool)) with 0%nat in X. lia. }
  split; [rewrite to_bits_length, Nat.mul_comm; apply Nat.mod_mul; lia|]. split; [exact Hn|]. split.
  - apply signed_to_bits; [lia|]. replace (Z.of_nat (8 * toct z) - 1) with (Z.of_nat (toct z) * 8 - 1) by lia.
    exact R.
  - intros s' M N S. rewrite to_bits_length. pose proof (signed_range s' N) as R'. rewrite S in R'.
    assert (K : (toct z <= len s' / 8)%nat).
    { apply toct_le; [destruct s'; [congruence|]; cbn [List.length] in *; lia|].
      replace (Z.of_nat (len s' / 8) * 8 - 1) with (Z.of_nat (len s') - 1) by lia. exact R'. }
    lia.
Qed.

(** Contents: for every integer. *)
Theorem C15_shortest_contents : forall z, exists det s,
  enc (TInt CNone) (VInt z) = Ok [F true (det ++ s)] /\ shortest_signed s z /\
  bval det = Z.of_nat (List.length s / 8).
Proof.
  intros z. cbn [enc]. unfold encode_integer. cbn [cext clo chi].
  unfold create_field_list_for_unconstrained_whole_number. rewrite twos_octet_ok. cbn [bind].
  pose proof (toct_pos z) as P. pose proof (proj1 (toct_le z (toct z) P) (Nat.le_refl _)) as R.
  rewrite twos_ok by auto. cbn [bind]. unfold py_format_b. rewrite py_bin_ok by lia. cbn [bind].
  eexists _, _. split; [reflexivity|]. split; [apply toct_shortest|].
  rewrite zfill_val, bval_to_bits, to_bits_length.
  - f_equal. symmetry. rewrite Nat.mul_comm. apply Nat.div_mul. lia.
  - split; [lia|]. apply bin_len_lt; [lia|apply bin_len_pos|lia].
Qed.

(** The whole layout.  Missing: 128 octets and more, where the length octet is
    not the one X.691 prescribes. *)
Theorem C15_unconstrained_partial : forall z, - 2 ^ 1015 <= z < 2 ^ 1015 ->
  exists det s, enc (TInt CNone) (VInt z) = Ok [F true (det ++ s)] /\
    shortest_signed s z /\ len_layout (Z.of_nat (List.length s / 8)) [F true det].
Proof.
  intros z H. pose proof (toct_pos z) as P.
  assert (K : Z.of_nat (toct z) <= 127).
  { pose proof (proj2 (toct_le z 127 ltac:(lia)) H). lia. }
  cbn [enc]. unfold encode_integer. cbn [cext clo chi]. rewrite unconstrained_ok by lia.
  unfold unc_field. eexists _, _. split; [reflexivity|]. split; [apply toct_shortest|].
  rewrite to_bits_length. replace (8 * toct z / 8)%nat with (toct z) by lia.
  pose proof (len_layout_ok (Z.of_nat (toct z)) ltac:(lia)) as L. unfold len_field in L.
  replace (Z.of_nat (toct z) <=? 127) with true in L by lia. exact L.
Qed.

Example C15_case : - 2 ^ 1015 <= -129 < 2 ^ 1015 /\ encode (TInt CNone) (VInt (-129)) = Ok [2; 255; 127].
Proof. split; [split; reflexivity || discriminate|reflexivity]. Qed.

(** 2^1016 needs 128 octets; its length is sent as one octet 10000000. *)
Theorem C15_length_refuted : exists z det s,
  enc (TInt CNone) (VInt z) = Ok [F true (det ++ s)] /\ List.length s = (8 * 128)%nat /\
  ~ len_layout 128 [F true det].
Proof.
  exists (2 ^ 1016), (to_bits 8 128), (to_bits (8 * 128) (2 ^ 1016)).
  split; [vm_compute; reflexivity|]. split; [apply to_bits_length|].
  intros L. apply len_layout_fun in L as (_ & E). vm_compute in E. discriminate.
Qed.

(** * C16 *)

(** Missing: differences of 16384 octets and more. *)
Theorem C16_semi_constrained_partial : forall lb n, lb <= n -> n - lb < 2 ^ (8 * 16383) ->
  exists det s k, enc (TInt (CRange false (Some lb) None)) (VInt n) = Ok (det ++ [F true s]) /\
    least_octets (n - lb) k /\ unsigned s (8 * k) (n - lb) /\ len_layout (Z.of_nat k) det.
Proof.
  intros lb n H B.
  assert (U : ufits 16383 (n - lb)) by (split; [clear B; lia|exact B]).
  clear B. apply noct_ufits in U; [|clear U; lia..].
  exists [len_field (Z.of_nat (noct (n - lb)))], (to_bits (8 * noct (n - lb)) (n - lb)), (noct (n - lb)).
  pose proof (noct_pos (n - lb)). split; [|split; [|split]].
  - cbn [enc]. unfold encode_integer. cbn [cext clo chi].
    unfold encode_semi_constrained_whole_number. rewrite min_octets_ok by lia. cbn [bind fbits].
    rewrite octets_of_to_bits, length_unconstrained_ok by lia. reflexivity.
  - apply least_octets_noct. lia.
  - apply unsigned_to_bits. split; [lia|]. apply noct_lt. lia.
  - apply len_layout_ok. lia.
Qed.

Example C16_case :
  256 - (-1) < 2 ^ (8 * 16383) /\
  encode (TInt (CRange false (Some (-1)) None)) (VInt 256) = Ok [2; 1; 1].
Proof.
  split; [|reflexivity]. apply (Z.lt_le_trans _ (2 ^ 18)); [reflexivity|].
  apply Z.pow_le_mono_r; [reflexivity|discriminate].
Qed.

(** A difference of exactly 16384 octets gets a malformed length of 17 bits. *)
Lemma C16_sixteen_k : forall n, noct n = Z.to_nat 16384 -> 0 <= n ->
  exists det s, enc (TInt (CRange false (Some 0) None)) (VInt n) = Ok ([F true det] ++ [F true s]) /\
    List.length det = 17%nat.
Proof.
  intros n K H. exists (true :: false :: true :: repeat false 14), (to_bits (8 * noct n) n).
  split; [|reflexivity]. cbn [enc]. unfold encode_integer. cbn [cext clo chi].
  unfold encode_semi_constrained_whole_number. rewrite Z.sub_0_r, min_octets_ok by auto. cbn [bind fbits].
  rewrite octets_of_to_bits. rewrite K at 1. rewrite Z2Nat.id by lia. reflexivity.
Qed.

Lemma noct_pow k : (1 <= k)%nat -> noct (2 ^ Z.of_nat (8 * k)) = S k.
Proof.
  intros K. pose proof (pow2_pos (8 * k)) as P. apply Nat.le_antisymm.
  - apply noct_le; [lia|lia|]. apply Z.pow_lt_mono_r; lia.
  - apply Nat.nlt_ge. intros L. assert (N : (noct (2 ^ Z.of_nat (8 * k)) <= k)%nat) by lia.
    apply noct_le in N; [|lia|lia]. lia.
Qed.

Theorem C16_length_refuted : exists n det s, 0 <= n /\
  enc (TInt (CRange false (Some 0) None)) (VInt n) = Ok ([F true det] ++ [F true s]) /\
  List.length det = 17%nat.
Proof.
  assert (K : exists n, noct n = Z.to_nat 16384 /\ 0 <= n).
  { exists (2 ^ Z.of_nat (8 * Z.to_nat 16383)). split; [|apply Z.lt_le_incl, pow2_pos].
    rewrite noct_pow by lia. lia. }
  destruct K as (n & K & P). exists n. destruct (C16_sixteen_k n K P) as (det & s & E & L).
  exists det, s. split; [exact P|]. split; [exact E|exact L].
Qed.
