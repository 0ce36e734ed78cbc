(** Bits written at a position, and what a decoding step reads there. *)
From Coq Require Import ZArith List String Bool Lia Arith.
From Coq Require Import ZifyBool ZifyNat ZifyN.
Import ListNotations.
From Verif Require Import PyBase Schema Encoder Decoder BitFacts.
Open Scope Z_scope.

Ltac Zify.zify_post_hook ::= Z.div_mod_to_equations.

Notation len := (@List.length _).

(** Number of padding bits from bit [pos] to the next octet boundary. *)
Definition padn (pos : nat) : nat := Nat.modulo (8 - Nat.modulo pos 8) 8.
Definition padding (pos : nat) : bits := repeat false (padn pos).
Definition up8 (pos : nat) : nat := (pos + padn pos)%nat.

(** The bits of one field written at bit [pos] of the message, and of a list. *)
Definition fpos (al : bool) (pos : nat) : nat := if al then up8 pos else pos.
Definition fpad (al : bool) (pos : nat) : bits := if al then padding pos else [].

Fixpoint render (pos : nat) (fs : list field) : bits :=
  match fs with
  | [] => []
  | f :: r =>
      fpad (falign f) pos ++ fbits f ++ render (fpos (falign f) pos + len (fbits f)) r
  end.

Lemma padn_lt pos : (padn pos < 8)%nat.
Proof. unfold padn. lia. Qed.

Lemma padn_0 pos : Nat.modulo pos 8 = 0%nat -> padn pos = 0%nat.
Proof. unfold padn. lia. Qed.

Lemma up8_mod pos : Nat.modulo (up8 pos) 8 = 0%nat.
Proof. unfold up8, padn. lia. Qed.

Lemma up8_id pos : Nat.modulo pos 8 = 0%nat -> up8 pos = pos.
Proof. intros. unfold up8. rewrite padn_0; lia. Qed.

Lemma padn_up8 pos : padn (up8 pos) = 0%nat.
Proof. apply padn_0, up8_mod. Qed.

Lemma up8_up8 pos : up8 (up8 pos) = up8 pos.
Proof. apply up8_id, up8_mod. Qed.

Lemma padding_length pos : len (padding pos) = padn pos.
Proof. apply repeat_length. Qed.

Lemma fpad_length al pos : len (fpad al pos) = (fpos al pos - pos)%nat.
Proof. destruct al; cbn [fpad fpos]; [rewrite padding_length; unfold up8; lia|cbn; lia]. Qed.

Lemma fpos_ge al pos : (pos <= fpos al pos)%nat.
Proof. destruct al; cbn; unfold up8; lia. Qed.

Lemma add_field_render acc f : add_field acc f = acc ++ fpad (falign f) (len acc) ++ fbits f.
Proof.
  unfold add_field. destruct (falign f); cbn [fpad]; auto.
  unfold padding, padn, pad_to_octet. destruct (Nat.eqb_spec (Nat.modulo (len acc) 8) 0) as [E|E].
  - rewrite E. cbn [Nat.sub]. change (8 mod 8)%nat with 0%nat. reflexivity.
  - rewrite <- app_assoc. do 3 f_equal. lia.
Qed.

Lemma fold_render fs acc : fold_left add_field fs acc = acc ++ render (len acc) fs.
Proof.
  revert acc. induction fs as [|f fs IH]; intros acc; cbn [fold_left render].
  - now rewrite app_nil_r.
  - rewrite IH, add_field_render, !app_length, fpad_length. rewrite <- !app_assoc. do 4 f_equal.
    pose proof (fpos_ge (falign f) (len acc)). lia.
Qed.

Lemma render_app pos a b : render pos (a ++ b) = render pos a ++ render (pos + len (render pos a)) b.
Proof.
  revert pos. induction a as [|f a IH]; intros pos; cbn [render app].
  - f_equal. cbn. lia.
  - rewrite IH, <- !app_assoc. do 4 f_equal. rewrite !app_length, fpad_length.
    pose proof (fpos_ge (falign f) pos). lia.
Qed.

Lemma render_cons pos f r :
  render pos (f :: r) = (fpad (falign f) pos ++ fbits f) ++
    render (pos + len (fpad (falign f) pos ++ fbits f)) r.
Proof.
  cbn [render]. rewrite <- app_assoc. do 3 f_equal. rewrite app_length, fpad_length.
  pose proof (fpos_ge (falign f) pos). lia.
Qed.

(** A list of fields whose first field is aligned can be written from the next
    octet boundary. *)
Lemma render_aligned pos f r : falign f = true ->
  render pos (f :: r) = padding pos ++ render (up8 pos) (f :: r).
Proof.
  intros E. cbn [render]. rewrite E. cbn [fpad fpos]. unfold padding.
  rewrite padn_up8, up8_up8. reflexivity.
Qed.

(** The complete encoding: whole octets, at least one. *)
Lemma produce_spec fs : exists k,
  produce_complete_encoding fs = render 0 fs ++ repeat false k /\
  (k = padn (len (render 0 fs)) \/ (render 0 fs = [] /\ k = 8%nat)).
Proof.
  unfold produce_complete_encoding. rewrite fold_render. cbn [app List.length].
  set (s := render 0 fs). destruct s as [|b s'] eqn:E; cbn [List.length].
  - exists 8%nat. cbn. auto.
  - cbn [Nat.eqb]. rewrite orb_false_r. set (n := S (len s')).
    destruct (Nat.eqb_spec (Nat.modulo n 8) 0) as [H|H]; cbn [negb].
    + exists 0%nat. cbn [repeat]. rewrite app_nil_r. split; auto. left. symmetry. apply padn_0. auto.
    + exists (padn n). unfold pad_to_octet, padn. split; [|auto]. f_equal. f_equal. lia.
Qed.

Lemma produce_mod8 fs : Nat.modulo (len (produce_complete_encoding fs)) 8 = 0%nat.
Proof.
  destruct (produce_spec fs) as (k & E & [H|[H H']]); rewrite E, app_length, repeat_length.
  - subst k. apply (up8_mod (len (render 0 fs))).
  - rewrite H, H'. reflexivity.
Qed.

Lemma produce_nonempty fs : produce_complete_encoding fs <> [].
Proof.
  destruct (produce_spec fs) as (k & E & [H|[H H']]); rewrite E.
  - destruct (render 0 fs) eqn:R; [|discriminate].
    unfold produce_complete_encoding in E. rewrite fold_render in E. cbn [app List.length] in E.
    rewrite R in E. cbn in E. subst k. discriminate.
  - rewrite H, H'. discriminate.
Qed.

(** From complete bits to octets. *)
Lemma bin_to_hex_ok s : s <> [] -> Nat.modulo (len s) 8 = 0%nat ->
  bin_to_hex s = Ok (hexlify (octs_of s)).
Proof.
  intros Hn Hm. unfold bin_to_hex. rewrite py_int2_ok by auto. cbn [bind].
  rewrite <- (octs_of_obits s) at 1 by auto.
  apply py_hex_zfill; auto using octs_of_octet.
  - intros E. apply (f_equal (@List.length _)) in E. rewrite octs_of_length in E.
    destruct s; [congruence|]. cbn [List.length] in *. lia.
  - rewrite octs_of_length. lia.
Qed.

Lemma encode_spec t v : encode t v =
  match enc t v with Ok fs => Ok (octs_of (produce_complete_encoding fs)) | Err e => Err e end.
Proof.
  unfold encode. destruct (enc t v) as [fs|e]; cbn [bind]; auto.
  rewrite bin_to_hex_ok by auto using produce_nonempty, produce_mod8.
  cbn [bind]. apply unhexlify_hexlify.
Qed.

Lemma encode_inv t v bs : encode t v = Ok bs ->
  exists fs, enc t v = Ok fs /\ bs = octs_of (produce_complete_encoding fs) /\
             obits bs = produce_complete_encoding fs /\ Forall octet bs /\ bs <> [].
Proof.
  rewrite encode_spec. destruct (enc t v) as [fs|e]; [|discriminate]. intros [= <-].
  exists fs. repeat split; auto using octs_of_octet.
  - apply octs_of_obits, produce_mod8.
  - intros E. pose proof (octs_of_obits _ (produce_mod8 fs)) as H. rewrite E in H.
    cbn in H. symmetry in H. now apply produce_nonempty in H.
Qed.

(** ** Positions in a PerBytes object *)

Definition at_ (p : perbytes) (s : bits) (pos : nat) : Prop :=
  pb_bits p = s /\ curr_octets (pb_off p) = Nat.div pos 8 /\ curr_bits (pb_off p) = Nat.modulo pos 8.

Lemma per_init_ok bs : Forall octet bs -> bs <> [] ->
  exists p, per_init (hexlify bs) = Ok p /\ at_ p (obits bs) 0.
Proof.
  intros H Hn. destruct (hexlify_spec bs H) as (A & B & C). unfold per_init, py_int16.
  destruct (hexlify bs) as [|d h] eqn:E; [destruct bs; [congruence|discriminate]|].
  cbn [bind]. rewrite C, py_bin_ok by apply bval_range. cbn [bind]. eexists; split; [reflexivity|].
  repeat split. cbn [pb_bits]. rewrite B.
  assert (1 <= len bs)%nat by (destruct bs; [congruence|cbn; lia]).
  replace (2 * len bs * 4)%nat with (len (obits bs)) by (rewrite obits_length; lia).
  rewrite zfill_to_bits; [apply to_bits_bval| rewrite obits_length; lia | apply bval_range].
Qed.

Definition slice (s : bits) (pos n : nat) : bits := firstn n (skipn pos s).

Lemma off_align_spec p s pos : at_ p s pos ->
  at_ (PB (pb_bits p) (off_align (pb_off p))) s (up8 pos).
Proof.
  intros (A & B & C). unfold off_align, at_, up8, padn. cbn [pb_bits pb_off].
  rewrite !B, !C. destruct (Nat.ltb_spec 0 (Nat.modulo pos 8)).
  - destruct (Nat.eqb_spec ((1 + Nat.div (Nat.modulo pos 8) 8) * 8 - Nat.modulo pos 8) 0); [lia|].
    cbn [curr_octets curr_bits].
    destruct (Nat.eqb_spec (Nat.modulo (Nat.modulo pos 8) 8) 0); repeat split; auto; lia.
  - rewrite Nat.eqb_refl. repeat split; auto; lia.
Qed.

(** [per_next] reads the bits at the (aligned) position; what remains of them
    when the input is short; and the error when none remain. *)
Lemma per_next_spec p s pos sz al : at_ p s pos ->
  let w := (8 * fst sz + snd sz)%nat in
  let pos1 := fpos al pos in
  let got := if Nat.eqb w 0 then [false] else slice s pos1 w in
  match got with
  | [] => per_next sz al p = Err PyValueError
  | _ => exists p', per_next sz al p = Ok (bval got, p') /\ at_ p' s (pos1 + w)
  end.
Proof.
  intros H w pos1 got. unfold per_next.
  set (o1 := if al then off_align (pb_off p) else pb_off p).
  assert (H1 : at_ (PB (pb_bits p) o1) s pos1).
  { subst o1 pos1. destruct al; cbn [fpos]; [now apply off_align_spec|].
    destruct p; exact H. }
  destruct H1 as (A & B & C). cbn [pb_bits pb_off] in *.
  assert (P : prev_octets (off_add o1 sz) = curr_octets o1 /\ prev_bits (off_add o1 sz) = curr_bits o1).
  { unfold off_add. destruct (Nat.leb _ _); auto. }
  destruct P as (P1 & P2).
  assert (Q : curr_octets (off_add o1 sz) = Nat.div (pos1 + w) 8 /\
              curr_bits (off_add o1 sz) = Nat.modulo (pos1 + w) 8).
  { unfold off_add. rewrite B, C. subst w.
    destruct (Nat.leb_spec 8 (Nat.modulo pos1 8 + snd sz)); cbn [curr_octets curr_bits]; lia. }
  destruct Q as (Q1 & Q2).
  rewrite P1, P2, Q1, Q2, B, C.
  replace (Nat.div pos1 8 * 8 + Nat.modulo pos1 8)%nat with pos1 by lia.
  replace (Nat.div (pos1 + w) 8 * 8 + Nat.modulo (pos1 + w) 8)%nat with (pos1 + w)%nat by lia.
  assert (G : per_slice (pb_bits p) pos1 (pos1 + w) = got).
  { unfold per_slice, got, slice. rewrite A.
    destruct (Nat.eqb_spec w 0), (Nat.eqb_spec pos1 (pos1 + w)); try lia; auto.
    f_equal. lia. }
  rewrite G. destruct got eqn:E; cbn [py_int2]; auto.
  eexists; split; [reflexivity|]. repeat split; auto.
Qed.

(** ** Reading a known piece of input *)

Definition reads {A} (d : D A) (pos : nat) (w : bits) (a : A) : Prop :=
  forall p pre rest, len pre = pos -> at_ p (pre ++ w ++ rest) pos ->
  exists p', d p = Ok (a, p') /\ at_ p' (pre ++ w ++ rest) (pos + len w).

Lemma reads_ret {A} (a : A) pos : reads (ret a) pos [] a.
Proof. intros p pre rest H Hp. exists p. split; auto. cbn [List.length]. now rewrite Nat.add_0_r. Qed.

Lemma reads_bind {A B} (d : D A) (k : A -> D B) pos w1 w2 a b :
  reads d pos w1 a -> reads (k a) (pos + len w1) w2 b -> reads (dbind d k) pos (w1 ++ w2) b.
Proof.
  intros H1 H2 p pre rest HL Hp. rewrite <- app_assoc in Hp.
  destruct (H1 p pre (w2 ++ rest) HL Hp) as (p1 & E1 & A1).
  specialize (H2 p1 (pre ++ w1) rest). rewrite <- app_assoc in H2.
  destruct H2 as (p2 & E2 & A2); auto.
  { rewrite app_length. lia. }
  exists p2. unfold dbind. rewrite E1. split; auto.
  rewrite app_length, <- app_assoc. now rewrite Nat.add_assoc.
Qed.

Lemma reads_bind0 {A B} (d : D A) (k : A -> D B) pos w a b :
  reads d pos [] a -> reads (k a) pos w b -> reads (dbind d k) pos w b.
Proof.
  intros H1 H2. change w with ([] ++ w). eapply reads_bind; eauto.
  cbn [List.length]. now rewrite Nat.add_0_r.
Qed.

Lemma reads_bind_r {A B} (d : D A) (k : A -> D B) pos w a b :
  reads d pos w a -> reads (k a) (pos + len w) [] b -> reads (dbind d k) pos w b.
Proof. intros H1 H2. rewrite <- (app_nil_r w). eapply reads_bind; eauto. Qed.

Lemma reads_lift {A} (r : res A) a pos : r = Ok a -> reads (lift r) pos [] a.
Proof.
  intros -> p pre rest H Hp. exists p. split; auto. cbn [List.length]. now rewrite Nat.add_0_r.
Qed.

Lemma slice_mid pre w rest : slice (pre ++ w ++ rest) (len pre) (len w) = w.
Proof.
  unfold slice. rewrite skipn_app, skipn_all, Nat.sub_diag. cbn [app skipn].
  rewrite firstn_app, firstn_all, Nat.sub_diag. cbn [firstn]. apply app_nil_r.
Qed.

Lemma reads_next sz al pos pad w : (1 <= len w)%nat ->
  len w = (8 * fst sz + snd sz)%nat -> len pad = (fpos al pos - pos)%nat ->
  reads (per_next sz al) pos (pad ++ w) (bval w).
Proof.
  intros Hw Hsz Hpad p pre rest HL Hp.
  pose proof (per_next_spec p _ pos sz al Hp) as N. cbv zeta in N. rewrite <- Hsz in N.
  destruct (Nat.eqb_spec (len w) 0); [lia|].
  assert (E : slice (pre ++ (pad ++ w) ++ rest) (fpos al pos) (len w) = w).
  { rewrite <- app_assoc, app_assoc.
    replace (fpos al pos) with (len (pre ++ pad)).
    - apply slice_mid.
    - rewrite app_length. pose proof (fpos_ge al pos). lia. }
  rewrite E in N. destruct w as [|b w]; [cbn in *; lia|].
  destruct N as (p' & N1 & N2). exists p'. split; auto.
  rewrite app_length. pose proof (fpos_ge al pos).
  replace (pos + (len pad + len (b :: w)))%nat with (fpos al pos + len (b :: w))%nat by lia. auto.
Qed.

Lemma reads_next0 al pos pad : len pad = (fpos al pos - pos)%nat ->
  reads (per_next (0, 0)%nat al) pos pad 0.
Proof.
  intros Hpad p pre rest HL Hp.
  pose proof (per_next_spec p _ pos (0,0)%nat al Hp) as N. cbn in N.
  destruct N as (p' & N1 & N2). exists p'. split; auto.
  pose proof (fpos_ge al pos).
  replace (pos + len pad)%nat with (fpos al pos + 0)%nat by lia. auto.
Qed.

Lemma reads_align pos : reads align pos (padding pos) 0.
Proof. apply reads_next0. rewrite padding_length. cbn [fpos]. unfold up8. lia. Qed.

Lemma reads_align0 pos : Nat.modulo pos 8 = 0%nat -> reads align pos [] 0.
Proof. intros H. apply reads_next0. cbn [fpos List.length]. rewrite up8_id by auto. lia. Qed.

Lemma reads_next_bits n pos w : len w = n -> (1 <= n)%nat -> reads (next_bits n) pos w (bval w).
Proof.
  intros H Hn. change w with ([] ++ w) at 1. apply reads_next; cbn [fst snd fpos List.length]; lia.
Qed.

Lemma reads_next_octets n pos w : len w = (8 * n)%nat -> (1 <= n)%nat ->
  reads (next_octets n) pos w (bval w).
Proof.
  intros H Hn. change w with ([] ++ w) at 1. apply reads_next; cbn [fst snd fpos List.length]; lia.
Qed.

(** The same decoding step, whatever follows the piece it reads. *)
Lemma reads_ext {A} (d d' : D A) pos w a : (forall p, d p = d' p) -> reads d pos w a -> reads d' pos w a.
Proof. intros E H p pre rest HL Hp. rewrite <- E. auto. Qed.
