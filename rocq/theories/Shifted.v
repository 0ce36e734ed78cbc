(** What a message is read as when its OCTET STRINGs start with zero digits.

    C71 tells which messages with OCTET STRINGs of a variable size come back
    unchanged.  Here it is told what the others come back as: decoder.py 283-296
    takes the digits of the whole string as one number, so leading zero digits are
    dropped and the last digit is filled up on the right. *)
From Coq Require Import ZArith List String Bool Lia Arith.
From Coq Require Import ZifyBool ZifyNat ZifyN.
Import ListNotations.
From Verif Require Import PyBase Schema Encoder Decoder BitFacts Stream Prims Spec SimpleTypes RoundTrip Reading
  Totality PropsRoundTrip Objects Constraints Valid Exact Faults Extent X691 Conform Safe Standard Peers Mild.
Open Scope Z_scope.
Ltac Zify.zify_post_hook ::= Z.div_mod_to_equations.

(** * The string that arrives *)

(** The hexadecimal digits of a string, two for every octet. *)
Fixpoint digits_of (bs : list Z) : list Z :=
  match bs with
  | [] => []
  | b :: r => b / 16 :: b mod 16 :: digits_of r
  end.

Fixpoint no_zeros (ds : list Z) : list Z :=
  match ds with
  | d :: r => if d =? 0 then no_zeros r else ds
  | [] => []
  end.

(** Digits back to octets; a last single digit becomes the high one. *)
Fixpoint octets_from (ds : list Z) : list Z :=
  match ds with
  | [] => []
  | [d] => [16 * d]
  | d :: e :: r => 16 * d + e :: octets_from r
  end.

Definition shifted (bs : list Z) : list Z :=
  match no_zeros (digits_of bs) with [] => [0] | ds => octets_from ds end.

(** Only the OCTET STRINGs of a variable size, within that size, are shifted. *)
Definition arrives (c : constr) (bs : list Z) : list Z :=
  if cext c && negb (inside c (zlen bs)) then bs
  else
    match clo c, chi c, bs with
    | Some l, Some h, _ :: _ => if l <? h then shifted bs else bs
    | _, _, _ => bs
    end.

(** [octs_ok] of Spec.v without its condition on the digits: the shifted string
    only has to satisfy the size constraint. *)
Definition octs_read (c : constr) (bs : list Z) : Prop :=
  let n := zlen bs in
  Forall (fun b => 0 <= b < 256) bs /\ ctest c n = true /\
  if cext c && negb (inside c n) then n < 16384
  else
    match clo c, chi c with
    | _, Some 0 => cext c = false /\ bs = []
    | Some l, Some h =>
        0 <= l <= n /\ n <= h /\
        (l < h -> h - l < 65536 /\
                  match bs with
                  | [] => 256 <= h - l + 1
                  | _ => ctest c (zlen (shifted bs)) = true
                  end)
    | None, Some _ => False
    | _, None => 1 <= n < 16384
    end.

(** * Digits *)

Lemma digits_hexlify bs : digits_of bs = hexlify bs.
Proof. induction bs; cbn [digits_of hexlify]; congruence. Qed.

Lemma octets_from_hex ds : octets_from ds = from_hex_string ds.
Proof. reflexivity. Qed.

Lemma no_zeros_spec ds : Forall hexdigit ds ->
  Forall hexdigit (no_zeros ds) /\ hval (no_zeros ds) = hval ds /\
  match no_zeros ds with [] => True | d :: _ => d <> 0 end.
Proof.
  induction 1 as [|d ds Hd Hs IH]; [repeat split; constructor|]. cbn [no_zeros].
  destruct (Z.eqb_spec d 0) as [->|N].
  - destruct IH as (A & V & F). split; [exact A|]. split; [|exact F].
    rewrite V, hval_cons. lia.
  - split; [now constructor|]. split; [reflexivity|exact N].
Qed.

(** [hex(v)[2:]] of the number a string stands for. *)
Lemma py_hex_digits bs : Forall octet bs -> bs <> [] ->
  py_hex (bval (obits bs)) = Ok (match no_zeros (digits_of bs) with [] => [0] | ds => ds end).
Proof.
  intros Ho Hn. rewrite digits_hexlify. destruct (hexlify_spec bs Ho) as (A & _ & V).
  destruct (no_zeros_spec _ A) as (A' & V' & F). rewrite V in V'. clear V. set (v := bval (obits bs)) in *. clearbody v.
  destruct (no_zeros (hexlify bs)) as [|d ds].
  - change (hval []) with 0 in V'. subst v. reflexivity.
  - assert (Nv : 0 <= v) by (rewrite <- V'; apply hval_range; exact A').
    destruct (py_hex_spec v Nv) as (h & E & Hh & HV & H1 & HL). rewrite E. f_equal.
    apply hval_inj; auto; [|congruence]. apply Nat.le_antisymm.
    + apply HL; [cbn [List.length]; lia|]. rewrite <- V'. apply hval_range. exact A'.
    + destruct (Nat.le_gt_cases (len (d :: ds)) (len h)) as [|L]; auto. exfalso.
      pose proof (hval_range h Hh) as (_ & Rh). rewrite HV, <- V', hval_cons in Rh.
      inversion A' as [|? ? Hd Hds]; subst. pose proof (hval_range ds Hds) as (P & _). unfold hexdigit in Hd.
      assert (16 ^ Z.of_nat (len h) <= 16 ^ Z.of_nat (len ds)).
      { apply Z.pow_le_mono_r; [lia|]. cbn [List.length] in L. lia. }
      pose proof (pow16_pos (len ds)). nia.
Qed.

Lemma py_hex_shifted bs : Forall octet bs -> bs <> [] ->
  exists h, py_hex (bval (obits bs)) = Ok h /\ from_hex_string h = shifted bs.
Proof.
  intros Ho Hn. eexists. split; [now apply py_hex_digits|]. unfold shifted.
  destruct (no_zeros (digits_of bs)); reflexivity.
Qed.

(** Strings whose digits are kept are not shifted, and only those. *)
Lemma shifted_kept bs : Forall octet bs -> bs <> [] -> digits_kept bs -> shifted bs = bs.
Proof.
  intros Ho Hn K. unfold shifted. destruct bs as [|b bs]; [congruence|]. inversion Ho; subst. unfold octet in *.
  cbn [digits_of no_zeros]. destruct (Z.eqb_spec (b / 16) 0) as [E0|N0].
  - destruct bs as [|b2 bs]; cbn [digits_kept] in K; [|lia]. assert (b = 0) as -> by lia. reflexivity.
  - cbn [octets_from]. rewrite octets_from_hex, digits_hexlify, from_hex_string_hexlify. f_equal. lia.
Qed.

(** * One OCTET STRING *)

Lemma octs_after_shift c bs fs l h : Forall octet bs -> bs <> [] ->
  clo c = Some l -> chi c = Some h -> 0 <= l <= zlen bs -> zlen bs <= h -> l < h -> h - l < 65536 ->
  octs_after c bs = Ok fs -> exists o, fs = Some o /\
  (ctest c (zlen (shifted bs)) = true ->
   forall pos, reads (dec_octs_after c) pos (render pos o) (DVal (VOcts (shifted bs)))).
Proof.
  intros Ho Hn L C Hl Hh Hlh Hr E. unfold octs_after, dec_octs_after in *. cbv zeta in E. rewrite L, C in *.
  assert (Z0 : opt_is (Some h) 0 = false) by (cbn; lia). rewrite Z0 in *. cbn [some_eq truthy] in *.
  destruct (Z.eqb_spec l h) as [->|Ne]; [lia|].
  replace (negb (h =? 0)) with true in * by lia.
  rewrite length_constrained_ok in E by lia. cbn [bind app] in E. injection E as <-.
  eexists; split; [reflexivity|]. intros T pos. rewrite render_cons2.
  eapply reads_bind; [apply reads_len_constrained; lia|].
  pose proof (zlen_pos bs Hn). destruct (Z.eqb_spec (zlen bs) 0); [lia|].
  eapply reads_bind_r; [apply reads_octs_al; auto|].
  destruct (py_hex_shifted bs Ho Hn) as (x & Ex & Fx).
  eapply reads_bind0; [apply reads_lift, Ex|].
  apply reads_lift. unfold mk_octs. rewrite Fx. cbv zeta. now rewrite T.
Qed.

Lemma octs_read_rt c bs fs : octs_read c bs -> fill (encode_octetstring c bs) = Ok fs ->
  reads_as (TOcts c) fs (VOcts (arrives c bs)).
Proof.
  unfold octs_read, arrives. cbv zeta. intros (Ho & Ht & K) E. fold octet in Ho.
  assert (Same : octs_ok c bs -> reads_as (TOcts c) fs (VOcts bs)) by (intros O; now apply octs_rt).
  unfold octs_ok in Same. cbv zeta in Same.
  destruct (cext c && negb (inside c (zlen bs))) eqn:Out; [auto|].
  destruct (clo c) as [l|] eqn:L; [|apply Same; destruct (chi c) as [[| |]|]; auto].
  destruct (chi c) as [h|] eqn:C; [|auto].
  destruct bs as [|b r]; [destruct h; auto|]. set (bs := b :: r) in *.
  destruct (Z.ltb_spec l h) as [Hlh|Hlh].
  2:{ apply Same. split; [auto|]. split; [auto|].
      destruct h; try tauto; (split; [tauto|]; split; [tauto|]; lia). }
  assert (K' : 0 <= l <= zlen bs /\ zlen bs <= h /\ h - l < 65536 /\ ctest c (zlen (shifted bs)) = true).
  { destruct h; [destruct K; discriminate| |]; destruct K as (K1 & K2 & K3); specialize (K3 Hlh); tauto. }
  clear K Same. destruct K' as (Hl & Hh & Hr & T).
  assert (Hn : bs <> []) by discriminate. clearbody bs.
  rewrite encode_octs_eq in E by auto.
  destruct (cext c) eqn:X; cbn [andb] in Out.
  - apply negb_false_iff in Out. rewrite inside_chain in E by auto. cbn [bind] in E.
    destruct (octs_after c bs) as [o|e] eqn:B; [|discriminate].
    destruct (octs_after_shift c bs o l h) as (w & -> & R); auto.
    cbn [bind fill] in E. injection E as <-. specialize (R T).
    eapply reads_dval; [reflexivity|]. intros pos. cbn [dec]. rewrite decode_octs_eq, X.
    rewrite render_bit. eapply reads_bind; [apply reads_bit|]. cbn [Z.b2z Z.eqb List.length]. apply R.
  - destruct (octs_after c bs) as [o|e] eqn:B; [|discriminate].
    destruct (octs_after_shift c bs o l h) as (w & -> & R); auto.
    cbn [bind fill] in E. injection E as <-. specialize (R T).
    eapply reads_dval; [reflexivity|]. intros pos. cbn [dec]. rewrite decode_octs_eq, X. apply R.
Qed.

(** * Messages *)

(** Whatever is read back is read back like this. *)
Theorem C72_arrives : forall t v bs rest, supported_by octs_read t v -> top_ok t v -> encode t v = Ok bs ->
  Forall octet rest -> decode (bs ++ rest) t = Ok (canon_by arrives t v).
Proof. exact (decode_encode_by octs_read_rt). Qed.

(** A string is left alone exactly when its first digit is not zero or it is the
    single octet 0. *)
Theorem C72_unchanged : forall bs, Forall octet bs -> bs <> [] -> (shifted bs = bs <-> digits_kept bs).
Proof.
  intros bs Ho Hn. destruct (py_hex_shifted bs Ho Hn) as (h & E & F). rewrite <- F. now apply digits_back.
Qed.

Lemma octets_from_length n ds : (len ds <= n)%nat -> len (octets_from ds) = Nat.div (len ds + 1) 2.
Proof.
  revert ds. induction n as [|n IH]; intros ds L.
  - destruct ds; [reflexivity|cbn [List.length] in L; lia].
  - destruct ds as [|a [|b ds]]; [reflexivity|reflexivity|]. cbn [octets_from List.length] in *.
    rewrite IH by lia. replace (S (S (len ds)) + 1)%nat with (len ds + 1 + 1 * 2)%nat by lia.
    rewrite Nat.div_add by lia. lia.
Qed.

Lemma no_zeros_length ds : (len (no_zeros ds) <= len ds)%nat.
Proof. induction ds as [|d ds IH]; cbn [no_zeros List.length]; [lia|]. destruct (d =? 0); cbn [List.length]; lia. Qed.

Lemma digits_of_length bs : len (digits_of bs) = (2 * len bs)%nat.
Proof. induction bs; cbn [digits_of List.length]; lia. Qed.

(** It never grows, and never gets empty. *)
Theorem C72_shorter : forall bs, bs <> [] -> 1 <= zlen (shifted bs) <= zlen bs.
Proof.
  intros bs Hn. pose proof (no_zeros_length (digits_of bs)) as L. rewrite digits_of_length in L.
  pose proof (zlen_pos bs Hn). unfold shifted, zlen in *. destruct (no_zeros (digits_of bs)) as [|d ds].
  - cbn [List.length]. lia.
  - rewrite (octets_from_length (len (d :: ds))) by lia. cbn [List.length] in *. lia.
Qed.

(** The digits that arrive: no leading zeros, and one more zero at the end if their
    number is odd. *)
Lemma digits_back_even n ds : (len ds <= n)%nat -> Forall hexdigit ds ->
  digits_of (octets_from ds) = if Nat.even (len ds) then ds else ds ++ [0].
Proof.
  revert ds. induction n as [|n IH]; intros ds L Hd.
  - destruct ds; [reflexivity|cbn [List.length] in L; lia].
  - destruct ds as [|a [|b ds]]; [reflexivity| |].
    + inversion Hd; subst. unfold hexdigit in *. cbn [octets_from digits_of List.length Nat.even app]. f_equal; [lia|f_equal; lia].
    + inversion Hd as [|? ? Ha Hd']; subst. inversion Hd' as [|? ? Hb Hds]; subst. unfold hexdigit in Ha, Hb.
      cbn [octets_from digits_of List.length Nat.even] in *. rewrite IH by (auto; lia).
      replace ((16 * a + b) / 16) with a by lia. replace ((16 * a + b) mod 16) with b by lia.
      destruct (Nat.even (len ds)); reflexivity.
Qed.

Theorem C72_digits : forall bs, Forall octet bs -> no_zeros (digits_of bs) <> [] ->
  digits_of (shifted bs) =
  no_zeros (digits_of bs) ++ (if Nat.even (len (no_zeros (digits_of bs))) then [] else [0]).
Proof.
  intros bs Ho N. unfold shifted.
  assert (A : Forall hexdigit (no_zeros (digits_of bs))).
  { rewrite digits_hexlify. apply no_zeros_spec. now apply hexlify_spec. }
  destruct (no_zeros (digits_of bs)) as [|d ds] eqn:E; [congruence|]. rewrite (digits_back_even (len (d :: ds))) by auto.
  destruct (Nat.even (len (d :: ds))); [now rewrite app_nil_r|reflexivity].
Qed.

(** A second relay changes nothing any more. *)
Theorem C72_once : forall bs, Forall octet bs -> shifted (shifted bs) = shifted bs.
Proof.
  intros bs Ho.
  assert (A : Forall hexdigit (no_zeros (digits_of bs)) /\ match no_zeros (digits_of bs) with [] => True | d :: _ => d <> 0 end).
  { rewrite digits_hexlify. destruct (no_zeros_spec (hexlify bs)) as (A & _ & F); [now apply hexlify_spec|]. auto. }
  destruct A as (A & F). unfold shifted at 2 3. destruct (no_zeros (digits_of bs)) as [|d ds] eqn:E; [reflexivity|].
  unfold shifted. rewrite (digits_back_even (len (d :: ds))) by auto.
  assert (NZ : forall r, no_zeros (d :: r) = d :: r) by (intros r; cbn [no_zeros]; destruct (Z.eqb_spec d 0); congruence).
  destruct (Nat.even (len (d :: ds))) eqn:Ev; [now rewrite NZ|]. cbn [app]. rewrite NZ. cbv iota.
  rewrite !octets_from_hex. inversion A as [|? ? Hd Hds]; subst. clear - Ev.
  assert (G : forall n l, (len l <= n)%nat -> Nat.even (len l) = false -> from_hex_string (l ++ [0]) = from_hex_string l).
  { induction n as [|n IH]; intros l L Ev'.
    - destruct l; [discriminate|cbn [List.length] in L; lia].
    - destruct l as [|a [|b l]]; [discriminate| |]; cbn [app from_hex_string List.length] in *; [f_equal; lia|].
      cbn [Nat.even] in Ev'. rewrite IH by (auto; lia). reflexivity. }
  exact (G _ (d :: ds) (le_n _) Ev).
Qed.

(** * Schemas *)

Definition arriving_size (c : constr) (bs : list Z) : Prop := plain_size c bs /\ sat c (zlen (arrives c bs)).

Lemma mild_read c bs : mild_octs c = true -> sat c (zlen bs) -> Forall (fun b => 0 <= b < 256) bs ->
  arriving_size c bs -> octs_read c bs /\ bounded_ext c /\ fixed_small c.
Proof.
  unfold mild_octs. intros S M O (Md & Sh). apply orb_true_iff in S as [S|S].
  { destruct (octs_safe c bs S M O Md) as ((O1 & O2 & O3) & B0). split; [|exact B0].
    split; [exact O1|]. split; [exact O2|]. unfold safe_octs in S. apply andb_true_iff in S as (_ & S).
    destruct (cext c && negb (inside c (zlen bs))); [exact O3|].
    destruct (clo c) as [l|]; [|exact O3]. destruct (chi c) as [h|]; [|exact O3].
    destruct h; [exact O3| |]; (split; [tauto|]; split; [tauto|]; lia). }
  apply andb_true_iff in S as (S & B). apply andb_true_iff in S as (Rg & X). apply negb_true_iff in X.
  destruct (clo c) as [l|] eqn:L; [|discriminate]. destruct (chi c) as [h|] eqn:U; [|discriminate].
  destruct (sat_ends c _ Rg M X) as (_ & A1 & A2). specialize (A1 l L). specialize (A2 h U).
  split; [|split].
  - unfold octs_read. cbv zeta. split; [exact O|]. split; [now apply ctest_sat|]. rewrite X, L, U. cbn [andb].
    assert (W : 0 <= l <= zlen bs /\ zlen bs <= h /\ (l < h -> h - l < 65536 /\
      match bs with [] => 256 <= h - l + 1 | _ => ctest c (zlen (shifted bs)) = true end)).
    { split; [lia|]. split; [lia|]. intros Hlh. split; [lia|].
      destruct bs as [|b r]; [unfold zlen in A1; cbn in A1; lia|]. apply ctest_sat. unfold arrives in Sh.
      rewrite X, L, U in Sh. cbn [andb] in Sh. replace (l <? h) with true in Sh by lia. exact Sh. }
    destruct h; auto. lia.
  - apply ext_bounded. congruence.
  - intros l' L' U'. assert (l' = l) by congruence. assert (l' = h) by congruence. lia.
Qed.

(** Sizes from 1 up: a shifted string is never refused. *)
Definition upward_octs (c : constr) : bool :=
  safe_octs c ||
  match c with CRange false (Some l) (Some h) => (l =? 1) && (1 <? h) && (h <? 65536) | _ => false end.

Lemma upward_read c bs : upward_octs c = true -> sat c (zlen bs) -> Forall (fun b => 0 <= b < 256) bs ->
  plain_size c bs -> octs_read c bs /\ bounded_ext c /\ fixed_small c.
Proof.
  unfold upward_octs. intros S M O Md. apply orb_true_iff in S as [S|S].
  - apply mild_read; auto; [unfold mild_octs; now rewrite S|]. split; [exact Md|]. unfold arrives.
    unfold safe_octs in S. apply andb_true_iff in S as (_ & S).
    destruct (cext c && negb (inside c (zlen bs))); [exact M|].
    destruct (clo c) as [l|]; [|exact M]. destruct (chi c) as [h|]; [|exact M]. destruct bs as [|b r]; [exact M|].
    replace (l <? h) with false by lia. exact M.
  - destruct c as [| | |e lo hi| | |]; try discriminate. destruct e; [discriminate|]. destruct lo as [l|]; [|discriminate].
    destruct hi as [h|]; [|discriminate]. assert (l = 1) as -> by lia.
    apply mild_read; auto.
    + unfold mild_octs. apply orb_true_iff. right. unfold regularb. cbn [cext clo chi unmarked orb negb andb]. lia.
    + split; [exact Md|]. unfold arrives. cbn [cext andb clo chi].
      destruct bs as [|b r]; [exact M|]. destruct (1 <? h) eqn:L; [|exact M]. rewrite <- ctest_sat in *. cbn [ctest le_opt_l le_opt_r orb] in *.
      pose proof (C72_shorter (b :: r) ltac:(discriminate)). lia.
Qed.

Lemma read_back {rule} {asked : constr -> list Z -> Prop} t : (forall c bs, rule c = true -> sat c (zlen bs) -> Forall (fun b => 0 <= b < 256) bs ->
    asked c bs -> octs_read c bs /\ bounded_ext c /\ fixed_small c) ->
  forall v, safe_by rule t = true -> message t v -> modest_by asked t v ->
  exists bs, encode t v = Ok bs /\ decode bs t = Ok (canon_by arrives t v).
Proof.
  intros RD v Sf M Md. destruct (safe_good (ok := octs_read) t RD Sf v M Md) as (Su & Re).
  assert (RS : forall c bs, octs_read c bs -> octs_sent c bs).
  { intros c bs (O1 & O2 & O3). split; [exact O1|]. split; [exact O2|].
    destruct (cext c && negb (inside c (zlen bs))); [exact O3|].
    destruct (clo c) as [l|]; destruct (chi c) as [[| |]|]; try exact O3; try exact Logic.I; tauto. }
  destruct (encode_total_by RS t v Su Re) as (bs & E). exists bs. split; [exact E|].
  rewrite <- (app_nil_r bs). apply C72_arrives; auto.
  unfold top_ok. destruct t; try exact Logic.I. exact (safe_top _ Sf v M).
Qed.

(** Every message whose shifted strings keep to their sizes arrives, shifted. *)
Theorem C72_messages : forall t v, safe_by mild_octs t = true -> message t v -> modest_by arriving_size t v ->
  exists bs, encode t v = Ok bs /\ decode bs t = Ok (canon_by arrives t v).
Proof. intros t v Sf M Md. exact (read_back t mild_read v Sf M Md). Qed.

(** With sizes from 1 up every message arrives: none is ever refused. *)
Theorem C72_every_message : forall t v, safe_by upward_octs t = true -> message t v -> modest t v ->
  exists bs, encode t v = Ok bs /\ decode bs t = Ok (canon_by arrives t v).
Proof. intros t v Sf M Md. exact (read_back t upward_read v Sf M Md). Qed.

(** * A string that is refused *)

Lemma err_after {A X} (d : D A) (f : A -> D X) pos w a e p pre rest : reads d pos w a ->
  (forall q, at_ q (pre ++ w ++ rest) (pos + len w) -> f a q = Err e) ->
  len pre = pos -> at_ p (pre ++ w ++ rest) pos -> dbind d f p = Err e.
Proof.
  intros R F L At. destruct (R p pre rest L At) as (q & E & At'). unfold dbind. rewrite E. now apply F.
Qed.

(** A string of a variable size whose shifted form breaks the size constraint. *)
Theorem C72_refused : forall c bs l h out, Forall octet bs -> bs <> [] -> cext c = false ->
  clo c = Some l -> chi c = Some h -> 0 <= l <= zlen bs -> zlen bs <= h -> l < h -> h - l < 65536 ->
  ctest c (zlen (shifted bs)) = false -> encode (TOcts c) (VOcts bs) = Ok out ->
  decode out (TOcts c) = Err PyAsn1Error.
Proof.
  intros c bs l h out Ho Hn X L C Hl Hh Hlh Hr T E. apply encode_inv in E as (fs & E & Hbs & Hob & Hoct & Hne).
  cbn [enc] in E. rewrite encode_octs_eq in E by auto. rewrite X in E.
  unfold octs_after in E. cbv zeta in E. rewrite L, C in E.
  assert (Z0 : opt_is (Some h) 0 = false) by (cbn; lia). rewrite Z0 in E. cbn [some_eq truthy] in E.
  destruct (Z.eqb_spec l h) as [->|Ne]; [lia|].
  replace (negb (h =? 0)) with true in * by lia.
  rewrite length_constrained_ok in E by lia. cbn [bind app fill] in E. injection E as <-.
  unfold decode, decode_pos. destruct (per_init_ok out) as (p & Ep & Ap); auto.
  rewrite Ep. cbn [bind]. destruct (produce_spec [cwn_field (zlen bs) l h; F true (obits bs)]) as (k & Ek & _).
  rewrite Hob, Ek in Ap. rewrite render_cons2 in Ap.
  cbn [dec]. rewrite decode_octs_eq, X. unfold dec_octs_after. rewrite L, C, Z0. cbn [some_eq truthy].
  replace (l =? h) with false by lia. replace (negb (h =? 0)) with true by lia.
  rewrite <- !app_assoc in Ap.
  set (w1 := render 0 [cwn_field (zlen bs) l h]) in *.
  match goal with |- context [dbind ?d ?f p] => assert (Er : dbind d f p = Err PyAsn1Error) end; [|now rewrite Er].
  pose proof (reads_len_constrained (zlen bs) l h 0 ltac:(lia) Hr ltac:(lia)) as RL. fold w1 in RL.
  eapply (fun F => err_after _ _ 0%nat w1 (zlen bs) PyAsn1Error p [] _ RL F eq_refl Ap).
  intros q At. pose proof (zlen_pos bs Hn). replace (zlen bs =? 0) with false by lia.
  eapply (fun F => err_after _ _ _ _ _ PyAsn1Error q w1 _ (reads_octs_al bs _ Hn) F eq_refl At).
  intros q' At'. destruct (py_hex_shifted bs Ho Hn) as (x & Ex & Fx).
  unfold dbind, lift. rewrite Ex. unfold mk_octs. rewrite Fx. cbv zeta. now rewrite T.
Qed.

(** * Cases *)

(** Of the three OCTET STRINGs of C71_case's schema the first one has a fixed size. *)
Definition zeros : val := VSeq (Some [Some (VOcts [0; 5]); Some (VOcts [1; 2; 3]); Some (VOcts [0; 18; 52])]).

Example C72_case : safe_by mild_octs strings = true /\ message strings zeros /\ modest_by arriving_size strings zeros /\
  canon_by arrives strings zeros = VSeq (Some [Some (VOcts [0; 5]); Some (VOcts [16; 32; 48]); Some (VOcts [18; 52])]) /\
  exists bs, encode strings zeros = Ok bs /\ decode bs strings = Ok (canon_by arrives strings zeros).
Proof.
  assert (Sf : safe_by mild_octs strings = true) by (vm_compute; reflexivity).
  assert (M : message strings zeros) by (unfold strings, zeros; concrete).
  assert (Md : modest_by arriving_size strings zeros).
  { unfold strings, zeros, arriving_size. concrete. }
  split; [exact Sf|]. split; [exact M|]. split; [exact Md|]. split; [vm_compute; reflexivity|].
  exact (C72_messages strings zeros Sf M Md).
Qed.

(** OCTET STRING (SIZE (2..4)): '000A'H is sent and refused. *)
Example C72_refused_case : encode (TOcts (CRange false (Some 2) (Some 4))) (VOcts [0; 10]) = Ok [0; 0; 10] /\
  shifted [0; 10] = [160] /\ decode [0; 0; 10] (TOcts (CRange false (Some 2) (Some 4))) = Err PyAsn1Error.
Proof.
  assert (E : encode (TOcts (CRange false (Some 2) (Some 4))) (VOcts [0; 10]) = Ok [0; 0; 10]) by (vm_compute; reflexivity).
  split; [exact E|]. split; [reflexivity|].
  apply (C72_refused (CRange false (Some 2) (Some 4)) [0; 10] 2 4); try reflexivity; try discriminate; try exact E;
    [repeat constructor; unfold octet; lia|split; discriminate].
Qed.

Lemma upward_sane : octets_sane upward_octs.
Proof.
  unfold upward_octs. intros c Sf. apply orb_true_iff in Sf as [Sf|Sf]; [now apply octs_sane|].
  destruct c as [| | |e lo hi| | |]; try discriminate. destruct e; [discriminate|]. destruct lo as [l|]; [|discriminate].
  destruct hi as [h|]; [|discriminate]. split; [reflexivity|]. cbn [clo chi]. intros l' h' [= <-] [= <-]. lia.
Qed.
