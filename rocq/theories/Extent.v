(** C67: the longest encoding of a type is known from the schema. *)
From Coq Require Import ZArith List String Bool Lia ZifyBool ZifyNat ZifyN.
Import ListNotations.
From Verif Require Import PyBase Schema Encoder Decoder BitFacts Stream Prims Spec SimpleTypes RoundTrip Reading
  Totality PropsRoundTrip Constraints Valid Exact Faults.
Open Scope string_scope.
Open Scope list_scope.
Open Scope Z_scope.
Ltac Zify.zify_post_hook ::= Z.div_mod_to_equations.

(** * What the schema says *)

(** Numbers of bits, [None] when there is no limit. *)
Definition plus (a b : option Z) : option Z :=
  match a, b with Some x, Some y => Some (x + y) | _, _ => None end.
Definition larger (a b : option Z) : option Z :=
  match a, b with Some x, Some y => Some (Z.max x y) | _, _ => None end.
Definition times (n : Z) (a : option Z) : option Z := option_map (Z.mul n) a.
Definition sum (l : list (option Z)) : option Z := fold_right plus (Some 0) l.
Definition largest (l : list (option Z)) : option Z := fold_right larger (Some 0) l.

(** Octets of the numbers below [n + 1]. *)
Definition octets (n : Z) : Z := Z.log2 n / 8 + 1.

(** One of [r] numbers: a bit field, an aligned octet or two, or as many octets as
    needed.  Alignment takes up to 7 bits. *)
Definition one_of (r : Z) : Z :=
  if r <=? 1 then 0
  else if r <=? 255 then Z.log2_up r
  else if r =? 256 then 7 + 8
  else if r <=? 65536 then 7 + 16
  else 7 + 8 * octets (r - 1).

(** The same as an INTEGER, an item or an index: a length comes first when the octets vary. *)
Definition number_of (r : Z) : Z :=
  if r <=? 65536 then one_of r else one_of (Z.max 3 (octets (r - 1))) + (7 + 8 * octets (r - 1)).

(** A length of at most [n]. *)
Definition length_of (n : Z) : Z := if n <=? 127 then 7 + 8 else if n <=? 16383 then 7 + 16 else 7 + 17.

(** A "normally small" number below [n]. *)
Definition small_of (n : Z) : Z := if n <=? 64 then 7 else 1 + length_of (octets (n - 1)) + (7 + 8 * octets (n - 1)).

(** 16384 is the largest length that is sent: there is no fragmentation. *)
Definition integer_bits (c : constr) : option Z :=
  if cext c then
    match clo c, chi c with
    | None, _ => Some 0
    | _, _ => None
    end
  else match clo c, chi c with
       | Some l, Some h => Some (number_of (h - l + 1))
       | Some _, None => Some (length_of 16384 + (7 + 8 * 16384))
       | None, _ => None
       end.

Definition item_bits (ext : bool) (root adds : list Z) : option Z :=
  if ext then
    if forallb (fun z => z <? zlen root) root
    then Some (1 + Z.max (number_of (zlen root)) (small_of (zlen adds))) else None
  else if forallb (fun z => z <? zlen (root ++ adds)) (root ++ adds)
       then Some (number_of (zlen (root ++ adds))) else None.

(** Strings of units of [u] bits; sizes up to [short] units are not aligned, lengths
    are bounded by a bit field when the size is below [cut]. *)
Definition string_root (u short : Z) (cut : option Z) (c : constr) : Z :=
  let free := length_of 16384 + (7 + u * 16384) in
  let field h := match cut with None => true | Some k => h <? k end in
  match clo c, chi c with
  | _, Some 0 => 0
  | Some l, Some h =>
      if l =? h then (if h <=? short then 0 else 7) + u * Z.max 0 h
      else if field h then one_of (h - l + 1) + (7 + u * Z.max 0 h) else free
  | None, Some h => if field h then 0 else free
  | _, None => free
  end.

Definition string_bits (u short : Z) (cut : option Z) (c : constr) : Z :=
  if cext c then 1 + Z.max (string_root u short cut c) (length_of 16384 + (7 + u * 16384))
  else string_root u short cut c.

Definition list_bits (c : constr) (e : option Z) : option Z :=
  let free := plus (Some (length_of 16384)) (times 16384 e) in
  if cext c then
    plus (Some 1)
      match clo c, chi c with
      | Some l, Some h => larger (plus (Some (one_of (h - l + 1))) (times (Z.max 0 h) e)) free
      | _, _ => free
      end
  else match clo c, chi c with
       | None, _ => Some 0
       | Some l, Some h =>
           if h =? 0 then (if l =? 0 then None else free)
           else if (h =? l) && (l <? 65536) then times (Z.max 0 h) e
           else plus (Some (one_of (h - l + 1))) (times (Z.max 0 h) e)
       | Some _, None => free
       end.

(** An open type: a length and whole octets, at least one. *)
Definition open_bits (e : option Z) : option Z :=
  match e with
  | Some n => let k := Z.min 16384 (Z.max 1 ((n + 7) / 8)) in Some (length_of k + (7 + 8 * k))
  | None => Some (length_of 16384 + (7 + 8 * 16384))
  end.

Definition bitmap (cs : list (comp ty)) : Z := zlen (filter (fun c => negb (is_mandatory c)) cs).

(** The length of the additions' bitmap, and that bitmap. *)
Definition marks (adds : list (comp ty)) (groups : list (list (comp ty))) : Z :=
  if isnil adds && isnil groups then 0 else 7 + zlen adds + zlen groups.

Fixpoint longest (t : ty) : option Z :=
  match t with
  | TBool => Some 1
  | TInt c => integer_bits c
  | TEnum ext root adds => item_bits ext root adds
  | TBits c => Some (string_bits 1 16 (Some 65536) c)
  | TOcts c => Some (string_bits 8 2 None c)
  | TSeqOf c t' => list_bits c (longest t')
  | TSeq ext root adds groups =>
      let front := plus (Some (bitmap root)) (sum (map (fun c => longest (cty c)) root)) in
      if ext then
        plus (Some (1 + marks adds groups))
          (plus front
             (plus (sum (map (fun c => open_bits (longest (cty c))) adds))
                   (sum (map (fun g => open_bits (plus (Some (bitmap g)) (sum (map (fun c => longest (cty c)) g)))) groups))))
      else front
  | TChoice ext root adds groups =>
      if ext then
        plus (Some 1)
          (larger (plus (Some (number_of (zlen root))) (largest (map (fun c => longest (cty c)) root)))
             (plus (Some (small_of (zlen (adds ++ List.concat groups))))
                (largest (map (fun c => open_bits (longest (cty c))) adds
                          ++ List.concat (map (map (fun c => open_bits (longest (cty c)))) groups)))))
      else plus (Some (number_of (zlen root)))
             (largest (map (fun c => longest (cty c)) root ++ map (fun c => longest (cty c)) adds
                       ++ List.concat (map (map (fun c => longest (cty c))) groups)))
  end.

(** Octets of the whole message. *)
Definition longest_message (t : ty) : option Z :=
  option_map (fun n => Z.max 1 ((n + 7) / 8)) (longest t).

(** * Counting fields *)

Definition reach (n : Z) (o : option Z) : Prop := match o with Some m => n <= m | None => True end.

Definition span1 (f : field) : Z := (if falign f then 7 else 0) + zlen (fbits f).
Definition span (fs : list field) : Z := fold_right (fun f n => span1 f + n) 0 fs.

Lemma span_app a b : span (a ++ b) = span a + span b.
Proof.
  induction a as [|f a IH]; [reflexivity|]. change (span1 f + span (a ++ b) = span1 f + span a + span b). lia.
Qed.
Lemma span_cons f a : span (f :: a) = span1 f + span a.
Proof. reflexivity. Qed.
Lemma span_nil : span [] = 0.
Proof. reflexivity. Qed.

Lemma span_al s : span [F true s] = 7 + zlen s.
Proof. unfold span, fold_right, span1. cbn [falign fbits]. lia. Qed.
Lemma span_na s : span [F false s] = zlen s.
Proof. unfold span, fold_right, span1. cbn [falign fbits]. lia. Qed.

Lemma span_render fs pos : Z.of_nat (List.length (render pos fs)) <= span fs.
Proof.
  revert pos. induction fs as [|f fs IH]; intros pos; cbn [render]; [cbn; lia|].
  rewrite !app_length, span_cons, fpad_length. specialize (IH (fpos (falign f) pos + List.length (fbits f))%nat).
  unfold span1, zlen. pose proof (padn_lt pos). destruct (falign f); cbn [fpos] in *; unfold up8 in *; lia.
Qed.

Lemma span_pos fs : 0 <= span fs.
Proof. pose proof (span_render fs 0). lia. Qed.

Lemma span_produce fs : Z.of_nat (Nat.div (List.length (produce_complete_encoding fs)) 8) <= Z.max 1 ((span fs + 7) / 8).
Proof.
  destruct (produce_spec fs) as (k & E & [P|(P & Q)]); rewrite E, app_length, repeat_length.
  - pose proof (span_render fs 0). pose proof (padn_lt (List.length (render 0 fs))). lia.
  - rewrite P, Q. cbn. lia.
Qed.

Lemma reach_trans a b o : a <= b -> reach b o -> reach a o.
Proof. destruct o; cbn; lia. Qed.
Lemma reach_plus a b x y : reach a x -> reach b y -> reach (a + b) (plus x y).
Proof. destruct x, y; cbn; auto; lia. Qed.
Lemma reach_larger_l a x y : reach a x -> reach a (larger x y).
Proof. destruct x, y; cbn; auto; lia. Qed.
Lemma reach_larger_r a x y : reach a y -> reach a (larger x y).
Proof. destruct x, y; cbn; auto; lia. Qed.
Lemma reach_largest a o l : In o l -> reach a o -> reach a (largest l).
Proof.
  induction l as [|x l IH]; intros [] R; cbn [largest fold_right]; fold (largest l).
  - subst. now apply reach_larger_l.
  - apply reach_larger_r. auto.
Qed.
Lemma reach_sum_pos l : Forall (fun o => reach 0 o) l -> reach 0 (sum l).
Proof. induction 1 as [|x l R H IH]; cbn [sum fold_right]; [cbn; lia|]. apply (reach_plus 0 0); auto. Qed.

(** ** Numbers *)

Lemma noct_octets n : 0 <= n -> Z.of_nat (noct n) = octets n.
Proof.
  intros N. unfold octets. destruct (Z.eq_dec n 0) as [->|NZ]; [reflexivity|].
  pose proof (Z.log2_nonneg n). set (k := Z.log2 n / 8 + 1).
  assert (A : (noct n <= Z.to_nat k)%nat).
  { apply noct_le; [lia|unfold k; lia|]. apply Z.log2_lt_pow2; unfold k; lia. }
  pose proof (noct_lt n N) as L. apply Z.log2_lt_pow2 in L; [|lia]. pose proof (noct_pos n). unfold k in *. lia.
Qed.

Lemma octets_mono a b : 0 <= a <= b -> octets a <= octets b.
Proof. intros L. unfold octets. pose proof (Z.log2_le_mono a b). lia. Qed.

Lemma octets_pos a : 1 <= octets a.
Proof. unfold octets. pose proof (Z.log2_nonneg a). lia. Qed.

Lemma cwn_span n l u f : l <= n <= u -> encode_constrained_whole_number n l u = Ok f -> span [f] <= one_of (u - l + 1).
Proof.
  intros L E. rewrite cwn_ok in E by exact L. apply ok_inj in E. subst f. unfold cwn_field, one_of. cbv zeta.
  set (r := u - l + 1). unfold span, fold_right, span1.
  destruct (Z.eqb_spec r 1); [replace (r <=? 1) with true by lia; cbn; lia|]. replace (r <=? 1) with false by lia.
  destruct (Z.leb_spec r 255); [cbn [falign fbits]; unfold zlen; rewrite to_bits_length; pose proof (Z.log2_up_nonneg r); lia|].
  destruct (Z.eqb_spec r 256); [cbn [falign fbits]; unfold zlen; rewrite to_bits_length; lia|].
  destruct (Z.leb_spec r 65536); [cbn [falign fbits]; unfold zlen; rewrite to_bits_length; lia|].
  cbn [falign fbits]. unfold zlen; rewrite to_bits_length.
  pose proof (octets_mono (n - l) (r - 1)). pose proof (noct_octets (n - l)). lia.
Qed.

Lemma one_of_pos r : 0 <= one_of r.
Proof.
  unfold one_of. destruct (r <=? 1); [lia|]. destruct (r <=? 255); [apply Z.log2_up_nonneg|].
  destruct (r =? 256); [lia|]. destruct (r <=? 65536); [lia|]. unfold octets. pose proof (Z.log2_nonneg (r - 1)). lia.
Qed.

Lemma one_of_mono a b : a <= b -> one_of a <= one_of b.
Proof.
  intros L. pose proof (one_of_pos b). unfold one_of in *.
  destruct (Z.leb_spec a 1); [lia|]. replace (b <=? 1) with false in * by lia.
  pose proof (Z.log2_up_le_mono a b L).
  assert (a <= 255 -> Z.log2_up a <= 8). { intros M. apply (Z.log2_up_le_mono a 256). lia. }
  destruct (Z.leb_spec a 255); [|replace (b <=? 255) with false in * by lia].
  { destruct (Z.leb_spec b 255); [lia|]. destruct (Z.eqb_spec b 256); [lia|]. destruct (Z.leb_spec b 65536); [lia|].
    unfold octets in *. pose proof (Z.log2_nonneg (b - 1)). lia. }
  assert (65536 < b -> 3 <= octets (b - 1)).
  { intros M. unfold octets. pose proof (Z.log2_le_mono 65536 (b - 1) ltac:(lia)) as Q. change (Z.log2 65536) with 16 in Q. lia. }
  pose proof (octets_mono (a - 1) (b - 1) ltac:(lia)).
  destruct (Z.eqb_spec a 256), (Z.eqb_spec b 256), (Z.leb_spec a 65536), (Z.leb_spec b 65536); lia.
Qed.

Lemma cfl_span n l u fs : l <= n <= u ->
  create_field_list_for_constrained_whole_number n (Some l) (Some u) = Ok fs -> span fs <= number_of (u - l + 1).
Proof.
  intros L E. unfold create_field_list_for_constrained_whole_number in E. cbn [need bind] in E.
  destruct (encode_constrained_whole_number n l u) as [f|] eqn:Ef; [|discriminate]. cbn [bind] in E.
  pose proof (cwn_span n l u f L Ef) as S1. unfold number_of. unfold integer_range in E.
  destruct (Z.leb_spec (u - l + 1) 65536) as [G|G]; [apply ok_inj in E; subst fs; exact S1|].
  rewrite range_octet_ok in E by lia. cbn [bind] in E.
  assert (EF : f = F true (to_bits (8 * noct (n - l)) (n - l))).
  { rewrite cwn_ok in Ef by exact L. apply ok_inj in Ef. subst f. unfold cwn_field. cbv zeta.
    replace (u - l + 1 =? 1) with false by lia. replace (u - l + 1 <=? 255) with false by lia.
    replace (u - l + 1 =? 256) with false by lia. now replace (u - l + 1 <=? 65536) with false by lia. }
  unfold length_constrained in E. cbn [need bind] in E. set (k := octets_of (fbits f)) in *.
  assert (K : k = octets (n - l)).
  { unfold k. rewrite EF. cbn [fbits]. rewrite octets_of_to_bits. apply noct_octets. lia. }
  pose proof (octets_mono (n - l) (u - l) ltac:(lia)) as OM. pose proof (noct_octets (u - l) ltac:(lia)) as NO.
  assert (1 <= k). { unfold octets in K. pose proof (Z.log2_nonneg (n - l)). lia. }
  set (m := Z.of_nat (Nat.max 3 (noct (u - l)))) in *.
  destruct (encode_constrained_whole_number k 1 m) as [d|] eqn:Ed; [|discriminate]. cbn [bind app] in E. apply ok_inj in E. subst fs.
  pose proof (cwn_span k 1 m d ltac:(lia) Ed) as S2. replace (u - l + 1 - 1) with (u - l) by lia.
  change (d :: [f]) with ([d] ++ [f]). rewrite span_app.
  replace (m - 1 + 1) with (Z.max 3 (octets (u - l))) in S2 by lia.
  assert (S3 : span [f] <= 7 + 8 * octets (u - l)).
  { rewrite EF. unfold span, fold_right, span1. cbn [falign fbits]. unfold zlen. rewrite to_bits_length.
    pose proof (noct_octets (n - l)). lia. }
  lia.
Qed.

Lemma length_mono a b : a <= b -> length_of a <= length_of b.
Proof. intros L. unfold length_of. destruct (Z.leb_spec a 127), (Z.leb_spec b 127), (Z.leb_spec a 16383), (Z.leb_spec b 16383); lia. Qed.

Lemma length_pos a : 15 <= length_of a.
Proof. unfold length_of. destruct (a <=? 127), (a <=? 16383); lia. Qed.

Lemma lu_span n fs : 0 <= n -> length_unconstrained n = Ok fs -> n <= 16384 /\ span fs <= length_of n.
Proof.
  intros N E. destruct (Z.lt_ge_cases n 16384) as [L|L].
  - rewrite length_unconstrained_ok in E by lia. apply ok_inj in E. subst fs. split; [lia|].
    unfold len_field, length_of. replace (n <=? 16383) with true by lia.
    destruct (n <=? 127); unfold span, fold_right, span1; cbn [falign fbits]; unfold zlen; cbn [List.length];
      rewrite to_bits_length; lia.
  - unfold length_unconstrained in E. replace (n <=? 127) with false in E by lia. replace (127 <? n) with true in E by lia.
    destruct (Z.leb_spec n 16384); [|discriminate]. assert (n = 16384) by lia. subst n. split; [lia|].
    vm_compute in E. apply ok_inj in E. subst fs. vm_compute. discriminate.
Qed.

Lemma ns_span n m fs : 0 <= n < m -> encode_normally_small n 0 = Ok fs -> span fs <= small_of m.
Proof.
  intros N E. unfold encode_normally_small in E. unfold small_of. destruct (Z.leb_spec n 63) as [L|L].
  - unfold encode_non_negative_sized, py_format_b in E. rewrite py_bin_ok in E by lia. cbn [bind] in E.
    change (fst (0, 6)%nat * 8 + snd (0, 6)%nat)%nat with 6%nat in E.
    rewrite zfill_to_bits in E by (change (2 ^ Z.of_nat 6) with 64; lia). apply ok_inj in E. subst fs.
    assert (Q : span [F false [false]; F false (to_bits 6 n)] = 7).
    { unfold span, fold_right, span1. cbn [falign fbits]. unfold zlen. rewrite to_bits_length. reflexivity. }
    rewrite Q. destruct (m <=? 64); [lia|]. pose proof (length_pos (octets (m - 1))). pose proof (octets_pos (m - 1)). lia.
  - replace (m <=? 64) with false by lia. unfold encode_semi_constrained_whole_number in E.
    rewrite min_octets_ok in E by lia. cbn [bind fbits] in E. rewrite octets_of_to_bits in E.
    destruct (length_unconstrained (Z.of_nat (noct (n - 0)))) as [d|] eqn:Ed; [|discriminate]. cbn [bind] in E. apply ok_inj in E. subst fs.
    apply lu_span in Ed as (_ & Sd); [|lia]. rewrite span_cons, span_app.
    pose proof (octets_mono n (m - 1) ltac:(lia)). pose proof (noct_octets n ltac:(lia)). rewrite Z.sub_0_r in *.
    pose proof (length_mono (Z.of_nat (noct n)) (octets (m - 1)) ltac:(lia)).
    assert (Q : span [F true (to_bits (8 * noct n) n)] = 7 + 8 * octets n).
    { unfold span, fold_right, span1. cbn [falign fbits]. unfold zlen. rewrite to_bits_length. lia. }
    rewrite Q. change (span1 (F false [true])) with 1. lia.
Qed.

Lemma lc_span n lo hi fs : (forall l h, lo = Some l -> hi = Some h -> l <= n <= h) -> length_constrained n lo hi = Ok fs ->
  exists l h, lo = Some l /\ hi = Some h /\ span fs <= one_of (h - l + 1).
Proof.
  intros O E. unfold length_constrained in E. destruct hi as [h|]; [|discriminate]. destruct lo as [l|]; [|discriminate].
  cbn [need bind] in E. destruct (encode_constrained_whole_number n l h) as [f|] eqn:Ef; [|discriminate]. cbn [bind] in E.
  apply ok_inj in E. subst fs. exists l, h. repeat split. eapply cwn_span; eauto.
Qed.

(** * Simple types *)

Lemma integer_span c z fs : regular c -> sat c z -> encode_integer c z = Ok fs -> reach (span fs) (integer_bits c).
Proof.
  intros RC SZ E. unfold integer_bits, encode_integer in *. destruct (cext c) eqn:X.
  - destruct (clo c); [exact Logic.I|]. discriminate E.
  - apply ctest_sat in SZ. destruct (regular_ends c z RC SZ X) as (A & B).
    destruct (clo c) as [l|]; [destruct (chi c) as [h|]|exact Logic.I]; cbn [Exact.above Exact.below reach] in *.
    + eapply cfl_span; [|exact E]. lia.
    + unfold encode_semi_constrained_whole_number in E. rewrite min_octets_ok in E by lia. cbn [bind fbits] in E.
      rewrite octets_of_to_bits in E. destruct (length_unconstrained _) as [d|] eqn:Ed; [|discriminate]. cbn [bind] in E.
      apply ok_inj in E. subst fs. apply lu_span in Ed as (Hn & Sd); [|lia]. rewrite span_app.
      pose proof (length_mono _ _ Hn). rewrite span_al. unfold zlen. rewrite to_bits_length. lia.
Qed.

Lemma enum_span ext root adds z fs : root <> [] -> Forall (fun z => 0 <= z) (root ++ adds) -> In z (root ++ adds) ->
  encode_enumerated ext root adds z = Ok fs -> reach (span fs) (item_bits ext root adds).
Proof.
  intros NE FA I E. assert (P : 0 <= z) by (rewrite Forall_forall in FA; now apply FA).
  unfold encode_enumerated, item_bits in *. destruct ext; cbn [negb] in E.
  - destruct (forallb _ root) eqn:FB; [|exact Logic.I]. rewrite forallb_forall in FB. cbn [reach].
    destruct (existsb (Z.eqb z) root) eqn:X.
    + apply existsb_exists in X as (y & Iy & Ey). apply Z.eqb_eq in Ey. subst y. specialize (FB z Iy).
      destruct (create_field_list_for_constrained_whole_number _ _ _) as [x|] eqn:Ex; [|discriminate]. cbn [bind] in E.
      apply ok_inj in E. subst fs. apply cfl_span in Ex; [|lia]. rewrite span_cons. change (span1 (F false [false])) with 1.
      replace (zlen root - 1 - 0 + 1) with (zlen root) in Ex by lia. lia.
    + destruct (zindex z adds) as [n|] eqn:En; [|discriminate]. cbn [bind] in E.
      destruct (encode_normally_small n 0) as [x|] eqn:Ex; [|discriminate]. cbn [bind] in E. apply ok_inj in E. subst fs.
      assert (B : 0 <= n < zlen adds).
      { clear - En. revert n En. induction adds as [|y l IH]; intros n En; [discriminate|]. cbn [zindex] in En.
        unfold zlen. cbn [List.length]. destruct (y =? z); [apply ok_inj in En; lia|].
        destruct (zindex z l) as [k|]; [|discriminate]. cbn [bind] in En. apply ok_inj in En. subst n.
        specialize (IH k eq_refl). unfold zlen in IH. lia. }
      apply (ns_span n (zlen adds)) in Ex; [|exact B]. rewrite span_cons. change (span1 (F false [true])) with 1. lia.
  - destruct (forallb _ (root ++ adds)) eqn:FB; [|exact Logic.I]. rewrite forallb_forall in FB. cbn [reach].
    specialize (FB z I). apply cfl_span in E; [|lia]. replace (zlen (root ++ adds) - 1 - 0 + 1) with (zlen (root ++ adds)) in E by lia. lia.
Qed.

Lemma free_span n u (s : bits) fs : 0 <= n -> zlen s = u * n -> 0 <= u -> length_unconstrained n = Ok fs ->
  span fs <= length_of 16384 /\ zlen s <= u * 16384.
Proof.
  intros N S U E. apply lu_span in E as (L & Sd); [|exact N]. pose proof (length_mono _ _ L). split; [lia|nia].
Qed.

Lemma filled_span (r : res (option (list field))) fs : fill r = Ok fs ->
  exists o, r = Ok o /\ span fs = match o with Some l => span l | None => 0 end.
Proof.
  unfold fill. destruct r as [o|]; [|discriminate]. cbn [bind]. intros E. apply ok_inj in E. subst fs.
  exists o. split; [reflexivity|]. now destruct o.
Qed.

Lemma opt_span e : span (opt_field e) = match e with Some f => span1 f | None => 0 end.
Proof. destruct e; cbn [opt_field]; [rewrite span_cons, span_nil; lia|reflexivity]. Qed.

Lemma string_root_pos u short cut c : 0 <= u -> 0 <= string_root u short cut c.
Proof.
  intros U. unfold string_root. pose proof (length_pos 16384). set (L := length_of 16384) in *.
  assert (0 <= u * 16384) by lia.
  destruct (chi c) as [h|]; [|destruct (clo c); lia]. assert (P : 0 <= u * Z.max 0 h) by nia.
  destruct h as [|h|h]; [destruct (clo c); lia| |]; (destruct (clo c) as [l|]; cbv zeta;
  [match goal with |- context [l =? ?k] => destruct (l =? k); [destruct (_ <=? _); lia|]; pose proof (one_of_pos (k - l + 1)) end|];
    destruct (match cut with Some _ => _ | None => _ end); lia).
Qed.

Lemma bits_span c s fs : regular c -> sat c (zlen s) -> fill (encode_bitstring c s) = Ok fs ->
  span fs <= string_bits 1 16 (Some 65536) c.
Proof.
  intros RC SZ E. apply filled_span in E as (o & E & ->). unfold encode_bitstring in E. cbv zeta in E.
  set (b := as_binary s) in *. set (n := zlen b) in *.
  assert (N : 0 <= n) by (unfold n, zlen; lia).
  assert (AF : forall e o, (forall h, chi c = Some h -> 0 <= h /\ (h <> 0 -> n <= h)) ->
      (forall l h, clo c = Some l -> chi c = Some h -> h <> 0 -> l <= n) ->
      (if opt_is (chi c) 0 then Ok None
       else if some_eq (clo c) (chi c) then
         if n <=? 16 then Ok (Some (opt_field e ++ [F false b]))
         else if (16 <? n) && (n <? 65536) then Ok (Some (opt_field e ++ [F true b]))
         else Err RaiseNotImplemented
       else if truthy (chi c) && lt65536 (chi c) then
         let* det := length_constrained n (clo c) (chi c) in Ok (Some (opt_field e ++ det ++ [F true b]))
       else let* det := length_unconstrained n in Ok (Some (opt_field e ++ det ++ [F true b]))) = Ok o ->
      match o with Some l => span l | None => 0 end
      <= match e with Some f => span1 f | None => 0 end + string_root 1 16 (Some 65536) c).
  { clear E o. intros e o UH LN E.
    assert (EP : 0 <= match e with Some f => span1 f | None => 0 end).
    { destruct e as [f|]; [|lia]. unfold span1, zlen. destruct (falign f); lia. }
    pose proof (string_root_pos 1 16 (Some 65536) c ltac:(lia)) as RP.
    destruct (opt_is (chi c) 0) eqn:O0; [apply ok_inj in E; subst o; lia|].
    destruct (some_eq (clo c) (chi c)) eqn:SE.
    - apply some_eq_inv in SE as (l & L & U). rewrite U in *. rewrite L in *. unfold string_root in *. rewrite L, U in *.
      cbn [opt_is] in O0. assert (l <> 0) by lia. destruct (UH l eq_refl) as (H0 & H1). specialize (LN l l eq_refl eq_refl).
      destruct l as [|l|l]; [lia| |lia]. rewrite Z.eqb_refl in *.
      assert (n = Z.pos l) by lia.
      destruct (Z.leb_spec n 16); [|destruct ((16 <? n) && (n <? 65536)); [|discriminate]];
        apply ok_inj in E; subst o; rewrite span_app, opt_span.
      + replace (Z.pos l <=? 16) with true by lia. rewrite span_na. fold n. lia.
      + replace (Z.pos l <=? 16) with false by lia. rewrite span_al. fold n. lia.
    - destruct (truthy (chi c) && lt65536 (chi c)) eqn:T.
      + apply andb_prop in T as (_ & T).
        destruct (length_constrained n (clo c) (chi c)) as [d|] eqn:Ed; [|discriminate]. cbn [bind] in E. apply ok_inj in E. subst o.
        destruct (chi c) as [h|] eqn:U; [|discriminate]. cbn [opt_is] in O0. cbn [lt65536] in T.
        destruct (UH h eq_refl) as (H0 & H1).
        apply lc_span in Ed as (l & h' & L & [= <-] & Sd); [|intros l' h' L' [= <-]; specialize (LN l' h L' eq_refl); lia].
        rewrite !span_app, opt_span, span_al. fold n. unfold string_root. rewrite L, U.
        destruct h as [|h|h]; [lia| |lia]. destruct (Z.eqb_spec l (Z.pos h)) as [->|]; [rewrite L in SE; cbn [some_eq] in SE; lia|].
        replace (Z.pos h <? 65536) with true by lia. lia.
      + destruct (length_unconstrained n) as [d|] eqn:Ed; [|discriminate]. cbn [bind] in E. apply ok_inj in E. subst o.
        destruct (free_span n 1 b d N ltac:(unfold n; lia) ltac:(lia) Ed) as (S1 & S2).
        rewrite !span_app, opt_span, span_al. unfold string_root.
        destruct (chi c) as [h|] eqn:U; [|destruct (clo c); lia]. cbn [opt_is truthy lt65536] in *. destruct (UH h eq_refl).
        destruct h as [|h|h]; [lia| |lia].
        assert (Hh : (Z.pos h <? 65536) = false) by (destruct (Z.ltb_spec (Z.pos h) 65536); [cbn in T; lia|reflexivity]).
        rewrite Hh. destruct (clo c) as [l|]; [|lia]. cbn [some_eq] in SE. replace (l =? Z.pos h) with false by lia. lia. }
  unfold string_bits. destruct (cext c) eqn:X.
  - destruct (chain_le (clo c) n (chi c)) as [r|] eqn:Er; [|discriminate]. cbn [bind] in E. destruct r.
    + apply chain_true in Er as (l & h & L & U & V). apply AF in E.
      * change (span1 (F false [false])) with 1 in E. lia.
      * intros h' Hh. rewrite U in Hh. injection Hh as <-. lia.
      * intros l' h' L' U' _. rewrite L in L'. injection L' as <-. lia.
    + destruct (length_unconstrained n) as [d|] eqn:Ed; [|discriminate]. cbn [bind] in E. apply ok_inj in E. subst o.
      destruct (free_span n 1 b d N ltac:(unfold n; lia) ltac:(lia) Ed) as (S1 & S2).
      rewrite span_cons, span_app, span_al. change (span1 (F false [true])) with 1. lia.
  - apply ctest_sat in SZ. destruct (regular_ends c _ RC SZ X) as (A & B).
    assert (NB : zlen s <= n /\ (s <> [] -> n = zlen s) /\ n <= Z.max 1 (zlen s)).
    { unfold n, b. destruct s; cbn [as_binary]; unfold zlen; cbn [List.length]; repeat split; try lia; congruence. }
    assert (0 <= zlen s) by (unfold zlen; lia).
    apply AF in E; [lia| |].
    + intros h U. rewrite U in B. cbn [Exact.below] in B. lia.
    + intros l h L U _. rewrite L in A. cbn [Exact.above] in A. lia.
Qed.

Lemma octs_span c bs fs : regular c -> sat c (zlen bs) -> Forall octet bs -> fill (encode_octetstring c bs) = Ok fs ->
  span fs <= string_bits 8 2 None c.
Proof.
  intros RC SZ FO E. apply filled_span in E as (o & E & ->). unfold encode_octetstring in E.
  rewrite octets_bits_ok in E by exact FO. cbn [bind] in E. rewrite octets_of_obits in E. cbv zeta in E.
  set (b := obits bs) in *. set (n := zlen bs) in *.
  assert (LB : zlen b = 8 * n) by (unfold b, n, zlen; rewrite obits_length; lia).
  assert (N : 0 <= n) by (unfold n, zlen; lia).
  assert (AF : forall e o, (forall h, chi c = Some h -> n <= h) ->
      (forall l h, clo c = Some l -> chi c = Some h -> l <= n) ->
      (if opt_is (chi c) 0 then Ok None
       else if some_eq (clo c) (chi c) then
         if n <=? 2 then Ok (Some (opt_field e ++ [F false b]))
         else if (2 <? n) && (n <? 65536) then Ok (Some (opt_field e ++ [F true b]))
         else Err RaiseNotImplemented
       else if truthy (chi c) then
         let* det := length_constrained n (clo c) (chi c) in Ok (Some (opt_field e ++ det ++ [F true b]))
       else let* det := length_unconstrained n in Ok (Some (opt_field e ++ det ++ [F true b]))) = Ok o ->
      match o with Some l => span l | None => 0 end
      <= match e with Some f => span1 f | None => 0 end + string_root 8 2 None c).
  { clear E o. intros e o UH LN E.
    assert (EP : 0 <= match e with Some f => span1 f | None => 0 end).
    { destruct e as [f|]; [|lia]. unfold span1, zlen. destruct (falign f); lia. }
    pose proof (string_root_pos 8 2 None c ltac:(lia)) as RP.
    destruct (opt_is (chi c) 0) eqn:O0; [apply ok_inj in E; subst o; lia|].
    destruct (some_eq (clo c) (chi c)) eqn:SE.
    - apply some_eq_inv in SE as (l & L & U). rewrite U in *. rewrite L in *. unfold string_root in *. rewrite L, U in *.
      cbn [opt_is] in O0. assert (l <> 0) by lia. specialize (UH l eq_refl). specialize (LN l l eq_refl eq_refl).
      destruct l as [|l|l]; [lia| |lia]. rewrite Z.eqb_refl in *.
      assert (n = Z.pos l) by lia.
      destruct (Z.leb_spec n 2); [|destruct ((2 <? n) && (n <? 65536)); [|discriminate]];
        apply ok_inj in E; subst o; rewrite span_app, opt_span.
      + replace (Z.pos l <=? 2) with true by lia. rewrite span_na. lia.
      + replace (Z.pos l <=? 2) with false by lia. rewrite span_al. lia.
    - destruct (truthy (chi c)) eqn:T.
      + destruct (length_constrained n (clo c) (chi c)) as [d|] eqn:Ed; [|discriminate]. cbn [bind] in E. apply ok_inj in E. subst o.
        destruct (chi c) as [h|] eqn:U; [|discriminate]. cbn [opt_is] in O0. specialize (UH h eq_refl).
        apply lc_span in Ed as (l & h' & L & [= <-] & Sd); [|intros l' h' L' [= <-]; specialize (LN l' h L' eq_refl); lia].
        rewrite !span_app, opt_span, span_al. unfold string_root. rewrite L, U.
        destruct h as [|h|h]; [lia| |lia]. destruct (Z.eqb_spec l (Z.pos h)) as [->|]; [rewrite L in SE; cbn [some_eq] in SE; lia|].
        lia.
      + destruct (length_unconstrained n) as [d|] eqn:Ed; [|discriminate]. cbn [bind] in E. apply ok_inj in E. subst o.
        destruct (free_span n 8 b d N LB ltac:(lia) Ed) as (S1 & S2).
        rewrite !span_app, opt_span, span_al. unfold string_root.
        destruct (chi c) as [h|] eqn:U; [|destruct (clo c); lia]. cbn [opt_is truthy] in *. lia. }
  unfold string_bits. destruct (cext c) eqn:X.
  - destruct (chain_le (clo c) n (chi c)) as [r|] eqn:Er; [|discriminate]. cbn [bind] in E. destruct r.
    + apply chain_true in Er as (l & h & L & U & V). apply AF in E.
      * change (span1 (F false [false])) with 1 in E. lia.
      * intros h' Hh. rewrite U in Hh. injection Hh as <-. lia.
      * intros l' h' L' U'. rewrite L in L'. injection L' as <-. lia.
    + destruct (length_unconstrained n) as [d|] eqn:Ed; [|discriminate]. cbn [bind] in E. apply ok_inj in E. subst o.
      destruct (free_span n 8 b d N LB ltac:(lia) Ed) as (S1 & S2).
      rewrite span_cons, span_app, span_na. change (span1 (F false [true])) with 1. lia.
  - apply ctest_sat in SZ. destruct (regular_ends c _ RC SZ X) as (A & B). fold n in A, B.
    apply AF in E; [lia| |].
    + intros h U. rewrite U in B. exact B.
    + intros l h L U. rewrite L in A. exact A.
Qed.

(** * Constructed types *)

Lemma open_span fs o e : reach (span fs) e -> encode_open_type_field fs = Ok o -> reach (span o) (open_bits e).
Proof.
  intros R E. unfold encode_open_type_field in E. cbv zeta in E. set (s := produce_complete_encoding fs) in *.
  destruct (length_unconstrained (octets_of s)) as [d|] eqn:Ed; [|discriminate]. cbn [bind] in E. apply ok_inj in E. subst o.
  apply lu_span in Ed as (L & Sd); [|unfold octets_of; lia]. rewrite span_app, span_al.
  assert (LS : zlen s = 8 * octets_of s).
  { unfold zlen, octets_of, s. pose proof (produce_mod8 fs). lia. }
  pose proof (span_produce fs) as SP. fold s in SP. fold (octets_of s) in SP.
  unfold open_bits. destruct e as [m|]; cbn [reach] in *.
  - set (k := Z.min 16384 (Z.max 1 ((m + 7) / 8))). assert (octets_of s <= k) by (unfold k; lia).
    pose proof (length_mono (octets_of s) k ltac:(lia)). lia.
  - pose proof (length_mono (octets_of s) 16384 ltac:(lia)). lia.
Qed.

Lemma open_pos e : reach 0 (open_bits e).
Proof.
  unfold open_bits. destruct e as [n|]; cbn [reach]; [cbv zeta|].
  - match goal with |- 0 <= length_of ?k + _ => pose proof (length_pos k) end. lia.
  - pose proof (length_pos 16384). lia.
Qed.

Lemma number_pos r : 0 <= number_of r.
Proof.
  unfold number_of. destruct (r <=? 65536); [apply one_of_pos|].
  pose proof (one_of_pos (Z.max 3 (octets (r - 1)))). pose proof (octets_pos (r - 1)). lia.
Qed.

Lemma small_pos r : 0 <= small_of r.
Proof.
  unfold small_of. destruct (r <=? 64); [lia|]. pose proof (length_pos (octets (r - 1))). pose proof (octets_pos (r - 1)). lia.
Qed.

Lemma zlen_nonneg {A} (l : list A) : 0 <= zlen l.
Proof. unfold zlen. lia. Qed.

Lemma largest_pos l : reach 0 (largest l).
Proof. induction l as [|x l IH]; cbn [largest fold_right]; [cbn; lia|]. now apply reach_larger_r. Qed.

Lemma plus_pos x y : reach 0 x -> reach 0 y -> reach 0 (plus x y).
Proof. apply (reach_plus 0 0). Qed.

Lemma sum_pos {A} (f : A -> option Z) l : Forall (fun x => reach 0 (f x)) l -> reach 0 (sum (map f l)).
Proof. intros H. apply reach_sum_pos. now apply Forall_map. Qed.

Lemma bitmap_pos cs : 0 <= bitmap cs.
Proof. apply zlen_nonneg. Qed.

Lemma times_pos n e : 0 <= n -> reach 0 e -> reach 0 (times n e).
Proof. destruct e; cbn [times option_map reach]; auto. nia. Qed.

Lemma list_pos c e : reach 0 e -> reach 0 (list_bits c e).
Proof.
  intros P. pose proof (length_pos 16384) as Q. set (L := length_of 16384) in *.
  assert (FR : reach 0 (plus (Some L) (times 16384 e))) by (apply plus_pos; [cbn [reach]; lia|apply times_pos; [lia|exact P]]).
  unfold list_bits. cbv zeta. fold L. destruct (cext c).
  - apply plus_pos; [cbn; lia|]. destruct (clo c) as [l|]; [|exact FR]. destruct (chi c) as [h|]; [|exact FR]. now apply reach_larger_r.
  - destruct (clo c) as [l|]; [|cbn; lia]. destruct (chi c) as [h|]; [|exact FR].
    pose proof (one_of_pos (h - l + 1)).
    destruct (h =? 0); [destruct (l =? 0); [exact Logic.I|exact FR]|].
    destruct (_ && _); [apply times_pos; [lia|exact P]|]. apply plus_pos; [exact H|apply times_pos; [lia|exact P]].
Qed.

Lemma marks_pos a g : 0 <= marks a g.
Proof. unfold marks. pose proof (zlen_nonneg a). pose proof (zlen_nonneg g). destruct (_ && _); lia. Qed.

Theorem longest_pos t : reach 0 (longest t).
Proof.
  induction t using ty_rect'; cbn [longest].
  - cbn; lia.
  - unfold integer_bits. pose proof (length_pos 16384).
    destruct (cext c), (clo c) as [l|], (chi c) as [h|]; cbn [reach]; auto; try lia. apply number_pos.
  - unfold item_bits. pose proof (number_pos (zlen r)). pose proof (number_pos (zlen (r ++ a))).
    destruct e; (destruct (forallb _ _); cbn [reach]; [lia|exact Logic.I]).
  - unfold string_bits. pose proof (string_root_pos 1 16 (Some 65536) c ltac:(lia)). destruct (cext c); cbn [reach]; lia.
  - unfold string_bits. pose proof (string_root_pos 8 2 None c ltac:(lia)). destruct (cext c); cbn [reach]; lia.
  - assert (FR : reach 0 (plus (Some (bitmap r)) (sum (map (fun c => longest (cty c)) r)))).
    { apply plus_pos; [apply bitmap_pos|]. now apply sum_pos. }
    destruct e; [|exact FR]. pose proof (marks_pos a g).
    apply plus_pos; [cbn [reach]; lia|]. apply plus_pos; [exact FR|].
    apply plus_pos; apply sum_pos; apply Forall_forall; intros x _; apply open_pos.
  - now apply list_pos.
  - assert (FR : forall l, reach 0 (plus (Some (number_of (zlen r))) (largest l))).
    { intros l. apply plus_pos; [apply number_pos|]. apply largest_pos. }
    destruct e; [|apply FR]. apply plus_pos; [cbn; lia|]. apply reach_larger_l, FR.
Qed.

Lemma list_span c t vs fs : ordered c -> (forall v fs, In v vs -> enc t v = Ok fs -> reach (span fs) (longest t)) ->
  enc (TSeqOf c t) (VSeqOf vs) = Ok fs -> reach (span fs) (list_bits c (longest t)).
Proof.
  intros OC H E. cbn [enc] in E. destruct (enc_list (enc t) vs) as [body|] eqn:Eb; [|discriminate]. cbn [bind] in E.
  pose proof (longest_pos t) as LP. set (e := longest t) in *. clearbody e.
  assert (SB : reach (span body) (times (zlen vs) e)).
  { clear E. revert body Eb. induction vs as [|v vs IH]; intros body Eb; cbn [enc_list] in Eb.
    - apply ok_inj in Eb. subst body. destruct e; cbn; lia.
    - destruct (enc t v) as [x|] eqn:Ex; [|discriminate]. cbn [bind] in Eb. destruct (enc_list (enc t) vs) as [y|]; [|discriminate].
      cbn [bind] in Eb. apply ok_inj in Eb. subst body. specialize (H v x (or_introl eq_refl) Ex) as Hx.
      specialize (IH (fun w f I => H w f (or_intror I)) y eq_refl). rewrite span_app.
      destruct e as [m|]; cbn [times option_map reach] in *; [|exact Logic.I].
      unfold zlen in *. cbn [List.length]. lia. }
  pose proof (zlen_nonneg vs) as NV. set (n := zlen vs) in *. clearbody n. clear H Eb.
  assert (MO : forall m, n <= m -> reach (span body) (times m e)).
  { intros m L. destruct e as [k|]; cbn [times option_map reach] in *; [nia|exact Logic.I]. }
  unfold encode_sequence_of in E. unfold list_bits. cbv zeta.
  assert (FR : forall d fs, length_unconstrained n = Ok d -> fs = d ++ body -> reach (span fs) (plus (Some (length_of 16384)) (times 16384 e))).
  { clear E fs. intros d fs Ed ->. apply lu_span in Ed as (L & Sd); [|exact NV]. pose proof (length_mono _ _ L). rewrite span_app.
    apply reach_plus; [cbn [reach]; lia|now apply MO]. }
  destruct (cext c) eqn:X.
  - destruct (chain_le (clo c) n (chi c)) as [r|] eqn:Er; [|discriminate]. cbn [bind] in E. destruct r.
    + apply chain_true in Er as (l & h & L & U & V).
      destruct (length_constrained n (clo c) (chi c)) as [d|] eqn:Ed; [|discriminate]. cbn [bind] in E. apply ok_inj in E. subst fs.
      rewrite L, U in *. apply lc_span in Ed as (l' & h' & [= <-] & [= <-] & Sd); [|intros l' h' [= <-] [= <-]; lia].
      rewrite span_cons, span_app. change (span1 (F false [false])) with 1.
      apply reach_plus; [cbn; lia|]. apply reach_larger_l. apply reach_plus; [exact Sd|apply MO; lia].
    + destruct (length_unconstrained n) as [d|] eqn:Ed; [|discriminate]. cbn [bind] in E. apply ok_inj in E. subst fs.
      rewrite span_cons. change (span1 (F false [true])) with 1. apply reach_plus; [cbn; lia|].
      specialize (FR d _ eq_refl eq_refl). destruct (clo c); [|exact FR]. destruct (chi c); [|exact FR]. now apply reach_larger_r.
  - destruct (clo c) as [l|] eqn:Lc; [|discriminate]. cbn [need bind] in E.
    destruct (Z.ltb_spec n l); [discriminate|].
    destruct (chi c) as [h|] eqn:Uc.
    + cbn [truthy le_opt_r opt_is] in E. specialize (OC l h Lc Uc).
      destruct (Z.eqb_spec h 0) as [->|].
      * destruct (Z.eqb_spec l 0); [exact Logic.I|]. cbn [negb andb] in E. replace (0 =? l) with false in E by lia. cbn [andb] in E.
        destruct (length_unconstrained n) as [d|] eqn:Ed; [|discriminate]. cbn [bind] in E. apply ok_inj in E. now apply (FR d).
      * cbn [negb andb] in E. destruct (Z.leb_spec n h); [|discriminate]. cbn [negb] in E.
        destruct ((h =? l) && (l <? 65536)); [apply ok_inj in E; subst fs; apply MO; lia|].
        destruct (length_constrained n (Some l) (Some h)) as [d|] eqn:Ed; [|discriminate]. cbn [bind] in E. apply ok_inj in E. subst fs.
        apply lc_span in Ed as (l' & h' & [= <-] & [= <-] & Sd); [|intros l' h' [= <-] [= <-]; lia].
        rewrite span_app. apply reach_plus; [exact Sd|apply MO; lia].
    + cbn [truthy le_opt_r opt_is andb] in E.
      destruct (length_unconstrained n) as [d|] eqn:Ed; [|discriminate]. cbn [bind] in E. apply ok_inj in E. now apply (FR d).
Qed.

Section Seq.
  Variable look : string -> res val.

  (** What is found under a component's name is an object of its type, and those are in reach. *)
  Definition held (c : comp ty) : Prop :=
    forall v, look (cname c) = Ok v -> forall fs, enc (cty c) v = Ok fs -> reach (span fs) (longest (cty c)).

  Lemma root_span cs r : Forall held cs -> enc_root enc look cs = Ok r ->
    zlen (fst r) = bitmap cs /\ reach (span (snd r)) (sum (map (fun c => longest (cty c)) cs)).
  Proof.
    intros FH. revert r. induction FH as [|c cs Hc H IH]; intros r E; cbn [enc_root] in E.
    - apply ok_inj in E. subst r. cbn. split; [reflexivity|lia].
    - destruct (look (cname c)) as [v|] eqn:Lv; [|discriminate]. cbn [bind] in E.
      match type of E with bind ?x _ = _ => destruct x as [bf|] eqn:Eb; [|discriminate] end. cbn [bind] in E.
      destruct (enc_root enc look cs) as [q|]; [|discriminate]. cbn [bind] in E. apply ok_inj in E. subst r. cbn [fst snd].
      destruct (IH q eq_refl) as (I1 & I2). specialize (Hc v Lv). pose proof (longest_pos (cty c)) as LP.
      assert (Q : zlen (fst bf) = (if is_mandatory c then 0 else 1) /\ reach (span (snd bf)) (longest (cty c))).
      { unfold is_mandatory. destruct (cpres c) as [| |d].
        - destruct (enc (cty c) v) as [x|]; [|discriminate]. cbn [bind] in Eb. apply ok_inj in Eb. subst bf. cbn [fst snd].
          split; [reflexivity|now apply Hc].
        - destruct (is_value (cty c) v && comp_values_ok v); [|apply ok_inj in Eb; subst bf; split; [reflexivity|exact LP]].
          destruct (enc (cty c) v) as [x|]; [|discriminate]. cbn [bind] in Eb. apply ok_inj in Eb. subst bf. cbn [fst snd].
          split; [reflexivity|now apply Hc].
        - destruct (raw_ne d v) as [ne|]; [|discriminate]. cbn [bind] in Eb.
          destruct ne; [|apply ok_inj in Eb; subst bf; split; [reflexivity|exact LP]].
          destruct (enc (cty c) v) as [x|]; [|discriminate]. cbn [bind] in Eb. apply ok_inj in Eb. subst bf. cbn [fst snd].
          split; [reflexivity|now apply Hc]. }
      destruct Q as (Q1 & Q2). split.
      + unfold bitmap in *. cbn [filter]. unfold zlen in *. rewrite app_length. destruct (is_mandatory c); cbn [negb List.length]; lia.
      + rewrite span_app. cbn [map sum fold_right]. now apply reach_plus.
  Qed.

  Lemma root_fields_span cs r fs : Forall held cs -> enc_root enc look cs = Ok r -> root_fields r = Ok fs ->
    reach (span fs) (plus (Some (bitmap cs)) (sum (map (fun c => longest (cty c)) cs))).
  Proof.
    intros FH Er E. apply root_span in Er as (R1 & R2); [|exact FH]. unfold root_fields in E.
    destruct (fst r) as [|b l] eqn:Eb.
    - apply ok_inj in E. subst fs. apply (reach_plus 0 (span (snd r))); [apply bitmap_pos|exact R2].
    - destruct (_ <? _); [|discriminate]. apply ok_inj in E. subst fs. rewrite span_cons. apply reach_plus; [|exact R2].
      cbn [reach]. unfold span1. cbn [falign fbits]. lia.
  Qed.

  Lemma adds_span cs : Forall held cs -> forall prev r, enc_adds enc look prev cs = Ok r ->
    zlen (fst r) = zlen cs /\ reach (span (snd r)) (sum (map (fun c => open_bits (longest (cty c))) cs)).
  Proof.
    induction 1 as [|c cs Hc H IH]; intros prev r E; cbn [enc_adds] in E.
    - apply ok_inj in E. subst r. cbn. split; [reflexivity|lia].
    - destruct (look (cname c)) as [v|] eqn:Lv; [|discriminate]. cbn [bind] in E.
      match type of E with bind ?x _ = _ => destruct x as [bf|] eqn:Eb; [|discriminate] end. cbn [bind] in E.
      match type of E with bind ?x _ = _ => destruct x as [q|] eqn:Eq; [|discriminate] end. cbn [bind] in E. apply ok_inj in E. subst r.
      cbn [fst snd]. destruct (IH _ q Eq) as (I1 & I2). specialize (Hc v Lv). split.
      + unfold zlen in *. cbn [List.length]. lia.
      + rewrite span_app. cbn [map sum fold_right]. apply reach_plus; [|exact I2].
        pose proof (open_pos (longest (cty c))) as OP.
        destruct (is_value (cty c) v); [|apply ok_inj in Eb; subst bf; exact OP]. destruct (prev_missing prev); [discriminate|].
        destruct (comp_values_ok v); [|apply ok_inj in Eb; subst bf; exact OP].
        destruct (enc (cty c) v) as [x|]; [|discriminate]. cbn [bind] in Eb.
        destruct (encode_open_type_field x) as [o|] eqn:Eo; [|discriminate]. cbn [bind] in Eb. apply ok_inj in Eb. subst bf. cbn [snd].
        eapply open_span; [now apply Hc|exact Eo].
  Qed.

  Lemma groups_span gs : Forall (Forall held) gs -> forall prev r, enc_groups enc look prev gs = Ok r ->
    zlen (fst r) = zlen gs /\
    reach (span (snd r)) (sum (map (fun g => open_bits (plus (Some (bitmap g)) (sum (map (fun c => longest (cty c)) g)))) gs)).
  Proof.
    induction 1 as [|g gs Hg H IH]; intros prev r E; cbn [enc_groups] in E.
    - apply ok_inj in E. subst r. cbn. split; [reflexivity|lia].
    - destruct (group_scan look None g) as [ps|]; [|discriminate]. cbn [bind] in E.
      match type of E with bind ?x _ = _ => destruct x as [bf|] eqn:Eb; [|discriminate] end. cbn [bind] in E.
      match type of E with bind ?x _ = _ => destruct x as [q|] eqn:Eq; [|discriminate] end. cbn [bind] in E. apply ok_inj in E. subst r.
      cbn [fst snd]. destruct (IH _ q Eq) as (I1 & I2). split.
      + unfold zlen in *. cbn [List.length]. lia.
      + rewrite span_app. cbn [map sum fold_right]. apply reach_plus; [|exact I2].
        destruct (existsb ppresent ps); [|apply ok_inj in Eb; subst bf; apply open_pos].
        match type of Eb with bind ?x _ = _ => destruct x as [u|]; [|discriminate] end. cbn [bind] in Eb.
        destruct (enc_root enc look g) as [w|] eqn:Ew; [|discriminate]. cbn [bind] in Eb.
        destruct (root_fields w) as [x|] eqn:Ex; [|discriminate]. cbn [bind] in Eb.
        destruct (encode_open_type_field x) as [o|] eqn:Eo; [|discriminate]. cbn [bind] in Eb. apply ok_inj in Eb. subst bf. cbn [snd].
        eapply open_span; [|exact Eo]. eapply root_fields_span; eauto.
  Qed.
End Seq.

Theorem longest_holds t : sane t -> forall v fs, made t v -> enc t v = Ok fs -> reach (span fs) (longest t).
Proof.
  induction t using ty_rect'; intros SA v fs M E; cbn [enc] in E.
  - inversion M; subst; [discriminate|]. apply ok_inj in E. subst fs. cbn. lia.
  - cbn [sane] in SA. inversion M; subst; [discriminate|]. now apply (integer_span c z).
  - cbn [sane] in SA. inversion M; subst; [discriminate|]. now apply (enum_span e r a z).
  - cbn [sane] in SA. inversion M; subst; [discriminate|]. now apply (bits_span c s).
  - cbn [sane] in SA. inversion M; subst; [discriminate|]. now apply (octs_span c bs).
  - cbn [sane] in SA. destruct SA as (N & NG & DM & SR & SA & SG).
    rewrite all_of_forall in SR, SA. rewrite all_of_groups in SG.
    assert (exists slots, v = VSeq slots) as (slots & ->) by (inversion M; subst; [discriminate|eauto|eauto]).
    unfold encode_sequence in E. cbv zeta in E. set (look := get_by_name (all_comps r a g) slots) in *.
    assert (FI : Forall (held look) (r ++ a ++ List.concat g)).
    { assert (HH : Forall (fun c => sane (cty c) -> forall v fs, made (cty c) v -> enc (cty c) v = Ok fs -> reach (span fs) (longest (cty c)))
        (r ++ a ++ List.concat g)) by (rewrite !Forall_app, forall_concat; auto).
      assert (SN : Forall (fun c => sane (cty c)) (r ++ a ++ List.concat g)) by (rewrite !Forall_app; auto).
      apply Forall_forall. intros c I w Lw. rewrite Forall_forall in HH, SN. intros fs' Ef. apply (HH c I (SN c I) w fs'); [|exact Ef].
      destruct (made_look r a g e slots c N DM M I) as (w' & Lw' & Mw). fold look in Lw'. congruence. }
    rewrite !Forall_app, forall_concat in FI. destruct FI as (FR & FA & FG). cbn [longest].
    destruct (enc_root enc look r) as [x|] eqn:Ex; [|discriminate]. cbn [bind] in E.
    destruct (root_fields x) as [rf|] eqn:Erf; [|discriminate]. cbn [bind] in E.
    pose proof (root_fields_span look r x rf FR Ex Erf) as RF.
    destruct e; [|apply ok_inj in E; subst fs; exact RF].
    pose proof (marks_pos a g).
    assert (OA : reach 0 (sum (map (fun c => open_bits (longest (cty c))) a))).
    { apply sum_pos, Forall_forall. intros y _. apply open_pos. }
    assert (OG : reach 0 (sum (map (fun g => open_bits (plus (Some (bitmap g)) (sum (map (fun c => longest (cty c)) g)))) g))).
    { apply sum_pos, Forall_forall. intros y _. apply open_pos. }
    assert (PL : forall fs', fs' = F false [false] :: rf -> reach (span fs') (plus (Some (1 + marks a g))
          (plus (plus (Some (bitmap r)) (sum (map (fun c => longest (cty c)) r)))
             (plus (sum (map (fun c => open_bits (longest (cty c))) a))
                   (sum (map (fun g => open_bits (plus (Some (bitmap g)) (sum (map (fun c => longest (cty c)) g)))) g)))))).
    { intros fs' ->. rewrite span_cons. change (span1 (F false [false])) with 1. apply reach_plus; [cbn [reach]; lia|].
      rewrite <- (Z.add_0_r (span rf)). apply reach_plus; [exact RF|]. now apply plus_pos. }
    destruct (isnil a && isnil g) eqn:NI; [apply ok_inj in E; now apply PL|].
    destruct (enc_adds enc look None a) as [y|] eqn:Ey; [|discriminate]. cbn [bind] in E.
    destruct (enc_groups enc look None g) as [z|] eqn:Ez; [|discriminate]. cbn [bind] in E.
    destruct (0 <? bval (fst y ++ fst z)); [|apply ok_inj in E; now apply PL].
    destruct (length_normally_small (zlen (fst y ++ fst z))) as [d|] eqn:Ed; [|discriminate]. cbn [bind] in E. apply ok_inj in E. subst fs.
    destruct (adds_span look a FA None y Ey) as (Y1 & Y2). destruct (groups_span look g FG None z Ez) as (Z1 & Z2).
    assert (SD : span d <= 7).
    { unfold length_normally_small in Ed. destruct (Z.leb_spec (zlen (fst y ++ fst z)) 64) as [L|]; [|discriminate].
      unfold encode_non_negative_sized, py_format_b in Ed.
      change (fst (0, 6)%nat * 8 + snd (0, 6)%nat)%nat with 6%nat in Ed.
      destruct (py_bin (zlen (fst y ++ fst z) - 1)) as [s|] eqn:Eb; [|discriminate]. cbn [bind] in Ed. apply ok_inj in Ed. subst d.
      apply py_bin_inv in Eb as (P & ->). rewrite zfill_to_bits by (change (2 ^ Z.of_nat 6) with 64; lia).
      rewrite span_cons, span_na. unfold zlen. rewrite to_bits_length. cbn. lia. }
    rewrite span_cons, span_app, span_app, span_cons, span_app. change (span1 (F false [true])) with 1.
    assert (SB : span1 (F false (fst y ++ fst z)) = zlen a + zlen g).
    { unfold span1. cbn [falign fbits]. unfold zlen in *. rewrite app_length. lia. }
    assert (MK : marks a g = 7 + zlen a + zlen g) by (unfold marks; now rewrite NI).
    eapply (reach_trans _ (1 + marks a g + (span rf + (span (snd y) + span (snd z))))); [lia|].
    apply reach_plus; [cbn [reach]; lia|]. apply reach_plus; [exact RF|]. now apply reach_plus.
  - cbn [sane] in SA. destruct SA as (OC & SA). inversion M; subst; [discriminate|].
    cbn [longest]. apply (list_span c t vs fs OC); [|exact E]. intros v fs' I Ef. apply (IHt SA v fs'); auto.
  - cbn [sane] in SA. destruct SA as (NR & N & SR & SA & SG).
    rewrite all_of_forall in SR, SA. rewrite all_of_groups in SG.
    inversion M as [| | | | | | | | | |? ? ? ? i c w C Mw]; subst; [discriminate|discriminate|].
    rewrite choice_comps, <- map_app, nth_error_map, C in E. cbn [option_map] in E.
    destruct (enc (cty c) w) as [body|] eqn:Eb; [|discriminate]. cbn [bind] in E.
    assert (HB : reach (span body) (longest (cty c))).
    { assert (HH : Forall (fun c => sane (cty c) -> forall v fs, made (cty c) v -> enc (cty c) v = Ok fs -> reach (span fs) (longest (cty c)))
        (r ++ a ++ List.concat g)) by (rewrite !Forall_app, forall_concat; auto).
      assert (SN : Forall (fun c => sane (cty c)) (r ++ a ++ List.concat g)) by (rewrite !Forall_app; auto).
      rewrite Forall_forall in HH, SN. apply nth_error_In in C. now apply (HH c C (SN c C) w body). }
    apply filled_span in E as (o & E & ->). unfold encode_choice in E. cbv zeta in E.
    pose proof (Faults.zlen_pos r NR) as LP. pose proof (longest_pos (TChoice e r a g)) as LG. cbn [longest] in LG |- *.
    assert (IR : forall k, index_of (cname c) r = Some k -> In c r /\ (k < List.length r)%nat).
    { intros k K. destruct (index_of_name (cname c) r k K) as (c' & K1 & K2). split; [|apply nth_error_Some; congruence].
      assert (c' = c) as <-; [|now apply nth_error_In in K1].
      apply (NoDup_name_eq _ c' c N); [apply in_app_iff; left; now apply nth_error_In in K1|now apply nth_error_In in C|exact K2]. }
    assert (IX : forall k x, (k < List.length r)%nat ->
      create_field_list_for_constrained_whole_number (Z.of_nat k) (Some 0) (Some (zlen r - 1)) = Ok x -> span x <= number_of (zlen r)).
    { intros k x L Ex. apply cfl_span in Ex; [|unfold zlen in *; lia]. replace (zlen r - 1 - 0 + 1) with (zlen r) in Ex by lia. exact Ex. }
    assert (BR : In c r -> reach (span body) (largest (map (fun c => longest (cty c)) r))).
    { intros I. apply (reach_largest _ (longest (cty c))); [|exact HB]. now apply in_map with (f := fun c => longest (cty c)). }
    destruct e; cbn [negb] in E.
    + destruct (index_of (cname c) r) as [k|] eqn:K.
      * destruct (IR k eq_refl) as (I & L). specialize (BR I). pose proof (number_pos (zlen r)).
        destruct (Nat.eqb _ 1).
        { apply ok_inj in E. subst o. rewrite span_cons. change (span1 (F false [false])) with 1.
          apply reach_plus; [cbn; lia|]. apply reach_larger_l. apply (reach_plus 0 (span body)); [exact H2|exact BR]. }
        destruct (create_field_list_for_constrained_whole_number _ _ _) as [x|] eqn:Ex; [|discriminate]. cbn [bind] in E. apply ok_inj in E.
        subst o. rewrite span_cons, span_app. change (span1 (F false [false])) with 1.
        apply reach_plus; [cbn; lia|]. apply reach_larger_l. apply reach_plus; [now apply (IX k)|exact BR].
      * destruct (isnil a && isnil g); [discriminate|].
        destruct (index_of (cname c) (a ++ List.concat g)) as [k|] eqn:K2; [|apply ok_inj in E; subst o; exact LG].
        destruct (encode_normally_small (Z.of_nat k) 0) as [x|] eqn:Ex; [|discriminate]. cbn [bind] in E.
        destruct (encode_open_type_field body) as [y|] eqn:Ey; [|discriminate]. cbn [bind] in E. apply ok_inj in E. subst o.
        rewrite span_cons, span_app. change (span1 (F false [true])) with 1.
        destruct (index_of_name _ _ _ K2) as (c' & K3 & K4).
        assert (c' = c) as ->.
        { apply (NoDup_name_eq _ c' c N); [apply in_app_iff; right; now apply nth_error_In in K3|now apply nth_error_In in C|exact K4]. }
        apply reach_plus; [cbn; lia|]. apply reach_larger_r. apply reach_plus.
        { cbn [reach]. apply (ns_span (Z.of_nat k)); [|exact Ex]. assert (k < List.length (a ++ List.concat g))%nat by (apply nth_error_Some; congruence).
          unfold zlen. lia. }
        apply (reach_largest _ (open_bits (longest (cty c)))); [|now apply (open_span body)].
        rewrite <- concat_map, <- map_app. apply nth_error_In in K3. now apply in_map with (f := fun c => open_bits (longest (cty c))).
    + pose proof (number_pos (zlen r)).
      assert (BA : reach (span body) (largest (map (fun c => longest (cty c)) r ++ map (fun c => longest (cty c)) a
                       ++ List.concat (map (map (fun c => longest (cty c))) g)))).
      { apply (reach_largest _ (longest (cty c))); [|exact HB]. rewrite <- concat_map, <- !map_app.
        apply nth_error_In in C. now apply in_map with (f := fun c => longest (cty c)). }
      destruct (Nat.eqb_spec (List.length r) 1) as [L1|_].
      { apply ok_inj in E. subst o. apply (reach_plus 0 (span body)); [exact H2|exact BA]. }
      destruct (index_of (cname c) r) as [k|] eqn:K; [|apply ok_inj in E; subst o; exact LG].
      destruct (IR k eq_refl) as (I & L).
      destruct (create_field_list_for_constrained_whole_number _ _ _) as [x|] eqn:Ex; [|discriminate]. cbn [bind] in E. apply ok_inj in E.
      subst o. rewrite span_app. apply reach_plus; [now apply (IX k)|exact BA].
Qed.

(** * C67 *)

(** No message of the type is longer, whatever its values. *)
Theorem C67_longest : forall t v bs n,
  sane t -> made t v -> longest_message t = Some n -> encode t v = Ok bs -> zlen bs <= n.
Proof.
  intros t v bs n SA M L E. destruct (encode_inv t v bs E) as (fs & Ef & -> & O & _).
  pose proof (longest_holds t SA v fs M Ef) as R. unfold longest_message in L.
  destruct (longest t) as [m|]; [|discriminate]. cbn [option_map reach] in *. injection L as <-.
  pose proof (span_produce fs) as P. pose proof (obits_length (octs_of (produce_complete_encoding fs))) as OL. rewrite O in OL.
  unfold zlen. lia.
Qed.

(** An INTEGER has no limit exactly when [integer_bits] says so: it has no lower end, or
    it is extensible (and has a lower end: without one, encode raises TypeError). *)
Lemma unc_long z : exists s, create_field_list_for_unconstrained_whole_number z = Ok [F true s] /\ (8 * toct z <= List.length s)%nat.
Proof.
  unfold create_field_list_for_unconstrained_whole_number. rewrite twos_octet_ok. cbn [bind].
  rewrite twos_ok by (try apply toct_le; auto using toct_pos). cbn [bind]. unfold py_format_b.
  rewrite py_bin_ok by lia. cbn [bind]. eexists. split; [reflexivity|]. rewrite app_length, to_bits_length. lia.
Qed.

Lemma render_long fs s pos : In (F true s) fs -> (List.length s <= List.length (render pos fs))%nat.
Proof.
  revert pos. induction fs as [|f fs IH]; intros pos I; [destruct I|]. cbn [render]. rewrite !app_length. destruct I as [->|I].
  - cbn [fbits]. lia.
  - specialize (IH (fpos (falign f) pos + List.length (fbits f))%nat I). lia.
Qed.

Lemma message_long t v fs s : enc t v = Ok fs -> In (F true s) fs ->
  exists bs, encode t v = Ok bs /\ Z.of_nat (List.length s) <= 8 * zlen bs.
Proof.
  intros E I. rewrite encode_spec, E. eexists. split; [reflexivity|]. pose proof (render_long fs s 0 I) as R.
  destruct (produce_spec fs) as (k & P & _).
  pose proof (octs_of_obits (produce_complete_encoding fs) (produce_mod8 fs)) as Q. apply (f_equal (@List.length bool)) in Q.
  rewrite obits_length, P, app_length in Q. unfold zlen. rewrite P. lia.
Qed.

Theorem C67_integer_exact : forall e lo hi,
  (forall l h, lo = Some l -> hi = Some h -> l <= h) ->
  let t := TInt (CRange e lo hi) in
  longest_message t = None <->
  forall n, exists z bs, sat (CRange e lo hi) z /\ encode t (VInt z) = Ok bs /\ n < zlen bs.
Proof.
  intros e lo hi OR t. split.
  - intros L n. unfold longest_message in L. unfold t in L. cbn [longest integer_bits cext clo chi] in L.
    assert (NL : e = true /\ lo <> None \/ e = false /\ lo = None).
    { destruct e, lo as [l|]; [left; split; [reflexivity|discriminate]|discriminate L|destruct hi; discriminate L|now right]. }
    set (m := Z.max 1 n). set (p := 2 ^ (m * 8 - 1)). assert (P : 0 < p) by (apply Z.pow_pos_nonneg; lia).
    set (z := Z.min (- p) (Z.min (match lo with Some l => l | None => 0 end) (match hi with Some h => h | None => 0 end)) - 1).
    assert (LT : n < Z.of_nat (toct z)).
    { destruct (Z.lt_ge_cases n (Z.of_nat (toct z))) as [?|G]; [assumption|exfalso].
      assert (Q : (toct z <= Z.to_nat m)%nat) by lia. apply toct_le in Q; [|lia].
      replace (Z.of_nat (Z.to_nat m) * 8 - 1) with (m * 8 - 1) in Q by lia. fold p in Q. lia. }
    destruct (unc_long z) as (s & U & SL).
    assert (SZ : sat (CRange e lo hi) z).
    { cbn [sat]. destruct NL as [(-> & _)|(-> & ->)]; [now left|right]. split; [intros l [=]|]. intros h ->. unfold z. lia. }
    assert (EN : exists fs, enc t (VInt z) = Ok fs /\ In (F true s) fs).
    { unfold t. cbn [enc]. unfold encode_integer. cbn [cext clo chi]. destruct NL as [(-> & NL)|(-> & ->)].
      - destruct lo as [l|]; [|congruence]. unfold chain_le. cbn [need bind]. replace (l <=? z) with false by (unfold z; lia).
        cbn [bind]. rewrite U. cbn [bind]. eexists. split; [reflexivity|]. right. now left.
      - rewrite U. eexists. split; [reflexivity|]. now left. }
    destruct EN as (fs & EN & I). destruct (message_long t _ fs s EN I) as (bs & B & BL).
    exists z, bs. split; [exact SZ|]. split; [exact B|]. lia.
  - intros U. destruct (longest_message t) as [n|] eqn:L; [exfalso|reflexivity].
    destruct (U n) as (z & bs & SZ & E & LT).
    assert (SA : sane t).
    { unfold t. cbn [sane]. split; [unfold regular; destruct e; [now left|now right]|]. intros l h. exact (OR l h). }
    pose proof (C67_longest t (VInt z) bs n SA (made_int _ _ SZ) L E). lia.
Qed.

(** SIZE(0) lets every list pass (C25), so such a list has no limit either. *)
Theorem C67_zero_size_unlimited : forall n, exists vs bs,
  encode (TSeqOf (CSeqSize false (Some 0) (Some 0)) TBool) (VSeqOf vs) = Ok bs /\ n < zlen bs.
Proof.
  intros n. set (k := Z.to_nat (8 * Z.max 0 n + 8)). set (vs := repeat (VBool true) k).
  assert (E : enc (TSeqOf (CSeqSize false (Some 0) (Some 0)) TBool) (VSeqOf vs) = Ok (repeat (F false [true]) k)).
  { change (enc (TSeqOf (CSeqSize false (Some 0) (Some 0)) TBool) (VSeqOf vs)) with
      (let* body := enc_list (enc TBool) vs in encode_sequence_of (CSeqSize false (Some 0) (Some 0)) (zlen vs) body).
    assert (EL : enc_list (enc TBool) vs = Ok (repeat (F false [true]) k)).
    { unfold vs. clear. induction k as [|k IH]; [reflexivity|]. cbn [repeat enc_list]. rewrite IH. reflexivity. }
    rewrite EL. cbn [bind]. unfold encode_sequence_of. cbn [cext clo chi need bind].
    replace (zlen vs <? 0) with false by (unfold zlen; lia). reflexivity. }
  exists vs. rewrite encode_spec, E. eexists. split; [reflexivity|].
  set (fs := repeat (F false [true]) k) in *.
  pose proof (octs_of_obits (produce_complete_encoding fs) (produce_mod8 fs)) as Q. apply (f_equal (@List.length bool)) in Q.
  destruct (produce_spec fs) as (j & P & _). rewrite obits_length, P, app_length in Q. unfold zlen. rewrite P.
  assert (R : forall pos, List.length (render pos fs) = k).
  { unfold fs. clear. induction k as [|k IH]; intros pos; [reflexivity|]. cbn [repeat render falign fbits fpad fpos].
    rewrite !app_length, IH. reflexivity. }
  rewrite R in Q. unfold k in *. lia.
Qed.

(** A message type with a limit that is reached; an unlimited INTEGER inside an addition
    does not lift it. *)
Definition C67_ty : ty :=
  TSeq true
    [Comp "id" Mand (TInt (CRange false (Some 0) (Some 200))); Comp "on" Opt TBool;
     Comp "steps" Mand (TSeqOf (CSeqSize false (Some 1) (Some 3)) (TInt (CRange false (Some 0) (Some 3))));
     Comp "way" Mand (TChoice false [Comp "up" Mand TBool; Comp "to" Mand (TInt (CRange false (Some (-8)) (Some 7)))] [] [])]
    [] [].
Definition C67_val : val :=
  VSeq (Some [Some (VInt 200); Some (VBool true); Some (VSeqOf [VInt 3; VInt 2; VInt 1]); Some (VChoice (Some (1%nat, VInt 7)))]).
Definition C67_open : ty := TSeq true [Comp "id" Mand TBool] [Comp "late" Opt (TInt CNone)] [].

Example C67_case : sane C67_ty /\ made C67_ty C67_val /\ longest_message C67_ty = Some 3 /\
  encode C67_ty C67_val = Ok [114; 55; 63] /\ longest_message C67_open = Some 16390.
Proof.
  split; [|split; [|vm_compute; repeat split; reflexivity]].
  - unfold C67_ty. cbn [sane]. cbn [map List.concat app cname cty].
    split; [repeat constructor; cbn; intuition discriminate|]. split; [constructor|].
    split; [repeat constructor; cbn; exact Logic.I|].
    split; [|split; intros p []].
    intros p I. cbn in I. destruct I as [<-|[<-|[<-|[<-|[]]]]].
    + split; [now right|]. intros l h [= <-] [= <-]. lia.
    + exact Logic.I.
    + split; [intros l h [= <-] [= <-]; lia|]. split; [now right|]. intros l h [= <-] [= <-]. lia.
    + split; [discriminate|]. split; [repeat constructor; cbn; intuition discriminate|].
      split; [|split; intros p []]. intros p I. cbn in I. destruct I as [<-|[<-|[]]]; [exact Logic.I|].
      split; [now right|]. intros l h [= <-] [= <-]. lia.
  - unfold C67_val. apply made_seq; [reflexivity|]. intros i c v Ci Vi.
    assert (Q : forall lo hi z, lo <= z <= hi -> made (TInt (CRange false (Some lo) (Some hi))) (VInt z)).
    { intros lo hi z B. apply made_int. cbn [sat]. right. split; intros x [= <-]; lia. }
    destruct i as [|[|[|[|i]]]]; cbn in Ci, Vi; try (destruct i; discriminate); injection Ci as <-; injection Vi as <-; cbn [cty].
    + apply Q. lia.
    + apply made_bool.
    + apply made_seqof. intros w [<-|[<-|[<-|[]]]]; apply Q; lia.
    + eapply made_choice; [reflexivity|]. apply Q. lia.
Qed.
