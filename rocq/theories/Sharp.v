(** Exact conditions for C15, C16, C17, C18, C25 and C42. *)
From Coq Require Import ZArith List String Bool Lia Arith.
From Coq Require Import ZifyBool ZifyNat ZifyN.
Import ListNotations.
From Verif Require Import PyBase Schema Encoder BitFacts Stream Prims Spec SimpleTypes.
From Verif Require Import RoundTrip Sequences Layout Constraints X691 Conform Defaults Tight Generator Generation.
Open Scope Z_scope.
Ltac Zify.zify_post_hook ::= Z.to_euclidean_division_equations.

(** * C15 *)

(** The length in front of an INTEGER without bounds is that of X.691 exactly up
    to 127 octets. *)
Theorem C15_exact : forall z,
  (exists det s, enc (TInt CNone) (VInt z) = Ok [F true (det ++ s)] /\
     shortest_signed s z /\ len_layout (Z.of_nat (List.length s / 8)) [F true det]) <->
  - 2 ^ 1015 <= z < 2 ^ 1015.
Proof.
  intros z. split; [|apply C15_unconstrained_partial]. intros (det & s & E & Sh & L).
  pose proof (shortest_signed_fun _ _ _ Sh (toct_shortest z)) as X. subst s.
  rewrite to_bits_length in L. replace (8 * toct z / 8)%nat with (toct z) in L by lia.
  apply len_layout_fun in L as (R & L). cbn [enc] in E. unfold encode_integer in E. cbn [cext clo chi] in E.
  destruct (unc_written z) as (d & W & Ld). rewrite W in E. apply ok_inj in E.
  assert (Y : d ++ to_bits (8 * toct z) z = det ++ to_bits (8 * toct z) z) by congruence.
  apply app_inv_tail in Y. subst det.
  assert (Q : (bin_len (Z.of_nat (toct z)) <= 14)%nat).
  { apply bin_len_lt; [lia|lia|]. change (2 ^ Z.of_nat 14) with 16384. lia. }
  assert (T : (toct z <= 127)%nat).
  { unfold len_field in L. destruct (Z.leb_spec (Z.of_nat (toct z)) 127) as [K|K]; [lia|].
    assert (Z16 : len d = 16%nat).
    { assert (L' : d = true :: false :: to_bits 14 (Z.of_nat (toct z))) by congruence.
      rewrite L'. cbn [List.length]. rewrite to_bits_length. reflexivity. }
    lia. }
  exact (proj1 (toct_le z 127 ltac:(lia)) T).
Qed.

(** * C16 *)

Theorem C16_exact : forall lb n, lb <= n ->
  (exists det s k, enc (TInt (CRange false (Some lb) None)) (VInt n) = Ok (det ++ [F true s]) /\
     least_octets (n - lb) k /\ unsigned s (8 * k) (n - lb) /\ len_layout (Z.of_nat k) det) <->
  n - lb < 2 ^ (8 * 16383).
Proof.
  intros lb n H. split; [|now apply C16_semi_constrained_partial].
  intros (det & s & k & _ & K & _ & L). apply len_layout_fun in L as (R & _).
  rewrite (least_octets_fun _ _ _ K (least_octets_noct (n - lb) ltac:(lia))) in R.
  assert (U : ufits 16383 (n - lb)) by (apply noct_ufits; lia). exact (proj2 U).
Qed.

(** * C17 *)

(** 16384 is the only length that is neither sent properly nor refused. *)
Theorem C17_exact : forall bs, Forall (fun b => 0 <= b < 256) bs ->
  ((exists e, encode (TOcts CNone) (VOcts bs) = Err e) \/
   (exists det, enc (TOcts CNone) (VOcts bs) = Ok (det ++ [F true (bytes_bits bs)]) /\ len_layout (zlen bs) det)) <->
  zlen bs <> 16384.
Proof.
  intros bs O. split.
  - intros Q L. destruct (C17_sixteen_k bs O L) as (det & E & K). destruct Q as [(e & Q)|(d & E' & Y)].
    + rewrite encode_spec, E in Q. discriminate Q.
    + apply len_layout_fun in Y as (Y & _). lia.
  - intros L. destruct (C17_octet_string_partial bs O L) as (A & B).
    destruct (Z.ltb_spec (zlen bs) 16384); [right; auto|left; apply B; lia].
Qed.

(** * C18 *)

(** Octets, distinct names, as in every object. *)
Definition regular (t : ty) (v : val) : Prop :=
  match t, v with
  | TOcts _, VOcts bs => Forall (fun b => 0 <= b < 256) bs
  | TSeq _ root adds groups, VSeq slots => well_formed root adds groups slots
  | TChoice _ root adds groups, _ => NoDup (map cname (root ++ adds ++ List.concat groups))
  | _, _ => True
  end.

(** Not: an empty BIT STRING of a root that has only one of the sizes 0 and 1;
    an OCTET STRING in the root SIZE(0). *)
Definition bit_told (t : ty) (v : val) : Prop :=
  match t, v with
  | TBits c, VBits [] => between c 0 <-> between c 1
  | TOcts c, VOcts bs => between c (zlen bs) -> chi c <> Some 0
  | _, _ => True
  end.

Theorem C18_exact : forall t v fs, ext_of t = true -> regular t v -> enc t v = Ok fs ->
  (exists b rest, fs = F false [b] :: rest /\ (b = false <-> in_root t v)) <-> bit_told t v.
Proof.
  intros t v fs X R E. 
  assert (D : root_bit_hyp t v \/ (exists c s, t = TBits c /\ v = VBits s) \/ (exists c bs, t = TOcts c /\ v = VOcts bs)).
  { destruct t; try (left; exact R); destruct v; try (left; exact Logic.I); right; [left|right]; eauto. }
  destruct D as [D|[(c & s & -> & ->)|(c & bs & -> & ->)]].
  - pose proof (C18_extension_bit_partial t v fs X D E) as Y. split; [|auto]. intros _.
    destruct t; try exact Logic.I; destruct v; try exact Logic.I; cbn [root_bit_hyp bit_told] in *.
    + destruct D as (_ & D). destruct s; [congruence|exact Logic.I].
    + destruct D as (D & _). auto.
  - cbn [ext_of] in X. cbn [enc] in E. rewrite encode_bits_eq in E. cbv zeta in E. rewrite X in E. cbn [in_root bit_told].
    destruct s as [|b0 s].
    + cbn [as_binary] in E. change (zlen [false]) with 1 in E. change (zlen []) with 0.
      destruct (chain_le (clo c) 1 (chi c)) as [b|] eqn:C; [|discriminate]. cbn [bind] in E.
      apply chain_between in C. destruct b; cbn [negb] in C.
      * destruct (bits_after c [false]) as [o|] eqn:A; [|discriminate]. cbn [bind] in E.
        assert (N : chi c <> Some 0).
        { destruct (proj1 C eq_refl) as (l & h & _ & EH & K). rewrite EH. intros [= ->]. lia. }
        destruct o as [r|]; [|exfalso; now apply (bits_after_some _ _ _ N) in A].
        cbn [fill] in E. apply ok_inj in E. subst fs. split.
        -- intros (b & rest & Y & Z). assert (b = false) by congruence. subst b. tauto.
        -- intros Z. exists false, r. split; [reflexivity|]. tauto.
      * destruct (length_unconstrained 1) as [r|]; [|discriminate]. cbn [bind fill] in E. apply ok_inj in E. subst fs. split.
        -- intros (b & rest & Y & Z). assert (b = true) by congruence. subst b. tauto.
        -- intros Z. eexists true, _. split; [reflexivity|]. tauto.
    + split; [intros _; exact Logic.I|intros _].
      set (w := b0 :: s) in *. assert (NE : w <> []) by discriminate.
      rewrite as_binary_id in E by auto.
      destruct (chain_le (clo c) (zlen w) (chi c)) as [b|] eqn:C; [|discriminate]. cbn [bind] in E.
      apply chain_between in C. destruct b.
      * destruct (bits_after c w) as [o|] eqn:A; [|discriminate]. cbn [bind] in E.
        assert (N : chi c <> Some 0).
        { destruct (proj1 C eq_refl) as (l & h & _ & EH & K). rewrite EH. intros [= ->]. unfold w, zlen in K. cbn [List.length] in K. lia. }
        destruct o as [r|]; [|exfalso; now apply (bits_after_some _ _ _ N) in A].
        cbn [fill] in E. apply ok_inj in E. subst fs. exists false, r. split; [reflexivity|exact C].
      * destruct (length_unconstrained (zlen w)) as [r|]; [|discriminate]. cbn [bind fill] in E. apply ok_inj in E. subst fs.
        eexists true, _. split; [reflexivity|exact C].
  - cbn [ext_of] in X. cbn [regular] in R. cbn [enc] in E. rewrite encode_octs_eq, X in E by exact R. cbn [in_root bit_told].
    destruct (chain_le (clo c) (zlen bs) (chi c)) as [b|] eqn:C; [|discriminate]. cbn [bind] in E.
    apply chain_between in C. destruct b; cbn [negb] in C.
    + destruct (octs_after c bs) as [o|] eqn:A; [|discriminate]. cbn [bind] in E. split.
      * intros (b & rest & Y & _) _ H0. unfold octs_after in A. rewrite H0 in A. cbn [opt_is] in A.
        change (0 =? 0) with true in A. cbv iota zeta in A. apply ok_inj in A. subst o. cbn [fill] in E. apply ok_inj in E. congruence.
      * intros N. specialize (N (proj1 C eq_refl)). destruct o as [r|]; [|exfalso; now apply (octs_after_some _ _ _ N) in A].
        cbn [fill] in E. apply ok_inj in E. subst fs. exists false, r. split; [reflexivity|exact C].
    + destruct (length_unconstrained (zlen bs)) as [r|]; [|discriminate]. cbn [bind fill] in E. apply ok_inj in E. subst fs.
      split; [|intros _; eexists true, _; split; [reflexivity|exact C]].
      intros _ Y. apply C in Y. discriminate Y.
Qed.

(** * C25 *)

(** SIZE(0) lets every list of encodable elements pass. *)
Theorem C25_zero_unchecked : forall c t vs body, cext c = false -> clo c = Some 0 -> chi c = Some 0 ->
  enc_list (enc t) vs = Ok body -> exists bs, encode (TSeqOf c t) (VSeqOf vs) = Ok bs.
Proof.
  intros c t vs body X L H B. rewrite encode_spec. cbn [enc]. rewrite B. cbn [bind]. unfold encode_sequence_of.
  rewrite X, L, H. cbn [need bind]. replace (zlen vs <? 0) with false by (unfold zlen; lia).
  cbn [truthy opt_is]. change (0 =? 0) with true. change (0 <? 65536) with true. cbn [negb andb bind]. eauto.
Qed.

(** So an upper end point other than 0 is exactly what is needed. *)
Theorem C25_exact : forall c l h, cext c = false -> clo c = Some l -> chi c = Some h -> 0 <= l <= h ->
  (forall t vs, ~ size_allowed c (zlen vs) -> exists e, encode (TSeqOf c t) (VSeqOf vs) = Err e) <-> h <> 0.
Proof.
  intros c l h X EL EH K. split.
  - intros Q ->. destruct (C25_zero_unchecked c TBool [VBool true] [F false [true]] X) as (bs & E); auto.
    { rewrite EL. f_equal. lia. }
    destruct (Q TBool [VBool true]) as (e & E'); [|congruence]. intros (_ & S). rewrite EH in S. cbn in S. lia.
  - intros N t vs S. apply C25_size_refused_partial; auto. rewrite EH. congruence.
Qed.

(** * C42 *)

Definition item_name (i : eitem) : string := match i with EName s => s | ENumber s _ => s end.

Lemma text_longer (name number : string) : ("{'" ++ number ++ "': '" ++ name ++ "'}")%string <> name.
Proof.
  intros E. apply (f_equal String.length) in E.
  assert (A : forall a b, String.length (a ++ b)%string = (String.length a + String.length b)%nat).
  { induction a as [|x a IH]; intros b; cbn [String.append String.length]; [reflexivity|]. now rewrite IH. }
  rewrite !A in E. cbn [String.length] in E. lia.
Qed.

(** Every item gets its place as number, whatever is written; it keeps its name
    exactly if no number is written. *)
Theorem C42_exact : forall root adds i it,
  no_dots root -> no_dots (match adds with Some a => a | None => [] end) ->
  nth_error (root ++ match adds with Some a => a | None => [] end) i = Some it ->
  exists n, nth_error (named_values (enum_fill (enum_source root adds))) i = Some (n, i) /\
    (n = item_name it <-> forall number, it <> ENumber (item_name it) number).
Proof.
  intros root adds i it NR NA E. destruct (C36_numbering root adds NR NA) as (_ & _ & _ & _ & _ & Fs & Nm & _).
  set (nv := named_values (enum_fill (enum_source root adds))) in *.
  destruct (nth_error nv i) as [[n k]|] eqn:Q.
  - specialize (Nm _ _ Q). cbn [snd] in Nm. subst k. exists n. split; [reflexivity|].
    pose proof (map_nth_error fst i nv Q) as W. rewrite Fs in W. rewrite (map_nth_error item_text i _ E) in W.
    cbn [fst] in W. injection W as <-. destruct it as [s|s num]; cbn [item_text item_name].
    + split; [discriminate|reflexivity].
    + split; [intros Y; now apply text_longer in Y|]. intros Y. now destruct (Y num).
  - exfalso. apply nth_error_None in Q. assert (L : (i < List.length (root ++ match adds with Some a => a | None => [] end))%nat).
    { apply nth_error_Some. congruence. }
    rewrite <- (map_length item_text), <- Fs, map_length in L. lia.
Qed.

(** * Cases *)

Example C18_exact_case : let t := TBits (CSeqSize true (Some 1) (Some 3)) in
  regular t (VBits []) /\ (exists fs, enc t (VBits []) = Ok fs) /\ ~ bit_told t (VBits []) /\
  bit_told (TBits (CSeqSize true (Some 0) (Some 3))) (VBits []).
Proof.
  cbv zeta. split; [exact Logic.I|]. split; [eexists; vm_compute; reflexivity|]. split; cbn [bit_told].
  - intros (_ & Q). destruct Q as (l & h & [= <-] & [= <-] & Q); [|lia]. exists 1, 3. repeat split; lia.
  - split; intros (l & h & A & B & C); exists l, h; repeat split; auto; cbn in A, B; injection A as <-; injection B as <-; lia.
Qed.

Example C42_exact_case : no_dots [EName "red"; ENumber "green" "7"] /\ no_dots [EName "blue"] /\
  named_values (enum_fill (enum_source [EName "red"; ENumber "green" "7"] (Some [EName "blue"]))) =
    [("red", 0%nat); ("{'7': 'green'}", 1%nat); ("blue", 2%nat)]%string.
Proof. split; [|split; [|reflexivity]]; intros Q; repeat (destruct Q as [Q|Q]; [discriminate Q|]); destruct Q. Qed.
