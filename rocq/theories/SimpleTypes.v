(** Round trip of the simple types at an arbitrary position. *)
From Coq Require Import ZArith List String Bool Lia Arith.
From Coq Require Import ZifyBool ZifyNat ZifyN.
Import ListNotations.
From Verif Require Import PyBase Schema Encoder Decoder BitFacts Stream Prims Spec.
Open Scope Z_scope.

Ltac Zify.zify_post_hook ::= Z.div_mod_to_equations.

(** The fields [fs] of type [t] are read back, at every position and whatever
    follows, as an object that becomes [v]. *)
Definition reads_as (t : ty) (fs : list field) (v : val) : Prop :=
  exists dv, cast t dv = Ok v /\ forall pos, reads (dec t) pos (render pos fs) dv.

Lemma noct_ufits k z : 0 <= z -> 1 <= k -> Z.of_nat (noct z) <= k <-> ufits k z.
Proof.
  intros Hz Hk. unfold ufits. pose proof (noct_le z (Z.to_nat k) Hz ltac:(lia)) as N.
  replace (Z.of_nat (8 * Z.to_nat k)) with (8 * k) in N by lia. lia.
Qed.

Lemma toct_sfits k z : 1 <= k -> Z.of_nat (toct z) <= k <-> sfits k z.
Proof.
  intros Hk. unfold sfits. pose proof (toct_le z (Z.to_nat k) ltac:(lia)) as N.
  replace (Z.of_nat (Z.to_nat k) * 8 - 1) with (8 * k - 1) in N by lia. lia.
Qed.

Lemma ufits_nonneg k z : ufits k z -> 0 <= z.
Proof. unfold ufits. lia. Qed.

Lemma ufits_le k a b : 0 <= a <= b -> ufits k b -> ufits k a.
Proof. unfold ufits. lia. Qed.

Lemma reads_dval t v (d : D dval) : dec t = d ->
  forall fs, (forall pos, reads d pos (render pos fs) (DVal v)) -> reads_as t fs v.
Proof. intros <- fs H. exists (DVal v). split; auto. Qed.

(** ** BOOLEAN *)
Lemma bool_rt b : reads_as TBool (encode_boolean b) (VBool b).
Proof.
  eapply reads_dval; [reflexivity|]. intros pos. unfold encode_boolean, decode_boolean.
  rewrite render_one. cbn [falign fbits fpad app].
  eapply reads_bind_r; [apply reads_bit|].
  replace (negb (Z.b2z b =? 0)) with b by (destruct b; reflexivity). apply reads_ret.
Qed.

(** ** INTEGER *)
Lemma mk_int_ok c z : ctest c z = true -> mk_int c z = Ok (DVal (VInt z)).
Proof. unfold mk_int. now intros ->. Qed.

Ltac endp := eapply reads_bind_r; [|apply reads_lift; first [apply mk_int_ok; assumption]].

Lemma int_rt c z fs : int_ok c z -> encode_integer c z = Ok fs -> reads_as (TInt c) fs (VInt z).
Proof.
  intros (Ht & H) E. eapply reads_dval; [reflexivity|]. intros pos. cbn [dec].
  unfold encode_integer, decode_integer in *. unfold inside in H.
  assert (S : forall x : Z, sfits 255 x -> Z.of_nat (toct x) < 256).
  { intros x Hx. apply toct_sfits in Hx; lia. }
  destruct (cext c).
  - destruct (clo c) as [l|]; [|cbn [chain_le need bind] in E; discriminate].
    unfold chain_le in E. cbn [need bind] in E.
    destruct (Z.leb_spec l z) as [L|L].
    + destruct (chi c) as [h|]; [|cbn [need bind] in E; discriminate].
      cbn [need bind andb] in E, H. destruct (Z.leb_spec z h) as [U|U].
      * rewrite cwn_fields_ok in E by lia. cbn [bind] in E. injection E as <-.
        destruct H as (H1 & H2). apply noct_ufits in H1; [|clear H1; lia..]. rewrite render_bit.
        eapply reads_bind; [apply reads_bit|]. cbn [Z.b2z Z.eqb negb List.length].
        endp. apply reads_cwn_fields; auto; lia.
      * destruct H as (_ & H). rewrite unconstrained_ok in E by auto. injection E as <-.
        rewrite render_bit.
        eapply reads_bind; [apply reads_bit|]. cbn [Z.b2z Z.eqb negb List.length].
        endp. apply reads_unc; auto.
    + cbn [bind] in E.
      assert (F0 : sfits 255 z).
      { destruct (chi c) as [h|]; cbn [andb] in H; [|auto].
        replace ((l <=? z) && (z <=? h)) with false in H by lia. tauto. }
      rewrite unconstrained_ok in E by auto. injection E as <-.
      rewrite render_bit.
      eapply reads_bind; [apply reads_bit|]. cbn [Z.b2z Z.eqb negb List.length].
      endp. apply reads_unc; auto.
  - destruct (clo c) as [l|].
    + destruct (chi c) as [h|].
      * destruct (Z.leb_spec l z) as [L1|L1], (Z.leb_spec z h) as [L2|L2]; cbn [andb] in H;
          try (destruct H; discriminate).
        destruct H as (H1 & _). apply noct_ufits in H1; [|clear H1; lia..]. rewrite cwn_fields_ok in E by lia. injection E as <-.
        destruct (Z.eqb_spec l h) as [<-|].
        -- assert (z = l) by lia. subst z. unfold cwn_fields.
           replace (l - l + 1) with 1 by lia. cbn [Z.leb Z.compare Pos.compare Pos.compare_cont].
           unfold cwn_field. replace (l - l + 1) with 1 by lia. cbn [Z.eqb Pos.eqb].
           cbn [render falign fbits fpad app]. apply reads_lift, mk_int_ok; auto.
        -- endp. apply reads_cwn_fields; auto; lia.
      * unfold encode_semi_constrained_whole_number in E. pose proof (ufits_nonneg _ _ H) as Hnn.
        apply noct_ufits in H; [|clear H; lia..].
        rewrite min_octets_ok in E by lia. cbn [bind fbits] in E.
        assert (N : Z.of_nat (noct (z - l)) < 16384) by lia.
        rewrite octets_of_to_bits, length_unconstrained_ok in E by lia.
        cbn [bind app] in E. injection E as <-.
        endp. apply (reads_semi z l); lia.
    + destruct H as (_ & H). rewrite unconstrained_ok in E by auto.
      assert (E' : fs = [unc_field z]) by (destruct (chi c); congruence). subst fs.
      endp. apply reads_unc; auto.
Qed.

(** ** ENUMERATED *)
Lemma numbered_nth root adds i z : numbered root adds -> nth_error (root ++ adds) i = Some z ->
  z = Z.of_nat i.
Proof.
  intros N H. unfold numbered in N. rewrite N in H.
  rewrite nth_error_map in H. destruct (nth_error (List.seq 0 _) i) as [k|] eqn:K; [|discriminate].
  cbn in H. injection H as <-.
  assert (L : (i < len (List.seq 0 (len (root ++ adds))))%nat) by (apply nth_error_Some; congruence).
  rewrite seq_length in L. rewrite (nth_error_nth' _ 0%nat) in K by (rewrite seq_length; lia).
  injection K as <-. rewrite seq_nth by lia. reflexivity.
Qed.

Lemma numbered_in root adds z : numbered root adds -> In z (root ++ adds) ->
  0 <= z < zlen (root ++ adds) /\ (In z root <-> z < zlen root).
Proof.
  intros N H. apply In_nth_error in H as (i & Hi). pose proof (numbered_nth _ _ _ _ N Hi) as ->.
  assert (L : (i < len (root ++ adds))%nat) by (apply nth_error_Some; congruence).
  unfold zlen in *. split; [lia|]. split.
  - intros H. apply In_nth_error in H as (j & Hj).
    assert (Lj : (j < len root)%nat) by (apply nth_error_Some; congruence).
    assert (Ej : nth_error (root ++ adds) j = Some (Z.of_nat i)) by (rewrite nth_error_app1; auto).
    apply numbered_nth in Ej; auto. lia.
  - intros Hl. rewrite nth_error_app1 in Hi by lia. eapply nth_error_In; eauto.
Qed.

Lemma zindex_numbered root adds z : numbered root adds -> In z adds -> ~ In z root ->
  zindex z adds = Ok (z - zlen root).
Proof.
  intros N H _.
  assert (G : forall l k, (forall i x, nth_error l i = Some x -> x = Z.of_nat (k + i)) -> In z l ->
              zindex z l = Ok (z - Z.of_nat k)).
  { induction l as [|x l IH]; intros k Hn Hin; [destruct Hin|]. cbn [zindex].
    pose proof (Hn 0%nat x eq_refl) as Hx. rewrite Nat.add_0_r in Hx.
    destruct (Z.eqb_spec x z) as [<-|Ne]; [f_equal; lia|].
    destruct Hin as [|Hin]; [congruence|]. rewrite (IH (S k)); auto.
    - cbn [bind]. f_equal. lia.
    - intros i y Hy. rewrite (Hn (S i) y); auto. f_equal. lia. }
  unfold zlen. apply G; auto. intros i x Hi.
  apply (numbered_nth root adds); auto. rewrite nth_error_app2 by lia. now replace (len root + i - len root)%nat with i by lia.
Qed.

Lemma existsb_Zeqb z l : existsb (Z.eqb z) l = true <-> In z l.
Proof.
  rewrite existsb_exists. split.
  - intros (x & Hx & E). apply Z.eqb_eq in E. congruence.
  - intros H. exists z. split; auto. apply Z.eqb_refl.
Qed.

Lemma mk_enum_ok root adds z : In z (root ++ adds) -> mk_enum root adds z = Ok (DVal (VEnum z)).
Proof. intros H. unfold mk_enum. now rewrite (proj2 (existsb_Zeqb _ _) H). Qed.

Lemma enum_rt ext root adds z fs : enum_ok ext root adds z ->
  encode_enumerated ext root adds z = Ok fs -> reads_as (TEnum ext root adds) fs (VEnum z).
Proof.
  intros (N & Hin & Hroot & Hne & Hadd) E. destruct (numbered_in _ _ _ N Hin) as (Hz & Hr).
  eapply reads_dval; [reflexivity|]. intros pos. cbn [dec].
  unfold encode_enumerated, decode_enumerated in *. destruct ext; cbn [negb] in *.
  - destruct (existsb (Z.eqb z) root) eqn:X.
    + apply existsb_Zeqb in X. assert (z < zlen root) by tauto.
      rewrite cwn_fields_ok in E by lia. cbn [bind] in E. injection E as <-.
      rewrite render_bit. eapply reads_bind; [apply reads_bit|]. cbn [Z.b2z Z.eqb negb List.length].
      unfold cwn_fields. replace (zlen root - 1 - 0 + 1 <=? 65536) with true by lia.
      eapply reads_bind_r; [apply reads_cwn; lia|]. apply reads_lift, mk_enum_ok; auto.
    + assert (NR : ~ In z root) by (rewrite <- existsb_Zeqb; congruence).
      apply in_app_or in Hin as Hin'. destruct Hin' as [|Ha]; [tauto|].
      rewrite (zindex_numbered root) in E by auto. cbn [bind] in E.
      assert (Hge : zlen root <= z).
      { apply Z.nlt_ge. intros Hlt. apply NR, Hr, Hlt. }
      assert (zlen (root ++ adds) = zlen root + zlen adds) by (unfold zlen; rewrite app_length; lia).
      assert (Z.of_nat (noct (z - zlen root)) < 16384).
      { assert (ufits 16383 (z - zlen root)) by (eapply ufits_le; [|exact Hadd]; lia).
        apply noct_ufits in H0; lia. }
      rewrite normally_small_ok in E by lia. cbn [bind] in E. injection E as <-.
      rewrite render_bit. eapply reads_bind; [apply reads_bit|]. cbn [Z.b2z Z.eqb negb List.length].
      eapply reads_bind_r; [apply reads_nsn; lia|].
      replace (z - zlen root + zlen root) with z by lia. apply reads_lift, mk_enum_ok; auto.
  - specialize (Hne eq_refl). subst adds. rewrite app_nil_r in *.
    rewrite cwn_fields_ok in E by lia. injection E as <-.
    unfold cwn_fields. replace (zlen root - 1 - 0 + 1 <=? 65536) with true by lia.
    eapply reads_bind_r; [apply reads_cwn; lia|]. apply reads_lift, mk_enum_ok; rewrite app_nil_r; auto.
Qed.

(** ** BIT STRING *)
Lemma bin_zfill_ok v n : 1 <= n -> 0 <= v < 2 ^ n -> bin_zfill v n = Ok (to_bits (Z.to_nat n) v).
Proof.
  intros Hn Hv. unfold bin_zfill. rewrite py_bin_ok by lia. cbn [bind].
  rewrite zfill_to_bits; [reflexivity|lia|]. rewrite Z2Nat.id by lia. auto.
Qed.

Lemma bin_zfill_bits s : s <> [] -> bin_zfill (bval s) (zlen s) = Ok s.
Proof.
  intros H. rewrite bin_zfill_ok.
  - unfold zlen. rewrite Nat2Z.id. now rewrite to_bits_bval.
  - unfold zlen. destruct s; [congruence|cbn [List.length]; lia].
  - apply bval_range.
Qed.

Lemma mk_bits_ok c s : ctest c (zlen s) = true -> mk_bits c s = Ok (DVal (VBits s)).
Proof. unfold mk_bits. now intros ->. Qed.

Lemma reads_bits s pos : s <> [] -> reads (next_bits (Z.to_nat (zlen s))) pos s (bval s).
Proof.
  intros H. apply reads_next_bits; unfold zlen; [lia|]. destruct s; [congruence|cbn [List.length]; lia].
Qed.

Lemma reads_bits_al s pos : s <> [] ->
  reads (per_next (0%nat, Z.to_nat (zlen s)) true) pos (render pos [F true s]) (bval s).
Proof.
  intros H. rewrite render_one. cbn [falign fbits fpad].
  assert (1 <= len s)%nat by (destruct s; [congruence|cbn [List.length]; lia]).
  apply reads_next; cbn [fst snd fpos]; unfold zlen; try lia.
  rewrite padding_length. unfold up8. lia.
Qed.

Lemma as_binary_id s : s <> [] -> as_binary s = s.
Proof. destruct s; [congruence|reflexivity]. Qed.

Lemma zlen_pos {A} (s : list A) : s <> [] -> 1 <= zlen s.
Proof. destruct s; [congruence|unfold zlen; cbn [List.length]; lia]. Qed.

(** The part after the extension bit, for a non-empty string of the root. *)
Definition bits_after (c : constr) (s : bits) : res (option (list field)) :=
  let n := zlen s in
  if opt_is (chi c) 0 then Ok None
  else if some_eq (clo c) (chi c) then
    if n <=? 16 then Ok (Some [F false s])
    else if (16 <? n) && (n <? 65536) then Ok (Some [F true s])
    else Err RaiseNotImplemented
  else if truthy (chi c) && lt65536 (chi c) then
    let* det := length_constrained n (clo c) (chi c) in Ok (Some (det ++ [F true s]))
  else
    let* det := length_unconstrained n in Ok (Some (det ++ [F true s])).

Definition dec_bits_after (c : constr) : D dval :=
  if opt_is (chi c) 0 then ret DEmpty
  else if some_eq (clo c) (chi c) then
    do l <- lift (need (clo c));
    if l <=? 16 then
      do v <- next_bits (Z.to_nat l);
      do s <- lift (bin_zfill v l); lift (mk_bits c s)
    else if (16 <? l) && (l <? 65536) then
      do _ <- align;
      do v <- next_bits (Z.to_nat l);
      do s <- lift (bin_zfill v l); lift (mk_bits c (firstn (Z.to_nat l) s))
    else fail RaiseNotImplemented
  else if truthy (chi c) && lt65536 (chi c) then
    do n <- dec_length_constrained (clo c) (chi c);
    do v <- per_next (0%nat, Z.to_nat n) true;
    do s <- lift (bin_zfill v n); lift (mk_bits c s)
  else
    do n <- dec_length_unconstrained;
    do v <- per_next (0%nat, Z.to_nat n) true;
    do s <- lift (bin_zfill v n); lift (mk_bits c s).

Lemma encode_bits_eq c s : encode_bitstring c s =
  (let s' := as_binary s in
   if cext c then
     let* inroot := chain_le (clo c) (zlen s') (chi c) in
     if inroot then
       let* o := bits_after c s' in
       Ok (match o with Some fs => Some (F false [false] :: fs) | None => None end)
     else
       let* det := length_unconstrained (zlen s') in
       Ok (Some (F false [true] :: det ++ [F true s']))
   else bits_after c s').
Proof.
  unfold encode_bitstring, bits_after. cbv zeta. destruct (cext c).
  - destruct (chain_le _ _ _) as [[|]|]; cbn [bind]; auto.
    destruct (opt_is (chi c) 0); auto. destruct (some_eq (clo c) (chi c)).
    + destruct (zlen (as_binary s) <=? 16); auto. destruct (_ && _); auto.
    + destruct (truthy _ && _).
      * destruct (length_constrained _ _ _); auto.
      * destruct (length_unconstrained _); auto.
  - reflexivity.
Qed.

Lemma decode_bits_eq c : decode_bitstring c =
  (if cext c then
     do b <- next_bits 1;
     if b =? 0 then dec_bits_after c
     else
       do _ <- align;
       do n <- dec_length_unconstrained;
       do v <- next_bits (Z.to_nat n);
       do _ <- align;
       do s <- lift (bin_zfill v n); lift (mk_bits c s)
   else dec_bits_after c).
Proof. reflexivity. Qed.

(** A constrained length determinant. *)
Lemma length_constrained_ok n l h : l <= n <= h ->
  length_constrained n (Some l) (Some h) = Ok [cwn_field n l h].
Proof. intros H. unfold length_constrained. cbn [need bind]. rewrite cwn_ok by auto. reflexivity. Qed.

Lemma reads_len_constrained n l h pos : l <= n <= h -> h - l < 65536 -> (l = h -> l = 0) ->
  reads (dec_length_constrained (Some l) (Some h)) pos (render pos [cwn_field n l h]) n.
Proof.
  intros H Hr H1. unfold dec_length_constrained.
  eapply reads_bind0; [apply reads_lift; reflexivity|].
  eapply reads_bind0; [apply reads_lift; reflexivity|].
  apply reads_cwn; auto; lia.
Qed.

Lemma bits_after_rt c s fs : ctest c (zlen s) = true ->
  (match clo c, chi c with
   | _, Some 0 => False
   | Some l, Some h => s <> [] /\ 0 <= l <= zlen s /\ zlen s <= h /\ (65536 <= h -> zlen s < 16384)
   | None, Some h => s <> [] /\ zlen s <= h /\ 65536 <= h /\ zlen s < 16384
   | _, None => s <> [] /\ zlen s < 16384
   end) ->
  bits_after c s = Ok fs -> exists l, fs = Some l /\
  forall pos, reads (dec_bits_after c) pos (render pos l) (DVal (VBits s)).
Proof.
  intros Ht H E. unfold bits_after, dec_bits_after in *. cbv zeta in E.
  assert (Hn : s <> []).
  { destruct (clo c), (chi c) as [[| |]|]; try tauto. }
  pose proof (zlen_pos s Hn) as Hp.
  assert (UNC : forall l, zlen s < 16384 -> bind (length_unconstrained (zlen s))
            (fun det => Ok (Some (det ++ [F true s]))) = Ok l -> exists l', l = Some l' /\
            forall pos, reads (do n <- dec_length_unconstrained;
                   do v <- per_next (0%nat, Z.to_nat n) true;
                   do s <- lift (bin_zfill v n); lift (mk_bits c s)) pos (render pos l') (DVal (VBits s))).
  { intros l Hl El. rewrite length_unconstrained_ok in El by lia. cbn [bind app] in El. injection El as <-.
    eexists; split; [reflexivity|]. intros pos. rewrite render_cons2.
    eapply reads_bind; [apply reads_len; lia|].
    eapply reads_bind_r; [apply reads_bits_al; auto|].
    eapply reads_bind0; [apply reads_lift, bin_zfill_bits; auto|].
    apply reads_lift, mk_bits_ok; auto. }
  assert (Z0 : opt_is (chi c) 0 = false).
  { destruct (clo c), (chi c) as [[| |]|]; cbn [opt_is]; try tauto; reflexivity. }
  rewrite Z0 in *. destruct (chi c) as [h|] eqn:C.
  2:{ destruct (clo c); cbn [some_eq truthy andb] in *; apply UNC; tauto. }
  destruct (clo c) as [l|] eqn:L.
  2:{ cbn [some_eq lt65536 truthy] in *. destruct h as [|p|p]; try tauto; try lia.
      replace (Z.pos p <? 65536) with false in * by lia. rewrite andb_false_r in *. apply UNC; auto. lia. }
  assert (H' : 0 <= l <= zlen s /\ zlen s <= h /\ (65536 <= h -> zlen s < 16384)).
  { destruct h; tauto. }
  destruct H' as (Hl & Hh & Hb). cbn [some_eq truthy lt65536] in *.
  destruct (Z.eqb_spec l h) as [->|Ne].
  - assert (h = zlen s) by lia. subst h. cbn [need].
    destruct (Z.leb_spec (zlen s) 16).
    + injection E as <-. eexists; split; [reflexivity|]. intros pos.
      eapply reads_bind0; [apply reads_lift; reflexivity|]. replace (zlen s <=? 16) with true by lia.
      rewrite render_one. cbn [falign fbits fpad app].
      eapply reads_bind_r; [apply reads_bits; auto|].
      eapply reads_bind0; [apply reads_lift, bin_zfill_bits; auto|].
      apply reads_lift, mk_bits_ok; auto.
    + destruct ((16 <? zlen s) && (zlen s <? 65536)) eqn:X; [|discriminate].
      injection E as <-. eexists; split; [reflexivity|]. intros pos.
      eapply reads_bind0; [apply reads_lift; reflexivity|]. replace (zlen s <=? 16) with false by lia.
      rewrite X. rewrite render_one. cbn [falign fbits fpad].
      eapply reads_bind; [apply reads_align|].
      eapply reads_bind_r; [apply reads_bits; auto|].
      eapply reads_bind0; [apply reads_lift, bin_zfill_bits; auto|].
      unfold zlen at 1. rewrite Nat2Z.id, firstn_all. apply reads_lift, mk_bits_ok; auto.
  - destruct (Z.ltb_spec h 65536).
    + replace (negb (h =? 0) && true) with true in * by lia.
      rewrite length_constrained_ok in E by lia. cbn [bind app] in E. injection E as <-.
      eexists; split; [reflexivity|]. intros pos. rewrite render_cons2.
      eapply reads_bind; [apply reads_len_constrained; lia|].
      eapply reads_bind_r; [apply reads_bits_al; auto|].
      eapply reads_bind0; [apply reads_lift, bin_zfill_bits; auto|].
      apply reads_lift, mk_bits_ok; auto.
    + rewrite andb_false_r in *. apply UNC; auto.
Qed.

Lemma inside_chain c n : inside c n = true -> chain_le (clo c) n (chi c) = Ok true.
Proof.
  unfold inside, chain_le. destruct (clo c) as [l|], (chi c) as [h|]; try discriminate.
  cbn [need bind]. destruct (l <=? n); cbn [andb]; congruence.
Qed.

Lemma chain_inside c n b : chain_le (clo c) n (chi c) = Ok b -> inside c n = b.
Proof.
  unfold inside, chain_le. destruct (clo c) as [l|]; [|discriminate].
  cbn [need bind]. destruct (l <=? n); cbn [andb].
  - destruct (chi c); cbn [need bind]; [congruence|discriminate].
  - destruct (chi c); congruence.
Qed.

Lemma bits_rt c s fs : bits_ok c s -> fill (encode_bitstring c s) = Ok fs ->
  reads_as (TBits c) fs (VBits s).
Proof.
  unfold bits_ok. cbv zeta. intros (Ht & H) E. rewrite encode_bits_eq in E. cbv zeta in E.
  destruct (cext c) eqn:X; cbn [andb] in H.
  - destruct (inside c (zlen s)) eqn:I; cbn [negb] in H.
    + assert (Hn : s <> []).
      { destruct (clo c), (chi c) as [[| |]|]; try tauto; destruct H; discriminate. }
      rewrite as_binary_id in E by auto. rewrite inside_chain in E by auto. cbn [bind] in E.
      destruct (bits_after c s) as [o|e] eqn:B; [|discriminate].
      destruct (bits_after_rt c s o Ht) as (l & -> & R); auto.
      { destruct (clo c), (chi c) as [[| |]|]; auto; destruct H; discriminate. }
      cbn [bind fill] in E. injection E as <-.
      eapply reads_dval; [reflexivity|]. intros pos. cbn [dec]. rewrite decode_bits_eq, X.
      rewrite render_bit. eapply reads_bind; [apply reads_bit|]. cbn [Z.b2z Z.eqb List.length]. apply R.
    + destruct H as (Hn & Hl & Hm). rewrite as_binary_id in E by auto.
      destruct (chain_le (clo c) (zlen s) (chi c)) as [b|] eqn:C; [|discriminate].
      apply chain_inside in C. rewrite I in C. subst b. cbn [bind] in E.
      pose proof (zlen_pos s Hn). rewrite length_unconstrained_ok in E by lia.
      cbn [bind fill app] in E. injection E as <-.
      eapply reads_dval; [reflexivity|]. intros pos. cbn [dec]. rewrite decode_bits_eq, X.
      rewrite render_bit. eapply reads_bind; [apply reads_bit|]. cbn [Z.b2z Z.eqb List.length].
      rewrite render_aligned by apply len_field_align.
      eapply reads_bind; [apply reads_align|]. rewrite up8_pad. rewrite render_cons2.
      eapply reads_bind; [apply reads_len; lia|].
      rewrite render_true_one by apply render_len_mod8.
      eapply reads_bind_r; [apply reads_bits; auto|].
      eapply reads_bind0.
      { apply reads_align0. pose proof (render_len_mod8 (zlen s) (up8 (pos + 1))) as M.
        clear - M Hm. unfold zlen in *.
        set (a := (up8 (pos + 1) + len (render (up8 (pos + 1)) [len_field (Z.of_nat (len s))]))%nat) in *.
        clearbody a. lia. }
      eapply reads_bind0; [apply reads_lift, bin_zfill_bits; auto|].
      apply reads_lift, mk_bits_ok; auto.
  - destruct (opt_is (chi c) 0) eqn:Z0.
    + assert (C0 : chi c = Some 0).
      { destruct (chi c) as [h|]; [|discriminate]. cbn in Z0. apply Z.eqb_eq in Z0. congruence. }
      assert (s = []) by (rewrite C0 in H; destruct (clo c); tauto). subst s.
      unfold bits_after in E. rewrite Z0 in E. cbn [fill bind] in E. injection E as <-.
      exists DEmpty. split.
      * cbn [cast]. unfold zlen in Ht. cbn in Ht. now rewrite Ht.
      * intros pos. cbn [dec]. rewrite decode_bits_eq, X. unfold dec_bits_after. rewrite Z0.
        apply reads_ret.
    + assert (Hn : s <> []).
      { destruct (clo c), (chi c) as [[| |]|]; try tauto; discriminate. }
      rewrite as_binary_id in E by auto.
      destruct (bits_after c s) as [o|e] eqn:B; [|discriminate].
      destruct (bits_after_rt c s o Ht) as (l & -> & R); auto.
      { destruct (clo c), (chi c) as [[| |]|]; auto; discriminate. }
      cbn [bind fill] in E. injection E as <-.
      eapply reads_dval; [reflexivity|]. intros pos. cbn [dec]. rewrite decode_bits_eq, X. apply R.
Qed.

(** ** OCTET STRING *)
Lemma octets_bits_ok bs : Forall octet bs -> octets_bits bs = Ok (obits bs).
Proof.
  induction 1 as [|b bs Hb _ IH]; [reflexivity|]. cbn [octets_bits]. unfold octet in Hb.
  rewrite py_bin_ok by lia. cbn [bind]. rewrite IH. cbn [bind].
  rewrite zfill_to_bits; [reflexivity|lia|]. change (2 ^ Z.of_nat 8) with 256. lia.
Qed.

Lemma octets_of_obits bs : octets_of (obits bs) = zlen bs.
Proof. unfold octets_of, zlen. rewrite obits_length. lia. Qed.

Lemma mk_octs_ok c bs : ctest c (zlen bs) = true -> mk_octs c (hexlify bs) = Ok (DVal (VOcts bs)).
Proof. unfold mk_octs. intros H. now rewrite from_hex_string_hexlify, H. Qed.

Lemma hex_zfill_ok bs : Forall octet bs -> bs <> [] ->
  hex_zfill (bval (obits bs)) (zlen bs) = Ok (hexlify bs).
Proof.
  intros H Hn. unfold hex_zfill, zlen. apply py_hex_zfill; auto. lia.
Qed.

Lemma py_hex_high b bs : Forall octet (b :: bs) -> 16 <= b ->
  py_hex (bval (obits (b :: bs))) = Ok (hexlify (b :: bs)).
Proof.
  intros H Hb. destruct (py_hex_spec (bval (obits (b :: bs)))) as (h & E & Hh & HV & H1 & HL).
  { apply bval_range. }
  rewrite E. f_equal. apply hex_digits_unique; auto.
  apply Nat.le_antisymm.
  - apply HL; [cbn [List.length]; lia|apply obits_val_lt].
  - destruct (Nat.le_gt_cases (2 * len (b :: bs)) (len h)) as [|L]; auto. exfalso.
    pose proof (hval_range h Hh) as [_ R]. rewrite HV in R.
    assert (16 ^ Z.of_nat (len h) <= 16 ^ Z.of_nat (2 * len bs + 1)).
    { apply Z.pow_le_mono_r; [lia|]. cbn [List.length] in L. lia. }
    rewrite obits_cons, bval_app, obits_length in R. inversion H; subst.
    rewrite bval_to_bits in R by (unfold octet in *; change (2 ^ Z.of_nat 8) with 256; lia).
    pose proof (bval_range (obits bs)) as [P _].
    replace (16 ^ Z.of_nat (2 * len bs + 1)) with (16 * 2 ^ Z.of_nat (8 * len bs)) in *.
    + pose proof (pow2_pos (8 * len bs)). nia.
    + change 16 with (2 ^ 4) at 2. rewrite <- Z.pow_mul_r by lia.
      change 16 with (2 ^ 4). rewrite <- Z.pow_add_r by lia. f_equal. lia.
Qed.

Lemma reads_octs bs pos : bs <> [] ->
  reads (next_octets (Z.to_nat (zlen bs))) pos (obits bs) (bval (obits bs)).
Proof.
  intros H. pose proof (zlen_pos bs H). apply reads_next_octets; unfold zlen in *; [rewrite obits_length|]; lia.
Qed.

Lemma reads_octs_al bs pos : bs <> [] ->
  reads (per_next (Z.to_nat (zlen bs), 0%nat) true) pos (render pos [F true (obits bs)]) (bval (obits bs)).
Proof.
  intros H. rewrite render_one. cbn [falign fbits fpad]. pose proof (zlen_pos bs H).
  apply reads_next; rewrite ?obits_length, ?padding_length; cbn [fst snd fpos]; unfold zlen in *; try lia.
  unfold up8. lia.
Qed.

Definition octs_after (c : constr) (bs : list Z) : res (option (list field)) :=
  let n := zlen bs in
  let s := obits bs in
  if opt_is (chi c) 0 then Ok None
  else if some_eq (clo c) (chi c) then
    if n <=? 2 then Ok (Some [F false s])
    else if (2 <? n) && (n <? 65536) then Ok (Some [F true s])
    else Err RaiseNotImplemented
  else if truthy (chi c) then
    let* det := length_constrained n (clo c) (chi c) in Ok (Some (det ++ [F true s]))
  else
    let* det := length_unconstrained n in Ok (Some (det ++ [F true s])).

Definition dec_octs_after (c : constr) : D dval :=
  if opt_is (chi c) 0 then ret DEmpty
  else if some_eq (clo c) (chi c) then
    do l <- lift (need (clo c));
    if l <=? 2 then
      do v <- next_octets (Z.to_nat l);
      do s <- lift (hex_zfill v l); lift (mk_octs c s)
    else if (2 <? l) && (l <? 65536) then
      do _ <- align;
      do v <- next_octets (Z.to_nat l);
      do s <- lift (hex_zfill v l); lift (mk_octs c s)
    else fail RaiseNotImplemented
  else if truthy (chi c) then
    do n <- dec_length_constrained (clo c) (chi c);
    if n =? 0 then lift (mk_octs c [])
    else
      do v <- per_next (Z.to_nat n, 0%nat) true;
      do s <- lift (py_hex v); lift (mk_octs c s)
  else
    do _ <- align;
    do n <- dec_length_unconstrained;
    do v <- next_octets (Z.to_nat n);
    do s <- lift (hex_zfill v n); lift (mk_octs c s).

Lemma encode_octs_eq c bs : Forall octet bs -> encode_octetstring c bs =
  (if cext c then
     let* inroot := chain_le (clo c) (zlen bs) (chi c) in
     if inroot then
       let* o := octs_after c bs in
       Ok (match o with Some fs => Some (F false [false] :: fs) | None => None end)
     else
       let* det := length_unconstrained (zlen bs) in
       Ok (Some (F false [true] :: det ++ [F false (obits bs)]))
   else octs_after c bs).
Proof.
  intros H. unfold encode_octetstring, octs_after. rewrite octets_bits_ok by auto. cbn [bind].
  cbv zeta. rewrite octets_of_obits. destruct (cext c).
  - destruct (chain_le _ _ _) as [[|]|]; cbn [bind]; auto.
    destruct (opt_is (chi c) 0); auto. destruct (some_eq (clo c) (chi c)).
    + destruct (zlen bs <=? 2); auto. destruct (_ && _); auto.
    + destruct (truthy _).
      * destruct (length_constrained _ _ _); auto.
      * destruct (length_unconstrained _); auto.
  - reflexivity.
Qed.

Lemma decode_octs_eq c : decode_octetstring c =
  (if cext c then
     do b <- next_bits 1;
     if b =? 0 then dec_octs_after c
     else
       do _ <- align;
       do n <- dec_length_unconstrained;
       if n =? 0 then lift (mk_octs c [])
       else
         do v <- next_octets (Z.to_nat n);
         do s <- lift (hex_zfill v n); lift (mk_octs c s)
   else dec_octs_after c).
Proof. reflexivity. Qed.

Lemma octs_after_rt c bs fs : Forall octet bs -> ctest c (zlen bs) = true ->
  (match clo c, chi c with
   | _, Some 0 => False
   | Some l, Some h =>
        0 <= l <= zlen bs /\ zlen bs <= h /\
        (l < h -> h - l < 65536 /\ match bs with [] => 256 <= h - l + 1 | _ => digits_kept bs end)
   | None, Some _ => False
   | _, None => 1 <= zlen bs < 16384
   end) ->
  octs_after c bs = Ok fs -> exists l, fs = Some l /\
  forall pos, reads (dec_octs_after c) pos (render pos l) (DVal (VOcts bs)).
Proof.
  intros Ho Ht H E. unfold octs_after, dec_octs_after in *. cbv zeta in E.
  assert (Z0 : opt_is (chi c) 0 = false).
  { destruct (clo c), (chi c) as [[| |]|]; cbn [opt_is]; try tauto; reflexivity. }
  rewrite Z0 in *. destruct (chi c) as [h|] eqn:C.
  - destruct (clo c) as [l|] eqn:L; [|destruct h; tauto].
    assert (H' : 0 <= l <= zlen bs /\ zlen bs <= h /\ h <> 0 /\
       (l < h -> h - l < 65536 /\ match bs with [] => 256 <= h - l + 1 | _ => digits_kept bs end)).
    { destruct h; try tauto; repeat split; try tauto; discriminate. }
    clear H. destruct H' as (Hl & Hh & Hh0 & Hr). cbn [some_eq truthy] in *.
    destruct (Z.eqb_spec l h) as [->|Ne].
    + assert (h = zlen bs) by lia. subst h. cbn [need].
      assert (Hn : bs <> []) by (intros ->; cbn in Hh0; congruence).
      destruct (Z.leb_spec (zlen bs) 2).
      * injection E as <-. eexists; split; [reflexivity|]. intros pos.
        eapply reads_bind0; [apply reads_lift; reflexivity|]. replace (zlen bs <=? 2) with true by lia.
        rewrite render_one. cbn [falign fbits fpad app].
        eapply reads_bind_r; [apply reads_octs; auto|].
        eapply reads_bind0; [apply reads_lift, hex_zfill_ok; auto|].
        apply reads_lift, mk_octs_ok; auto.
      * destruct ((2 <? zlen bs) && (zlen bs <? 65536)) eqn:X; [|discriminate].
        injection E as <-. eexists; split; [reflexivity|]. intros pos.
        eapply reads_bind0; [apply reads_lift; reflexivity|]. replace (zlen bs <=? 2) with false by lia.
        rewrite X. rewrite render_one. cbn [falign fbits fpad].
        eapply reads_bind; [apply reads_align|].
        eapply reads_bind_r; [apply reads_octs; auto|].
        eapply reads_bind0; [apply reads_lift, hex_zfill_ok; auto|].
        apply reads_lift, mk_octs_ok; auto.
    + destruct (Hr ltac:(lia)) as (Hr1 & Hr2). replace (negb (h =? 0)) with true in * by lia.
      rewrite length_constrained_ok in E by lia. cbn [bind app] in E. injection E as <-.
      eexists; split; [reflexivity|]. intros pos. rewrite render_cons2.
      eapply reads_bind; [apply reads_len_constrained; lia|].
      destruct bs as [|b bs].
      * change (zlen [] =? 0) with true. cbv iota.
        assert (A : Nat.modulo (pos + len (render pos [cwn_field (@zlen Z []) l h])) 8 = 0%nat).
        { rewrite render_one. unfold cwn_field. cbv zeta.
          destruct (Z.eqb_spec (h - l + 1) 1); [lia|]. destruct (Z.leb_spec (h - l + 1) 255); [lia|].
          pose proof (up8_mod pos) as M. unfold up8 in M.
          destruct (h - l + 1 =? 256); [|replace (h - l + 1 <=? 65536) with true by lia];
            cbn [falign fbits fpad]; rewrite app_length, padding_length, to_bits_length; lia. }
        rewrite render_true_one by auto. change (obits []) with (@nil bool).
        apply reads_lift. unfold mk_octs. cbn [from_hex_string]. rewrite Ht. reflexivity.
      * pose proof (zlen_pos (b :: bs) ltac:(discriminate)).
        destruct (Z.eqb_spec (zlen (b :: bs)) 0); [lia|].
        eapply reads_bind_r; [apply reads_octs_al; discriminate|].
        destruct (Z.le_gt_cases 16 b).
        { eapply reads_bind0; [apply reads_lift, py_hex_high; auto|].
          apply reads_lift, mk_octs_ok; auto. }
        destruct bs; cbn [digits_kept] in Hr2; [|lia]. destruct Hr2 as [->|]; [|lia].
        eapply reads_bind0; [apply reads_lift; reflexivity|].
        apply reads_lift. unfold mk_octs. change (from_hex_string [0]) with [0]. now rewrite Ht.
  - assert (H' : 1 <= zlen bs < 16384) by (destruct (clo c); auto). clear H.
    assert (Hn : bs <> []) by (intros ->; unfold zlen in H'; cbn in H'; lia).
    replace (some_eq (clo c) None) with false in * by (destruct (clo c); reflexivity).
    cbn [truthy] in *. rewrite length_unconstrained_ok in E by lia. cbn [bind app] in E. injection E as <-.
    eexists; split; [reflexivity|]. intros pos.
    rewrite render_aligned by apply len_field_align.
    eapply reads_bind; [apply reads_align|]. rewrite up8_pad, render_cons2.
    eapply reads_bind; [apply reads_len; lia|].
    rewrite render_true_one by apply render_len_mod8.
    eapply reads_bind_r; [apply reads_octs; auto|].
    eapply reads_bind0; [apply reads_lift, hex_zfill_ok; auto|].
    apply reads_lift, mk_octs_ok; auto.
Qed.

Lemma octs_rt c bs fs : octs_ok c bs -> fill (encode_octetstring c bs) = Ok fs ->
  reads_as (TOcts c) fs (VOcts bs).
Proof.
  unfold octs_ok. cbv zeta. intros (Ho & Ht & H) E. fold octet in Ho.
  rewrite encode_octs_eq in E by auto.
  destruct (cext c) eqn:X; cbn [andb] in H.
  - destruct (inside c (zlen bs)) eqn:I; cbn [negb] in H.
    + rewrite inside_chain in E by auto. cbn [bind] in E.
      destruct (octs_after c bs) as [o|e] eqn:B; [|discriminate].
      destruct (octs_after_rt c bs o Ho Ht) as (l & -> & R); auto.
      { destruct (clo c), (chi c) as [[| |]|]; auto; destruct H; discriminate. }
      cbn [bind fill] in E. injection E as <-.
      eapply reads_dval; [reflexivity|]. intros pos. cbn [dec]. rewrite decode_octs_eq, X.
      rewrite render_bit. eapply reads_bind; [apply reads_bit|]. cbn [Z.b2z Z.eqb List.length]. apply R.
    + destruct (chain_le (clo c) (zlen bs) (chi c)) as [b|] eqn:C; [|discriminate].
      apply chain_inside in C. rewrite I in C. subst b. cbn [bind] in E.
      assert (0 <= zlen bs) by (unfold zlen; lia). rewrite length_unconstrained_ok in E by lia.
      cbn [bind fill app] in E. injection E as <-.
      eapply reads_dval; [reflexivity|]. intros pos. cbn [dec]. rewrite decode_octs_eq, X.
      rewrite render_bit. eapply reads_bind; [apply reads_bit|]. cbn [Z.b2z Z.eqb List.length].
      rewrite render_aligned by apply len_field_align.
      eapply reads_bind; [apply reads_align|]. rewrite up8_pad. rewrite render_cons2.
      eapply reads_bind; [apply reads_len; lia|].
      assert (RO : forall q, render q [F false (obits bs)] = obits bs)
        by (intros; rewrite render_one; reflexivity).
      rewrite RO. clear RO.
      destruct bs as [|b bs].
      * change (zlen [] =? 0) with true. cbv iota. change (obits []) with (@nil bool).
        apply reads_lift. unfold mk_octs. cbn [from_hex_string]. rewrite Ht. reflexivity.
      * pose proof (zlen_pos (b :: bs) ltac:(discriminate)).
        destruct (Z.eqb_spec (zlen (b :: bs)) 0); [lia|].
        eapply reads_bind_r; [apply reads_octs; discriminate|].
        eapply reads_bind0; [apply reads_lift, hex_zfill_ok; auto; discriminate|].
        apply reads_lift, mk_octs_ok; auto.
  - destruct (opt_is (chi c) 0) eqn:Z0.
    + assert (C0 : chi c = Some 0).
      { destruct (chi c) as [h|]; [|discriminate]. cbn in Z0. apply Z.eqb_eq in Z0. congruence. }
      assert (bs = []) by (rewrite C0 in H; destruct (clo c); tauto). subst bs.
      unfold octs_after in E. rewrite Z0 in E. cbn [fill bind] in E. injection E as <-.
      exists DEmpty. split.
      * cbn [cast]. unfold zlen in Ht. cbn in Ht. now rewrite Ht.
      * intros pos. cbn [dec]. rewrite decode_octs_eq, X. unfold dec_octs_after. rewrite Z0.
        apply reads_ret.
    + destruct (octs_after c bs) as [o|e] eqn:B; [|discriminate].
      destruct (octs_after_rt c bs o Ho Ht) as (l & -> & R); auto.
      { destruct (clo c), (chi c) as [[| |]|]; auto; discriminate. }
      cbn [bind fill] in E. injection E as <-.
      eapply reads_dval; [reflexivity|]. intros pos. cbn [dec]. rewrite decode_octs_eq, X. apply R.
Qed.
