(** C10, C12, C27, C33: the decoder on arbitrary input. *)
From Coq Require Import ZArith List String Bool Lia ZifyBool ZifyNat ZifyN.
Import ListNotations.
From Verif Require Import PyBase Schema Encoder Decoder BitFacts Stream Prims Spec SimpleTypes RoundTrip
  Reading Totality Layout.
Open Scope string_scope.
Open Scope list_scope.
Open Scope Z_scope.
Ltac Zify.zify_post_hook ::= Z.div_mod_to_equations.

(** * C33: the bit pointer *)

(** The position of the pointer, in bits. *)
Definition position (p : perbytes) : nat :=
  (8 * curr_octets (pb_off p) + curr_bits (pb_off p))%nat.

(** The pointer counts whole octets and fewer than 8 further bits. *)
Definition proper (p : perbytes) : Prop := (curr_bits (pb_off p) < 8)%nat.

Lemma proper_at p : proper p -> at_ p (pb_bits p) (position p).
Proof. unfold proper, position, at_. intros H. repeat split; lia. Qed.

Lemma at_position p s pos : at_ p s pos -> position p = pos /\ proper p /\ pb_bits p = s.
Proof. unfold proper, position, at_. intros (A & B & C). repeat split; auto; lia. Qed.

(** The next multiple of eight: [a] is [n] when [n] is one already. *)
Definition next_multiple (n a : nat) : Prop :=
  (n <= a < n + 8 /\ exists k, a = 8 * k)%nat.

Lemma up8_multiple n : next_multiple n (up8 n).
Proof. unfold next_multiple, up8, padn. split; [lia|]. exists (Nat.div (n + 7) 8). lia. Qed.

(** A sequence of requests to the decoder's input and its answers. *)
Fixpoint run (l : list (bsize * bool)) : D (list Z) :=
  match l with
  | [] => ret []
  | (sz, al) :: r => do z <- per_next sz al; do zs <- run r; ret (z :: zs)
  end.

(** What the pointer has to do: [start] is where a request begins to take bits. *)
Inductive moved : nat -> list (bsize * bool) -> nat -> Prop :=
| moved_nil pos : moved pos [] pos
| moved_plain pos sz r pos' : moved (pos + (8 * fst sz + snd sz))%nat r pos' ->
    moved pos ((sz, false) :: r) pos'
| moved_aligned pos a sz r pos' : next_multiple pos a ->
    moved (a + (8 * fst sz + snd sz))%nat r pos' ->
    moved pos ((sz, true) :: r) pos'.

Theorem C33_pointer_exact : forall l p zs p',
  proper p -> run l p = Ok (zs, p') ->
  moved (position p) l (position p') /\ proper p' /\ pb_bits p' = pb_bits p.
Proof.
  induction l as [|[sz al] l IH]; intros p zs p' P R.
  - injection R as <- <-. split; [constructor|auto].
  - cbn [run] in R. unfold dbind in R. pose proof (per_next_spec p _ _ sz al (proper_at p P)) as N.
    cbv zeta in N.
    destruct (if Nat.eqb (8 * fst sz + snd sz) 0 then [false]
              else slice (pb_bits p) (fpos al (position p)) (8 * fst sz + snd sz)) as [|b g].
    + rewrite N in R. discriminate.
    + destruct N as (q & E & A). rewrite E in R. apply at_position in A as (A1 & A2 & A3).
      destruct (run l q) as [[zs' p'']|] eqn:R'; [|discriminate]. injection R as <- <-.
      destruct (IH q zs' p'' A2 R') as (M & PP & B). rewrite A1 in M. split; [|split; congruence].
      destruct al; cbn [fpos] in M.
      * eapply moved_aligned; [apply up8_multiple|exact M].
      * now constructor.
Qed.

(** The next multiple is unique, so [moved] fixes the final position. *)
Theorem C33_pointer_unique : forall l pos a b, moved pos l a -> moved pos l b -> a = b.
Proof.
  intros l pos a b H. revert b. induction H as [|pos sz r pos' H IH|pos x sz r pos' M H IH]; intros b K.
  - now inversion K.
  - inversion K; subst; auto.
  - inversion K as [| |? y ? ? ? M' K']; subst.
    replace y with x in K'; auto.
    destruct M as (A & k & ->), M' as (B & k' & ->). lia.
Qed.

(** The bits answered are those between the two positions (a request for nothing
    answers 0), and a request that begins at or past the end raises. *)
Theorem C33_answer : forall (sz : bsize) (al : bool) p,
  proper p ->
  exists start, (if al then next_multiple (position p) start else start = position p) /\
    let n := (8 * fst sz + snd sz)%nat in
    if Nat.eqb n 0 then exists p', per_next sz al p = Ok (0, p') /\ position p' = start
    else if Nat.leb (List.length (pb_bits p)) start then per_next sz al p = Err PyValueError
    else exists p', per_next sz al p = Ok (bval (firstn n (skipn start (pb_bits p))), p') /\
                    position p' = (start + n)%nat.
Proof.
  intros sz al p P. pose proof (per_next_spec p _ _ sz al (proper_at p P)) as N. cbv zeta in N.
  exists (fpos al (position p)). split.
  { destruct al; [apply up8_multiple|reflexivity]. }
  cbv zeta. destruct (Nat.eqb_spec (8 * fst sz + snd sz) 0) as [Z|NZ].
  - destruct N as (q & E & A). exists q. split; [exact E|]. apply at_position in A. lia.
  - destruct (Nat.leb_spec (len (pb_bits p)) (fpos al (position p))) as [L|L].
    + unfold slice in N. rewrite skipn_all2 in N by auto. rewrite firstn_nil in N. exact N.
    + unfold slice in N. destruct (firstn _ _) as [|b g] eqn:F.
      * exfalso. apply (f_equal (@List.length _)) in F. rewrite firstn_length, skipn_length in F.
        cbn [List.length] in F. lia.
      * destruct N as (q & E & A). exists q. split; [exact E|]. apply at_position in A. tauto.
Qed.

(** Two octets, three bits, an aligned request for one bit. *)
Example C33_case :
  run [((2, 0), false); ((0, 3), false); ((0, 1), true)]%nat
      (PB (bytes_bits [1; 2; 255; 128]) off_init) =
  Ok ([258; 7; 1], PB (bytes_bits [1; 2; 255; 128]) (Off 3 0 3 1)) /\
  proper (PB (bytes_bits [1; 2; 255; 128]) off_init).
Proof. split; [vm_compute; reflexivity|unfold proper; cbn; lia]. Qed.

(** * C10: the rest of the input *)

Definition stable {A} (d : D A) : Prop :=
  forall p s pos a p', at_ p s pos -> d p = Ok (a, p') ->
  exists pos', at_ p' s pos' /\ (pos <= pos')%nat /\
    forall q extra, (pos' <= len s)%nat -> at_ q (s ++ extra) pos ->
      exists q', d q = Ok (a, q') /\ at_ q' (s ++ extra) pos'.

Lemma stable_ret {A} (a : A) : stable (ret a).
Proof.
  intros p s pos a' p' H E. injection E as <- <-. exists pos. repeat split; auto; try apply H.
  intros q extra _ Hq. exists q. auto.
Qed.

Lemma stable_fail {A} e : stable (@fail A e).
Proof. intros p s pos a p' _ E. discriminate. Qed.

Lemma stable_lift {A} (r : res A) : stable (lift r).
Proof.
  destruct r as [a|e]; [apply stable_ret|]. intros p s pos a p' _ E. discriminate.
Qed.

Lemma stable_bind {A B} (d : D A) (k : A -> D B) :
  stable d -> (forall a, stable (k a)) -> stable (dbind d k).
Proof.
  intros Hd Hk p s pos b p'' H E. unfold dbind in E.
  destruct (d p) as [[a p']|] eqn:Ed; [|discriminate].
  destruct (Hd p s pos a p' H Ed) as (pos1 & A1 & L1 & R1).
  destruct (Hk a p' s pos1 b p'' A1 E) as (pos2 & A2 & L2 & R2).
  exists pos2. split; auto. split; [lia|]. intros q extra L Hq.
  destruct (R1 q extra ltac:(lia) Hq) as (q1 & E1 & B1).
  destruct (R2 q1 extra L B1) as (q2 & E2 & B2). exists q2. unfold dbind. rewrite E1. auto.
Qed.

Lemma slice_app s extra pos n : (pos + n <= len s)%nat -> slice (s ++ extra) pos n = slice s pos n.
Proof.
  intros H. unfold slice. rewrite skipn_app, firstn_app, skipn_length.
  replace (n - (len s - pos))%nat with 0%nat by lia. cbn [firstn]. apply app_nil_r.
Qed.

Lemma stable_next sz al : stable (per_next sz al).
Proof.
  intros p s pos a p' H E. pose proof (per_next_spec p s pos sz al H) as N. cbv zeta in N.
  pose proof (fpos_ge al pos) as G.
  destruct (if Nat.eqb (8 * fst sz + snd sz) 0 then [false] else slice s (fpos al pos) (8 * fst sz + snd sz))
    as [|b g] eqn:EG; [congruence|].
  destruct N as (p1 & E1 & A1). rewrite E1 in E. injection E as <- <-.
  eexists. split; [exact A1|]. split; [lia|]. intros q extra L Hq.
  pose proof (per_next_spec q _ pos sz al Hq) as N. cbv zeta in N.
  rewrite slice_app in N by lia. rewrite EG in N. exact N.
Qed.

Lemma stable_ext {A} (d d' : D A) : (forall p, d p = d' p) -> stable d -> stable d'.
Proof.
  intros X H p s pos a p' Hp E. rewrite <- X in E. destruct (H p s pos a p' Hp E) as (pos' & A1 & L & R).
  exists pos'. repeat split; auto; try apply A1. intros q extra Lq Hq. rewrite <- X. auto.
Qed.

Create HintDb stab.
#[local] Hint Resolve stable_ret stable_fail stable_lift stable_next : stab.

Ltac stab :=
  repeat first
    [ solve [auto with stab]
    | apply stable_bind; [|intros ?]
    | match goal with
      | |- stable (if ?b then _ else _) => destruct b
      | |- stable (match ?x with _ => _ end) => destruct x
      | |- stable (next_bits _) => apply stable_next
      | |- stable (next_octets _) => apply stable_next
      | |- stable align => apply stable_next
      end ].

Lemma stable_nonneg size al : stable (decode_non_negative size al).
Proof. unfold decode_non_negative. stab. Qed.
#[local] Hint Resolve stable_nonneg : stab.

Lemma stable_constrained lb ub : stable (decode_constrained_whole_number lb ub).
Proof. unfold decode_constrained_whole_number. cbv zeta. stab. Qed.
#[local] Hint Resolve stable_constrained : stab.

Lemma stable_nsl : stable dec_length_normally_small.
Proof. unfold dec_length_normally_small. stab. Qed.
Lemma stable_lc lb ub : stable (dec_length_constrained lb ub).
Proof. unfold dec_length_constrained. stab. Qed.
Lemma stable_lu : stable dec_length_unconstrained.
Proof. unfold dec_length_unconstrained. stab. Qed.
#[local] Hint Resolve stable_nsl stable_lc stable_lu : stab.

Lemma stable_cfl lo hi : stable (decode_constrained_from_field_list lo hi).
Proof. unfold decode_constrained_from_field_list. stab. Qed.
Lemma stable_semi lb : stable (decode_semi_constrained lb).
Proof. unfold decode_semi_constrained. stab. Qed.
#[local] Hint Resolve stable_cfl stable_semi : stab.
Lemma stable_ns lb : stable (decode_normally_small lb).
Proof. unfold decode_normally_small. stab. Qed.
Lemma stable_unc : stable decode_unconstrained_whole_number.
Proof. unfold decode_unconstrained_whole_number. stab. Qed.
#[local] Hint Resolve stable_ns stable_unc : stab.

Lemma stable_bool : stable decode_boolean.
Proof. unfold decode_boolean. stab. Qed.
Lemma stable_integer c : stable (decode_integer c).
Proof. unfold decode_integer. stab. Qed.
Lemma stable_enumerated e r a : stable (decode_enumerated e r a).
Proof. unfold decode_enumerated. stab. Qed.
Lemma stable_bitstring c : stable (decode_bitstring c).
Proof. unfold decode_bitstring. cbv zeta. stab. Qed.
Lemma stable_octetstring c : stable (decode_octetstring c).
Proof. unfold decode_octetstring. cbv zeta. stab. Qed.
#[local] Hint Resolve stable_bool stable_integer stable_enumerated stable_bitstring stable_octetstring : stab.

(** What the octets of an open type hold does not touch the outer input. *)
Lemma stable_inner {A} (r : res (A * perbytes)) :
  stable (fun q => match r with Ok (a, _) => Ok (a, q) | Err e => Err e end).
Proof.
  destruct r as [[a x]|e].
  - apply (stable_ret a).
  - apply (@stable_fail A e).
Qed.

Lemma stable_open {A} (inner : D A) : stable (decode_open_type_field inner).
Proof.
  unfold decode_open_type_field. stab. apply stable_inner.
Qed.
#[local] Hint Resolve stable_open : stab.

Lemma stable_root dec cs : Forall (fun c => stable (dec (cty c))) cs -> forall bm, stable (dec_root dec cs bm).
Proof.
  induction 1 as [|c cs Hc H IH]; intros bm; cbn [dec_root]; [stab|].
  destruct (is_mandatory c); [|destruct bm as [|b bm]]; stab.
Qed.

Lemma stable_root_part dec cs : Forall (fun c => stable (dec (cty c))) cs -> stable (dec_root_part dec cs).
Proof. intros H. unfold dec_root_part. pose proof (stable_root dec cs H). stab. Qed.

Lemma stable_adds dec cs : forall bm, stable (dec_adds dec cs bm).
Proof. induction cs as [|c cs IH]; intros [|b bm]; cbn [dec_adds]; stab. Qed.

Lemma stable_groups dec gs : forall bm, stable (dec_groups dec gs bm).
Proof. induction gs as [|g gs IH]; intros [|b bm]; cbn [dec_groups]; stab. Qed.
#[local] Hint Resolve stable_adds stable_groups : stab.

Lemma stable_n (d : D val) n : stable d -> stable (dec_n d n).
Proof. intros H. induction n; cbn [dec_n]; stab. Qed.

Lemma stable_pick {A} (l : list A) i : stable (pick l i).
Proof. unfold pick. stab. Qed.
#[local] Hint Resolve stable_pick : stab.

Lemma pick_in {A} (l : list A) i p a p' : pick l i p = Ok (a, p') -> In a l /\ p' = p.
Proof.
  unfold pick. destruct (nth_error l (Z.to_nat i)) as [x|] eqn:E; [|discriminate].
  intros [= <- <-]. split; auto. eapply nth_error_In; eauto.
Qed.

Lemma stable_pick_bind {A B} (l : list A) i (k : A -> D B) : (forall a, In a l -> stable (k a)) ->
  stable (do a <- pick l i; k a).
Proof.
  intros H. unfold pick, dbind. destruct (nth_error l (Z.to_nat i)) as [x|] eqn:E.
  - apply (stable_ext (k x)); [reflexivity|]. apply H. eapply nth_error_In; eauto.
  - apply (@stable_fail B PyIndexError).
Qed.

Theorem dec_stable t : stable (dec t).
Proof.
  induction t using ty_rect'; cbn [dec]; auto with stab.
  - unfold decode_sequence. pose proof (stable_root_part dec r H). stab.
  - unfold decode_sequence_of, dec_seqof_len. stab. apply stable_n. stab.
  - unfold decode_choice. cbv zeta.
    assert (R : forall i, stable (do a0 <- pick (map (fun c => (cty c, dec (cty c))) r) i;
              do d <- snd a0; do v <- lift (cast (fst a0) d);
              ret (DVal (VChoice (Some (Z.to_nat i, v)))))).
    { intros i. apply stable_pick_bind. intros x Hx. apply in_map_iff in Hx as (c & <- & Hc).
      rewrite Forall_forall in H. cbn [fst snd]. apply stable_bind; [now apply H|]. intros d. stab. }
    stab.
Qed.

(** Octets after the message do not change the result when the message ended
    within the input. *)
Theorem C10_rest_ignored : forall bs extra t v p,
  Forall (fun b => 0 <= b < 256) bs -> Forall (fun b => 0 <= b < 256) extra ->
  decode_pos bs t = Ok (v, p) -> (position p <= 8 * List.length bs)%nat ->
  exists q, decode_pos (bs ++ extra) t = Ok (v, q) /\ position q = position p.
Proof.
  intros bs extra t v p Hb Hx E L. unfold decode_pos in *.
  assert (Hne : bs <> []) by (intros ->; discriminate).
  destruct (per_init_ok bs Hb Hne) as (p0 & E0 & A0). rewrite E0 in E. cbn [bind] in E.
  destruct (per_init_ok (bs ++ extra)) as (q0 & F0 & B0).
  { now apply Forall_app. }
  { destruct bs; [congruence|discriminate]. }
  rewrite F0. cbn [bind]. destruct (dec t p0) as [[d p1]|] eqn:D; [|discriminate]. cbn [bind fst snd] in E.
  assert (EP : p1 = p).
  { destruct d as [v0|].
    - destruct (eq_empty v0); [|congruence]. destruct (from_empty t); [|discriminate]. cbn [bind] in E. congruence.
    - destruct (from_empty t); [|discriminate]. cbn [bind] in E. congruence. }
  subst p1. destruct (dec_stable t p0 _ _ _ _ A0 D) as (pos' & A1 & _ & R).
  pose proof (at_position _ _ _ A1) as (P1 & _). rewrite obits_app in B0.
  destruct (R q0 (obits extra)) as (q1 & E1 & B1); auto.
  { rewrite obits_length. lia. }
  rewrite E1. cbn [bind fst snd]. exists q1. apply at_position in B1 as (B1 & _). split; [|congruence].
  destruct d as [v0|].
  - destruct (eq_empty v0); [|congruence]. destruct (from_empty t); [|discriminate]. cbn [bind] in *. congruence.
  - destruct (from_empty t); [|discriminate]. cbn [bind] in *. congruence.
Qed.

Theorem C10_decode_rest_ignored : forall bs extra t v p,
  Forall (fun b => 0 <= b < 256) bs -> Forall (fun b => 0 <= b < 256) extra ->
  decode_pos bs t = Ok (v, p) -> (position p <= 8 * List.length bs)%nat ->
  decode bs t = Ok v /\ decode (bs ++ extra) t = Ok v.
Proof.
  intros bs extra t v p Hb Hx E L. destruct (C10_rest_ignored bs extra t v p Hb Hx E L) as (q & F & _).
  unfold decode. rewrite E, F. auto.
Qed.

(** The pointer never moves backwards. *)
Theorem C10_never_backwards : forall t p d p',
  proper p -> dec t p = Ok (d, p') ->
  (position p <= position p')%nat /\ proper p' /\ pb_bits p' = pb_bits p.
Proof.
  intros t p d p' P E. destruct (dec_stable t p _ _ _ _ (proper_at p P) E) as (pos' & A & L & _).
  apply at_position in A as (A & B & C). split; [lia|auto].
Qed.

Example C10_case : exists p,
  decode_pos [2; 5; 7; 99] (TInt CNone) = Ok (VInt 1287, p) /\ position p = 24%nat /\
  decode [2; 5; 7; 99; 255; 0] (TInt CNone) = Ok (VInt 1287).
Proof. eexists. split; [vm_compute; reflexivity|]. split; vm_compute; reflexivity. Qed.

(** * C12: truncated input *)

(** INTEGER with length 2 and one contents octet: accepted. *)
Theorem C12_truncated_refuted : exists bs t v p,
  decode_pos bs t = Ok (v, p) /\ (8 * List.length bs < position p)%nat.
Proof.
  exists [2; 1], (TInt CNone), (VInt 1). eexists. split; [vm_compute; reflexivity|vm_compute; lia].
Qed.

(** A message encoded by the library, cut short, and accepted with another
    value. *)
Theorem C12_cut_message_refuted : exists t v bs v',
  encode t v = Ok bs /\ decode (removelast bs) t = Ok v' /\ v' <> v.
Proof.
  exists (TInt CNone), (VInt 258), [2; 1; 2], (VInt 1).
  split; [vm_compute; reflexivity|]. split; [vm_compute; reflexivity|discriminate].
Qed.

(** No input at all raises. *)
Theorem C12_empty_partial : forall t, decode [] t = Err PyValueError.
Proof. reflexivity. Qed.

(** The last bits of an encoding are needed: a proper prefix of the encoding of a
    message either raises or leaves the pointer past the end of the input, so
    nothing is accepted within the input it had.  Missing: that it raises. *)
Theorem C12_overrun_partial : forall t v bs n v' p,
  supported t v -> encode t v = Ok bs -> (n < List.length bs)%nat ->
  decode_pos (firstn n bs) t = Ok (v', p) -> (8 * n < position p)%nat.
Proof.
  intros t v bs n v' p S E Ln D.
  apply encode_inv in E as (fs & E & Hbs & Hob & Hoct & Hne).
  destruct (rt_all t v fs S E) as (dv & C & R).
  destruct (Nat.lt_ge_cases (8 * n) (position p)) as [|L]; [auto|exfalso].
  assert (Hn : n <> 0%nat) by (intros ->; discriminate).
  assert (L' : (position p <= 8 * len (firstn n bs))%nat) by (rewrite firstn_length; lia).
  assert (HF : Forall octet (firstn n bs)).
  { rewrite <- (firstn_skipn n bs) in Hoct. apply Forall_app in Hoct. tauto. }
  assert (HS : Forall octet (skipn n bs)).
  { rewrite <- (firstn_skipn n bs) in Hoct. apply Forall_app in Hoct. tauto. }
  destruct (C10_rest_ignored (firstn n bs) (skipn n bs) t v' p HF HS D L') as (q & F & Q).
  rewrite firstn_skipn in F. unfold decode_pos in F.
  destruct (per_init_ok bs Hoct Hne) as (p0 & E0 & A0). rewrite E0 in F. cbn [bind] in F.
  destruct (produce_spec fs) as (k & Ek & K). rewrite Hob, Ek in A0.
  destruct (R 0%nat p0 [] (repeat false k) eq_refl A0) as (p1 & D1 & A1).
  rewrite D1 in F. cbn [bind fst snd] in F.
  assert (EP : p1 = q).
  { destruct dv as [v0|].
    - destruct (eq_empty v0); [|congruence]. destruct (from_empty t); [|discriminate]. cbn [bind] in F. congruence.
    - destruct (from_empty t); [|discriminate]. cbn [bind] in F. congruence. }
  subst p1. apply at_position in A1 as (A1 & _).
  assert (LB : (8 * len bs = len (render 0 fs) + k)%nat).
  { rewrite <- obits_length, Hob, Ek, app_length, repeat_length. reflexivity. }
  destruct K as [->|(K1 & ->)].
  - pose proof (padn_lt (len (render 0 fs))). cbn [List.length] in A1. lia.
  - rewrite K1 in LB. cbn [List.length] in LB. lia.
Qed.

(** Once past the end, the next request for any bit raises. *)
Theorem C12_past_the_end_partial : forall (sz : bsize) (al : bool) p,
  proper p -> (List.length (pb_bits p) <= position p)%nat -> (0 < 8 * fst sz + snd sz)%nat ->
  per_next sz al p = Err PyValueError.
Proof.
  intros sz al p P L H. destruct (C33_answer sz al p P) as (st & Hst & N). cbv zeta in N.
  assert (position p <= st)%nat by (destruct al; [unfold next_multiple in Hst; lia|lia]).
  destruct (Nat.eqb_spec (8 * fst sz + snd sz) 0); [lia|].
  destruct (Nat.leb_spec (len (pb_bits p)) st); [auto|lia].
Qed.

Example C12_case :
  supported (TSeq false [Comp "a" Mand (TInt CNone); Comp "b" Mand TBool] [] [])
            (VSeq (Some [Some (VInt 258); Some (VBool true)])) /\
  encode (TSeq false [Comp "a" Mand (TInt CNone); Comp "b" Mand TBool] [] [])
         (VSeq (Some [Some (VInt 258); Some (VBool true)])) = Ok [2; 1; 2; 128] /\
  decode [2; 1; 2] (TSeq false [Comp "a" Mand (TInt CNone); Comp "b" Mand TBool] [] []) = Err PyValueError /\
  decode [2; 1] (TSeq false [Comp "a" Mand (TInt CNone); Comp "b" Mand TBool] [] []) = Err PyValueError.
Proof.
  split; [|repeat split; vm_compute; reflexivity].
  cbn [supported_by]. cbv zeta. split; [repeat constructor; cbn; intuition discriminate|].
  split; [reflexivity|]. split; [auto|]. split; [|split; [intros p []|exact I]].
  intros p [<-|[<-|[]]]; [|exact I]. unfold supp_root. cbn [fst snd cpres supported_by slot_get].
  split; [reflexivity|]. cbn. split; [reflexivity|]. unfold sfits. split.
  - apply (Z.le_trans _ 0); [|lia]. assert (0 < 2 ^ (8 * 255 - 1)) by (apply Z.pow_pos_nonneg; lia). lia.
  - apply (Z.lt_le_trans _ (2 ^ 15)); [reflexivity|]. apply Z.pow_le_mono_r; lia.
Qed.

(** * C27: open types *)

(** The octet that begins at bit [i]; 0 past the end. *)
Definition octet_at (s : bits) (i : nat) : nat := Z.to_nat (bval (firstn 8 (skipn i s))).

Lemma next_inv p s pos sz al z p' : at_ p s pos -> per_next sz al p = Ok (z, p') ->
  let w := (8 * fst sz + snd sz)%nat in
  at_ p' s (fpos al pos + w) /\ (w = 0%nat /\ z = 0 \/ (fpos al pos < len s)%nat /\ z = bval (slice s (fpos al pos) w)).
Proof.
  intros H E w. pose proof (per_next_spec p s pos sz al H) as N. cbv zeta in N. fold w in N.
  destruct (Nat.eqb_spec w 0) as [W|W].
  - destruct N as (q & E1 & A1). rewrite E1 in E. injection E as <- <-. split; [exact A1|]. left. auto.
  - destruct (slice s (fpos al pos) w) as [|b g] eqn:G; [congruence|].
    destruct N as (q & E1 & A1). rewrite E1 in E. injection E as <- <-. split; [exact A1|]. right. split; auto.
    destruct (Nat.lt_ge_cases (fpos al pos) (len s)); auto.
    unfold slice in G. rewrite skipn_all2, firstn_nil in G by auto. discriminate.
Qed.

Lemma dbind_inv {A B} (d : D A) (k : A -> D B) p b p'' : dbind d k p = Ok (b, p'') ->
  exists a p', d p = Ok (a, p') /\ k a p' = Ok (b, p'').
Proof. unfold dbind. destruct (d p) as [[a p']|]; [eauto|discriminate]. Qed.

Lemma next_multiple_up8 n a : next_multiple n a -> a = up8 n.
Proof. intros (A & k & ->). destruct (up8_multiple n) as (B & k' & E). lia. Qed.

Lemma skipn_skipn' {A} (l : list A) : forall n m, skipn n (skipn m l) = skipn (m + n) l.
Proof. induction l as [|x l IH]; intros n [|m]; cbn; auto. now rewrite skipn_nil. Qed.

Lemma slice_plus s i a b : slice s i (a + b) = slice s i a ++ slice s (i + a) b.
Proof.
  unfold slice. rewrite <- (firstn_skipn a (skipn i s)) at 1.
  rewrite firstn_app, firstn_firstn, skipn_skipn'. rewrite firstn_length.
  replace (Nat.min (a + b) a) with a by lia. f_equal.
  destruct (Nat.le_gt_cases a (len (skipn i s))) as [L|L].
  - replace (a + b - Nat.min a (len (skipn i s)))%nat with b by lia. reflexivity.
  - rewrite skipn_length in L. rewrite (@skipn_all2 _ (i + a) s) by lia. now rewrite !firstn_nil.
Qed.

Lemma slice_length s i n : (i + n <= len s)%nat -> len (slice s i n) = n.
Proof. intros H. unfold slice. rewrite firstn_length, skipn_length. lia. Qed.

(** After an open type has been decoded the pointer is at the end of the declared
    octets: one length octet below 128, or two with 14 bits of length.  [inner] is
    any decoder; the input is whole octets, as every message is (the only other input
    is the four zero bits made from an open type of length 0). *)
Theorem C27_open_type_end : forall (A : Type) (inner : D A) p a p' start,
  proper p -> Nat.modulo (List.length (pb_bits p)) 8 = 0%nat ->
  next_multiple (position p) start ->
  decode_open_type_field inner p = Ok (a, p') ->
  let o := octet_at (pb_bits p) start in
  position p' = (if Nat.ltb o 128 then start + 8 + 8 * o
                 else start + 16 + 8 * (256 * (o - 128) + octet_at (pb_bits p) (start + 8)))%nat
  /\ pb_bits p' = pb_bits p.
Proof.
  intros A inner p a p' start P M8 NM E. apply next_multiple_up8 in NM. cbv zeta.
  pose proof (proper_at p P) as AT. set (s := pb_bits p) in *. set (pos := position p) in *.
  unfold decode_open_type_field in E. apply dbind_inv in E as (n & q & E1 & E).
  apply dbind_inv in E as (v & q2 & E2 & E). apply dbind_inv in E as (h & q3 & E3 & E).
  apply dbind_inv in E as (pin & q4 & E4 & E).
  assert (Q : q3 = q2).
  { unfold lift in E3. destruct (hex_zfill v n); congruence. }
  assert (Q' : q4 = q3).
  { unfold lift in E4. destruct (per_init h); congruence. }
  assert (Q'' : p' = q4).
  { destruct (inner pin) as [[x y]|]; congruence. }
  subst q3 q4 p'. clear E3 E4 E.
  assert (U8 : Nat.modulo start 8 = 0%nat) by (subst start; apply up8_mod).
  unfold dec_length_unconstrained in E1. apply dbind_inv in E1 as (z0 & r0 & E0 & E1).
  destruct (next_inv _ _ _ _ _ _ _ AT E0) as (A0 & _). cbn [fst snd fpos] in A0. rewrite <- NM in A0.
  replace (start + (8 * 0 + 0))%nat with start in A0 by lia.
  apply dbind_inv in E1 as (b & r1 & EB & E1).
  destruct (next_inv _ _ _ _ _ _ _ A0 EB) as (A1 & [(W & _)|(L1 & VB)]); [cbn in W; lia|].
  cbn [fst snd fpos] in A1, VB, L1.
  replace (start + (8 * 0 + 1))%nat with (start + 1)%nat in A1 by lia.
  assert (L8 : (start + 8 <= len s)%nat) by lia.
  assert (OC : octet_at s start = Z.to_nat (bval (slice s start 8))) by reflexivity.
  assert (S8 : slice s start 8 = slice s start 1 ++ slice s (start + 1) 7) by (apply (slice_plus s start 1 7)).
  assert (V8 : bval (slice s start 8) = b * 128 + bval (slice s (start + 1) 7)).
  { rewrite S8, bval_app, slice_length by lia. change (2 ^ Z.of_nat 7) with 128.
    rewrite VB. reflexivity. }
  assert (B1 : 0 <= b < 2).
  { rewrite VB. pose proof (bval_range (slice s start 1)) as R. rewrite slice_length in R by lia. exact R. }
  assert (B7 : 0 <= bval (slice s (start + 1) 7) < 128).
  { pose proof (bval_range (slice s (start + 1) 7)) as R. rewrite slice_length in R by lia. exact R. }
  destruct (Z.eqb_spec b 0) as [B0|B0].
  - unfold decode_non_negative in E1. apply dbind_inv in E1 as (z & r2 & EZ & E1).
    destruct (next_inv _ _ _ _ _ _ _ A1 EZ) as (A2 & [(W & _)|(L2 & VZ)]); [cbn in W; lia|].
    cbn [fst snd fpos] in A2, VZ. apply dbind_inv in E1 as (z1 & r3 & EA & E1).
    injection E1 as <- <-. destruct (next_inv _ _ _ _ _ _ _ A2 EA) as (A3 & _). cbn [fst snd fpos] in A3.
    replace (up8 (start + 1 + (8 * 0 + 7)) + (8 * 0 + 0))%nat with (start + 8)%nat in A3.
    2:{ replace (start + 1 + (8 * 0 + 7))%nat with (start + 8)%nat by lia. rewrite up8_id by lia. lia. }
    destruct (next_inv _ _ _ _ _ _ _ A3 E2) as (A4 & _). cbn [fst snd fpos] in A4.
    rewrite up8_id in A4 by lia.
    apply at_position in A4 as (A4 & _ & A5). split; [|exact A5].
    rewrite OC, V8, B0, A4. replace (8 * 0 + 7)%nat with 7%nat in VZ by lia. rewrite <- VZ in *.
    destruct (Nat.ltb_spec (Z.to_nat (0 * 128 + z)) 128); lia.
  - apply dbind_inv in E1 as (b2 & r2 & EB2 & E1).
    destruct (next_inv _ _ _ _ _ _ _ A1 EB2) as (A2 & [(W & _)|(L2 & VB2)]); [cbn in W; lia|].
    cbn [fst snd fpos] in A2, VB2. replace (8 * 0 + 1)%nat with 1%nat in VB2 by lia.
    replace (start + 1 + (8 * 0 + 1))%nat with (start + 2)%nat in A2 by lia.
    destruct (Z.eqb_spec b2 0) as [Z2|Z2]; [|discriminate].
    unfold decode_non_negative in E1. apply dbind_inv in E1 as (z & r3 & EZ & E1).
    destruct (next_inv _ _ _ _ _ _ _ A2 EZ) as (A3 & [(W & _)|(L3 & VZ)]); [cbn in W; lia|].
    cbn [fst snd fpos] in A3, VZ. apply dbind_inv in E1 as (z1 & r4 & EA & E1).
    injection E1 as <- <-. destruct (next_inv _ _ _ _ _ _ _ A3 EA) as (A4 & _). cbn [fst snd fpos] in A4.
    replace (up8 (start + 2 + (8 * 1 + 6)) + (8 * 0 + 0))%nat with (start + 16)%nat in A4.
    2:{ replace (start + 2 + (8 * 1 + 6))%nat with (start + 16)%nat by lia. rewrite up8_id by lia. lia. }
    destruct (next_inv _ _ _ _ _ _ _ A4 E2) as (A5 & L5). cbn [fst snd fpos] in A5, L5.
    rewrite up8_id in A5, L5 by lia.
    apply at_position in A5 as (A5 & _ & A6). split; [|exact A6].
    assert (S7 : slice s (start + 1) 7 = slice s (start + 1) 1 ++ slice s (start + 2) 6).
    { replace (start + 2)%nat with (start + 1 + 1)%nat by lia. apply (slice_plus s (start + 1) 1 6). }
    assert (V7 : bval (slice s (start + 1) 7) = bval (slice s (start + 2) 6)).
    { rewrite S7, bval_app, <- VB2, Z2. reflexivity. }
    rewrite OC, V8, V7. assert (HB : b = 1) by lia. clear VB EB B1 B0 V8. subst b. rewrite V7 in B7.
    replace (1 * 128) with 128 in * by lia.
    destruct (Nat.ltb_spec (Z.to_nat (128 + bval (slice s (start + 2) 6))) 128) as [X|_]; [lia|].
    rewrite A5. change (8 * 1 + 6)%nat with (6 + 8)%nat in VZ. rewrite slice_plus in VZ.
    replace (start + 2 + 6)%nat with (start + 8)%nat in VZ by lia.
    unfold octet_at. fold (slice s (start + 8) 8).
    destruct (Nat.le_gt_cases (start + 16) (len s)) as [L16|L16].
    + rewrite bval_app, (slice_length s (start + 8) 8) in VZ by lia. change (2 ^ Z.of_nat 8) with 256 in VZ.
      pose proof (bval_range (slice s (start + 8) 8)). lia.
    + assert (Z8 : slice s (start + 8) 8 = []).
      { unfold slice. rewrite skipn_all2 by lia. apply firstn_nil. }
      rewrite Z8, app_nil_r in VZ. rewrite Z8. change (bval []) with 0.
      destruct L5 as [(W & _)|(W & _)]; lia.
Qed.

(** The inner value does not influence where decoding goes on: two decoders on
    the same open type end at the same place. *)
Theorem C27_inner_irrelevant : forall (A B : Type) (i1 : D A) (i2 : D B) p a b p1 p2,
  decode_open_type_field i1 p = Ok (a, p1) -> decode_open_type_field i2 p = Ok (b, p2) -> p1 = p2.
Proof.
  intros A B i1 i2 p a b p1 p2 E1 E2. unfold decode_open_type_field in *.
  apply dbind_inv in E1 as (n & q & X & E1). apply dbind_inv in E2 as (n' & q' & X' & E2).
  rewrite X in X'. injection X' as <- <-.
  apply dbind_inv in E1 as (v & q2 & Y & E1). apply dbind_inv in E2 as (v' & q2' & Y' & E2).
  rewrite Y in Y'. injection Y' as <- <-.
  apply dbind_inv in E1 as (h & q3 & H & E1). apply dbind_inv in E2 as (h' & q3' & H' & E2).
  rewrite H in H'. injection H' as <- <-.
  apply dbind_inv in E1 as (r & q4 & I & E1). apply dbind_inv in E2 as (r' & q4' & I' & E2).
  rewrite I in I'. injection I' as <- <-.
  destruct (i1 r) as [[? ?]|]; [|discriminate]. destruct (i2 r) as [[? ?]|]; [|discriminate]. congruence.
Qed.

(** An open type of 3 octets holding a BOOLEAN: 2 octets and 7 bits are skipped. *)
Example C27_case : exists p',
  decode_open_type_field (dec TBool) (PB (bytes_bits [3; 128; 5; 6; 7]) off_init) = Ok (DVal (VBool true), p') /\
  position p' = 32%nat.
Proof. eexists. split; [vm_compute; reflexivity|reflexivity]. Qed.
