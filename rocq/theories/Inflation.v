(** How large an object some octets can make (property C58). *)
From Coq Require Import ZArith List String Bool Lia.
From Coq Require Import ZifyBool ZifyNat.
Import ListNotations.
From Verif Require Import PyBase Schema Encoder Decoder BitFacts Prims Stream Spec RoundTrip Robust Valid Exact.
Open Scope Z_scope.

(** * Size of an object *)

(** The bits of its strings and the elements of its lists, at any depth. *)
Fixpoint weight (v : val) : Z :=
  match v with
  | VBits s => zlen s
  | VOcts bs => 8 * zlen bs
  | VSeq (Some slots) => fold_right (fun o n => match o with Some x => weight x | None => 0 end + n) 0 slots
  | VSeqOf vs => fold_right (fun x n => 1 + weight x + n) 0 vs
  | VChoice (Some (_, x)) => weight x
  | _ => 0
  end.

(** * Types whose lists cannot grow out of nothing *)

(** Every encoding of the type takes a bit. *)
Fixpoint visible (t : ty) : bool :=
  match t with
  | TBool => true
  | TInt c => cext c || negb (some_eq (clo c) (chi c))
  | TEnum ext root adds => ext || (2 <=? zlen (root ++ adds))
  | TBits c | TOcts c => cext c || negb (opt_is (chi c) 0)
  | TSeq ext root _ _ => ext || existsb (fun c => negb (is_mandatory c) || visible (cty c)) root
  | TSeqOf c t' =>
      cext c || negb (some_eq (clo c) (chi c)) ||
      match clo c with Some l => (0 <? l) && (l <? 65536) && visible t' | None => false end
  | TChoice ext root _ _ => ext || negb (Nat.eqb (List.length root) 1) || forallb (fun c => visible (cty c)) root
  end.

(** Every list in the type has such elements, and no string a negative size. *)
Fixpoint narrow (t : ty) : bool :=
  match t with
  | TBits c | TOcts c => match clo c with Some l => 0 <=? l | None => true end
  | TSeq _ r a g | TChoice _ r a g =>
      forallb (fun c => narrow (cty c)) r && forallb (fun c => narrow (cty c)) a &&
      forallb (forallb (fun c => narrow (cty c))) g
  | TSeqOf _ t' => visible t' && narrow t'
  | _ => true
  end.

(** * The bound *)

(** At most [fst] for every bit of the input, and [snd] more when the input ends
    inside the object (the missing bits are made up as zeros: C12).  In an open
    type both can happen for every one of them. *)
Definition sup (x y : Z * Z) : Z * Z := (Z.max (fst x) (fst y), Z.max (snd x) (snd y)).
Definition most (l : list (Z * Z)) : Z * Z := fold_right sup (0, 0) l.
Definition opened (x : Z * Z) : Z * Z := (fst x + snd x, 131064 * fst x + snd x).
Definition room (c : constr) : Z := 65536 + match clo c with Some l => Z.max 0 l | None => 0 end.

Fixpoint rate (t : ty) : Z * Z :=
  match t with
  | TBits c => (1, room c)
  | TOcts c => (1, 8 * room c)
  | TSeq ext r a g | TChoice ext r a g =>
      sup (most (map (fun c => rate (cty c)) r))
          (if ext then opened (most (map (fun c => rate (cty c)) a ++ List.concat (map (map (fun c => rate (cty c))) g)))
           else (0, 0))
  | TSeqOf _ t' => (1 + fst (rate t'), snd (rate t'))
  | _ => (0, 0)
  end.

(** * What a decoding step uses *)

Definition used (s : bits) (pos pos' : nat) : Z := Z.of_nat (Nat.min (len s) pos') - Z.of_nat (Nat.min (len s) pos).
Definition over (s : bits) (pos : nat) : Z := if (len s <? pos)%nat then 1 else 0.

(** The step uses at least [w] bits that are there, and what it makes is bounded. *)
Definition spends {A} (r : Z * Z) (w : Z) (m : A -> Z) (d : D A) : Prop :=
  forall p s pos a p', at_ p s pos -> d p = Ok (a, p') ->
  exists pos', at_ p' s pos' /\ (pos <= pos')%nat /\ w <= used s pos pos' /\
    m a <= fst r * used s pos pos' + snd r * (over s pos' - over s pos).

Lemma used_nonneg s a b : (a <= b)%nat -> 0 <= used s a b.
Proof. unfold used. lia. Qed.
Lemma used_add s a b c : used s a b + used s b c = used s a c.
Proof. unfold used. lia. Qed.
Lemma over_mono s a b : (a <= b)%nat -> 0 <= over s b - over s a <= 1.
Proof. unfold over. intros. destruct (Nat.ltb_spec (len s) a), (Nat.ltb_spec (len s) b); lia. Qed.

Definition leq (x y : Z * Z) : Prop := fst x <= fst y /\ snd x <= snd y.

Lemma spends_weaken {A} r r' w w' m m' (d : D A) :
  leq r r' -> w' <= w -> post d (fun a => m' a <= m a) -> spends r w m d -> spends r' w' m' d.
Proof.
  intros (L1 & L2) W M S0 p s pos a p' H E. destruct (S0 p s pos a p' H E) as (pos' & A1 & L & W' & B).
  exists pos'. split; auto. split; auto. split; [lia|]. specialize (M p a p' E). cbn beta in M.
  pose proof (used_nonneg s pos pos' L) as U. pose proof (over_mono s pos pos' L) as O.
  pose proof (Z.mul_le_mono_nonneg_r _ _ _ U L1). pose proof (Z.mul_le_mono_nonneg_r _ _ _ (proj1 O) L2). lia.
Qed.

Lemma spends_ret {A} r (a : A) m : m a <= 0 -> spends r 0 m (ret a).
Proof.
  intros M p s pos a' p' H E. injection E as <- <-. exists pos. split; auto. split; auto.
  unfold used. split; lia.
Qed.

Lemma spends_fail {A} r w m e : spends r w m (@fail A e).
Proof. intros p s pos a p' _ E. discriminate. Qed.

Lemma spends_lift {A} r (x : res A) m : (forall a, x = Ok a -> m a <= 0) -> spends r 0 m (lift x).
Proof. destruct x as [a|e]; intros M; [apply spends_ret; auto|]. intros p s pos a p' _ E. discriminate. Qed.

Lemma spends_bind {A B} r w1 w2 m1 (m : B -> Z) Q (d : D A) (k : A -> D B) :
  spends r w1 m1 d -> post d Q -> (forall a, Q a -> spends r w2 (fun b => m b - m1 a) (k a)) ->
  spends r (w1 + w2) m (dbind d k).
Proof.
  intros S1 PQ S2 p s pos b p'' H E. apply dbind_inv in E as (a & p' & E1 & E2).
  destruct (S1 p s pos a p' H E1) as (pos1 & A1 & L1 & W1 & B1).
  destruct (S2 a (PQ p a p' E1) p' s pos1 b p'' A1 E2) as (pos2 & A2 & L2 & W2 & B2).
  exists pos2. split; auto. split; [lia|]. rewrite <- (used_add s pos pos1 pos2). split; [lia|].
  cbn beta in *. rewrite Z.mul_add_distr_l. rewrite !Z.mul_sub_distr_l in *. lia.
Qed.

(** The first step makes nothing; the bits are used in the one or the other. *)
Lemma spends_then {A B} r w (m : B -> Z) (d : D A) (k : A -> D B) :
  spends r 0 (fun _ => 0) d -> (forall a, spends r w m (k a)) -> spends r w m (dbind d k).
Proof.
  intros S1 S2. replace w with (0 + w) by lia. eapply spends_bind; [exact S1|apply post_any|].
  intros a _ p s pos b p' H E. destruct (S2 a p s pos b p' H E) as (q & X & Y & W & V). exists q. cbn beta in *. split; auto. split; auto. split; lia.
Qed.
Lemma spends_given {A B} r w (m : B -> Z) (Q : A -> Prop) (d : D A) (k : A -> D B) :
  spends r 0 (fun _ => 0) d -> post d Q -> (forall a, Q a -> spends r w m (k a)) -> spends r w m (dbind d k).
Proof.
  intros S1 PQ S2. replace w with (0 + w) by lia. eapply spends_bind; [exact S1|exact PQ|].
  intros a Qa p s pos b p' H E. destruct (S2 a Qa p s pos b p' H E) as (q & X & Y & W & V). exists q. cbn beta in *.
  split; auto. split; auto. split; lia.
Qed.
Lemma spends_first {A B} r w (m : B -> Z) (d : D A) (k : A -> D B) :
  spends r w (fun _ => 0) d -> (forall a, spends r 0 m (k a)) -> spends r w m (dbind d k).
Proof.
  intros S1 S2. replace w with (w + 0) by lia. eapply spends_bind; [exact S1|apply post_any|].
  intros a _ p s pos b p' H E. destruct (S2 a p s pos b p' H E) as (q & X & Y & W & V). exists q. cbn beta in *. split; auto. split; auto. split; lia.
Qed.

(** A read of [n] bits uses [n] bits, or ends behind the input. *)
Lemma spends_next sz al : let n := Z.of_nat (8 * fst sz + snd sz) in
  spends (1, n) (Z.min n 1) (fun _ => n) (per_next sz al).
Proof.
  intros n p s pos a p' H E. pose proof (next_inv p s pos sz al a p' H E) as (A1 & C). cbv zeta in C.
  pose proof (fpos_ge al pos) as G. exists (fpos al pos + (8 * fst sz + snd sz))%nat. split; [exact A1|]. split; [lia|].
  cbn [fst snd]. unfold used, over, n in *.
  destruct (Nat.ltb_spec (len s) pos), (Nat.ltb_spec (len s) (fpos al pos + (8 * fst sz + snd sz))); split; lia.
Qed.

(** Reading a number makes nothing. *)
Definition idle {A} (w : Z) (d : D A) : Prop := spends (0, 0) w (fun _ => 0) d.

Lemma idle_any {A} r w (d : D A) : 0 <= fst r -> 0 <= snd r -> idle w d -> spends r w (fun _ => 0) d.
Proof. intros L1 L2. apply spends_weaken; [split; auto|lia|]. intros p a p' _. lia. Qed.

Lemma idle_weak {A} w w' (d : D A) : w' <= w -> idle w d -> idle w' d.
Proof. intros L. apply spends_weaken; [split; cbn; lia|lia|]. intros p a p' _. lia. Qed.

Lemma idle_next sz al : idle (Z.min (Z.of_nat (8 * fst sz + snd sz)) 1) (per_next sz al).
Proof.
  intros p s pos a p' H E. destruct (spends_next sz al p s pos a p' H E) as (q & X & Y & W & _). exists q.
  cbn [fst snd]. split; auto. split; auto. split; lia.
Qed.
Lemma idle_bit : idle 1 (next_bits 1).
Proof. exact (idle_next (0, 1)%nat false). Qed.
Lemma idle_align : idle 0 align.
Proof. exact (idle_next (0, 0)%nat true). Qed.

Lemma idle_nonneg sz al : idle (Z.min (Z.of_nat (8 * fst sz + snd sz)) 1) (decode_non_negative (Some sz) al).
Proof.
  unfold decode_non_negative. apply spends_first; [apply idle_next|]. intros z.
  destruct al; [apply spends_then; [apply idle_align|]; intros _|]; apply spends_ret; lia.
Qed.

Lemma idle_stable {A} (d : D A) : stable d -> idle 0 d.
Proof.
  intros X p s pos a p' H E. destruct (X p s pos a p' H E) as (q & A1 & L & _). exists q. split; auto. split; auto.
  cbn [fst snd]. pose proof (used_nonneg s pos q L). lia.
Qed.

Lemma bit_size_pos r o : get_bit_field_size r = Ok o -> r <> 1 ->
  o = None \/ exists sz, o = Some sz /\ 1 <= Z.of_nat (8 * fst sz + snd sz).
Proof.
  unfold get_bit_field_size. intros E N. destruct (Z.eqb_spec r 1); [lia|].
  repeat match type of E with (if ?b then _ else _) = _ => destruct b; [injection E as <-; right; eexists; split; [reflexivity|cbn; lia]|] end.
  destruct (Z.ltb_spec 65536 r) as [L|L]; [|injection E as <-; auto].
  rewrite range_octet_ok in E by lia. cbn [bind] in E. apply ok_inj in E. subst o. right. eexists; split; [reflexivity|]. cbn [fst snd]. lia.
Qed.

Lemma idle_cwn lb ub : lb <> ub -> idle 1 (decode_constrained_whole_number lb ub).
Proof.
  intros N. unfold decode_constrained_whole_number, integer_range. cbv zeta.
  apply spends_given with (Q := fun o => o = None \/ exists sz, o = Some sz /\ 1 <= Z.of_nat (8 * fst sz + snd sz)).
  - apply spends_lift. lia.
  - destruct (Z.eq_dec (ub - lb + 1) 1); [lia|]. apply post_lift. intros o E. apply (bit_size_pos _ _ E). lia.
  - intros o O. destruct (Z.eqb_spec (ub - lb + 1) 1); [lia|].
    assert (X : forall al, idle 1 (decode_non_negative o al)).
    { intros al. destruct O as [->|(sz & -> & L)]; [apply (@spends_fail Z)|]. eapply idle_weak; [|apply idle_nonneg]. lia. }
    destruct (_ <=? 255); [|destruct (_ =? 256); [|destruct (_ && _); [|apply (@spends_fail Z)]]];
      try (apply spends_then; [apply idle_align|]; intros _); (apply spends_first; [apply X|]); intros z; apply spends_ret; lia.
Qed.

Lemma spends_lift_ok {A B} r w (m : B -> Z) (a : A) (k : A -> D B) : spends r w m (k a) -> spends r w m (dbind (lift (Ok a)) k).
Proof. intros X. exact X. Qed.

Lemma idle_lc lo hi : some_eq lo hi = false -> idle 1 (dec_length_constrained lo hi).
Proof.
  intros N. unfold dec_length_constrained. destruct hi as [h|]; [|apply (@spends_fail Z)].
  cbn [need]. apply spends_lift_ok. destruct lo as [l|]; [|apply (@spends_fail Z)]. cbn [need]. apply spends_lift_ok.
  apply idle_cwn. cbn [some_eq] in N. lia.
Qed.

Lemma idle_lu : idle 1 dec_length_unconstrained.
Proof.
  unfold dec_length_unconstrained. apply spends_then; [apply idle_align|]. intros _.
  apply spends_first; [apply idle_bit|]. intros b. destruct (b =? 0); [eapply idle_weak; [|apply idle_nonneg]; cbn; lia|].
  apply spends_then; [eapply idle_weak; [|apply idle_bit]; lia|]. intros b2. destruct (b2 =? 0); [|apply (@spends_fail Z)].
  eapply idle_weak; [|apply idle_nonneg]; cbn; lia.
Qed.

(** An unconstrained length takes an octet, if the input does not end in it. *)
Lemma spends_lu : spends (1, 8) 1 (fun _ => 8) dec_length_unconstrained.
Proof.
  intros p s pos n p' H E. destruct (idle_lu p s pos n p' H E) as (q0 & A0 & L0 & W0 & _).
  unfold dec_length_unconstrained in E. apply dbind_inv in E as (z0 & p0 & E0 & E).
  pose proof (next_inv _ _ _ _ _ _ _ H E0) as (A1 & _). cbv zeta in A1.
  apply dbind_inv in E as (b & p1 & E1 & E). pose proof (next_inv _ _ _ _ _ _ _ A1 E1) as (A2 & _). cbv zeta in A2.
  assert (X : exists q, at_ p' s q /\ (fpos true pos + 8 <= q)%nat).
  { destruct (b =? 0).
    - unfold decode_non_negative in E. apply dbind_inv in E as (v & p2 & E2 & E). pose proof (next_inv _ _ _ _ _ _ _ A2 E2) as (A3 & _).
      cbv zeta in A3. apply dbind_inv in E as (v' & p3 & E3 & E). pose proof (next_inv _ _ _ _ _ _ _ A3 E3) as (A4 & _).
      cbv zeta in A4. injection E as <- <-. eexists; split; [exact A4|]. cbn [fpos fst snd] in *. unfold up8. lia.
    - apply dbind_inv in E as (b2 & p2 & E2 & E). pose proof (next_inv _ _ _ _ _ _ _ A2 E2) as (A3 & _). cbv zeta in A3.
      destruct (b2 =? 0); [|discriminate].
      unfold decode_non_negative in E. apply dbind_inv in E as (v & p3 & E3 & E). pose proof (next_inv _ _ _ _ _ _ _ A3 E3) as (A4 & _).
      cbv zeta in A4. apply dbind_inv in E as (v' & p4 & E4 & E). pose proof (next_inv _ _ _ _ _ _ _ A4 E4) as (A5 & _).
      cbv zeta in A5. injection E as <- <-. eexists; split; [exact A5|]. cbn [fpos fst snd] in *. unfold up8. lia. }
  destruct X as (q & A3 & L). assert (q = q0) as -> by (pose proof (at_position _ _ _ A0); pose proof (at_position _ _ _ A3); intuition congruence).
  exists q0. split; auto. split; auto. split; auto. cbn [fst snd]. pose proof (fpos_ge true pos). unfold used, over in *.
  destruct (Nat.ltb_spec (len s) pos), (Nat.ltb_spec (len s) q0); lia.
Qed.

Lemma idle_cfl l h : l <> h -> idle 1 (decode_constrained_from_field_list (Some l) (Some h)).
Proof.
  intros N. unfold decode_constrained_from_field_list. cbn [need]. apply spends_lift_ok, spends_lift_ok.
  destruct (Z.leb_spec (integer_range l h) 65536) as [L|L]; [now apply idle_cwn|].
  unfold integer_range in L. rewrite range_octet_ok by lia. apply spends_lift_ok.
  apply spends_first; [apply idle_lc; cbn [some_eq]; lia|]. intros n. apply spends_then; [eapply idle_weak; [|apply idle_next]; lia|].
  intros v. apply spends_ret. lia.
Qed.

Lemma idle_semi l : idle 1 (decode_semi_constrained l).
Proof.
  unfold decode_semi_constrained. apply spends_first; [apply idle_lu|]. intros n.
  apply spends_then; [eapply idle_weak; [|apply idle_next]; lia|]. intros v. apply spends_ret. lia.
Qed.

Lemma idle_unc : idle 1 decode_unconstrained_whole_number.
Proof.
  unfold decode_unconstrained_whole_number. apply spends_first; [exact (idle_next (1, 0)%nat true)|]. intros n.
  apply spends_then; [eapply idle_weak; [|apply idle_next]; lia|]. intros v. apply spends_lift. lia.
Qed.

Lemma idle_ns l : idle 1 (decode_normally_small l).
Proof.
  unfold decode_normally_small. apply spends_first; [apply idle_bit|]. intros b. destruct (b =? 0).
  - eapply idle_weak; [|apply idle_nonneg]; cbn; lia.
  - apply spends_then; [apply idle_align|]. intros _. eapply idle_weak; [|apply idle_semi]; lia.
Qed.

Lemma idle_nsl : idle 1 dec_length_normally_small.
Proof.
  unfold dec_length_normally_small. apply spends_first; [apply idle_bit|]. intros b. destruct (b =? 0); [|apply (@spends_fail Z)].
  apply spends_then; [eapply idle_weak; [|apply idle_nonneg]; cbn; lia|]. intros z. apply spends_ret. lia.
Qed.

(** * Simple types *)

Definition heavy (d : dval) : Z := match d with DVal v => weight v | DEmpty => 0 end.
Definition least (t : ty) : Z := if visible t then 1 else 0.

Lemma number_light c : post (decode_integer c) (fun d => heavy d <= 0).
Proof.
  assert (M : forall z, post (lift (mk_int c z)) (fun d => heavy d <= 0)).
  { intros z. apply post_lift. intros d. unfold mk_int. destruct (ctest c z); [|discriminate]. intros [= <-]. cbn. lia. }
  unfold decode_integer. destruct (cext c).
  - apply post_bind'. intros b. destruct (negb _); apply post_bind'; intros z; apply M.
  - destruct (clo c) as [l|], (chi c) as [h|]; try (apply post_bind'; intros z; apply M).
    destruct (l =? h); [apply M|]. apply post_bind'; intros z; apply M.
Qed.

Lemma spends_integer c : spends (0, 0) (least (TInt c)) heavy (decode_integer c).
Proof.
  apply spends_weaken with (r := (0, 0)) (w := least (TInt c)) (m := fun _ => 0); [split; lia|lia|apply number_light|].
  unfold decode_integer, least, visible. destruct (cext c); cbn [orb].
  - apply spends_first; [apply idle_bit|]. intros b.
    destruct (negb _); (apply spends_then; [|intros z; apply spends_lift; lia]).
    + eapply idle_weak; [|apply idle_unc]; lia.
    + apply idle_stable. apply stable_cfl.
  - destruct (clo c) as [l|], (chi c) as [h|]; cbn [some_eq negb].
    + destruct (Z.eqb_spec l h) as [->|N]; cbn [negb]; [apply spends_lift; lia|].
      apply spends_first; [now apply idle_cfl|]. intros z. apply spends_lift. lia.
    + apply spends_first; [apply idle_semi|]. intros z. apply spends_lift. lia.
    + apply spends_first; [apply idle_unc|]. intros z. apply spends_lift. lia.
    + apply spends_first; [apply idle_unc|]. intros z. apply spends_lift. lia.
Qed.

Lemma spends_enum ext root adds : spends (0, 0) (least (TEnum ext root adds)) heavy (decode_enumerated ext root adds).
Proof.
  assert (M : forall i, spends (0, 0) 0 heavy (lift (mk_enum root adds i))).
  { intros i. apply spends_lift. intros d. unfold mk_enum. destruct (existsb _ _); [|discriminate]. intros [= <-]. cbn. lia. }
  unfold decode_enumerated, least, visible. destruct ext; cbn [negb orb].
  - apply spends_first; [apply idle_bit|]. intros b.
    destruct (b =? 0); (apply spends_then; [|intros i; apply M]); apply idle_stable; auto using stable_constrained, stable_ns.
  - destruct (Z.leb_spec 2 (zlen (root ++ adds))).
    + apply spends_first; [apply idle_cwn; lia|]. intros i. apply M.
    + apply spends_then; [apply idle_stable, stable_constrained|]. intros i. apply M.
Qed.

Lemma spends_bool : spends (0, 0) 1 heavy decode_boolean.
Proof. unfold decode_boolean. apply spends_first; [apply idle_bit|]. intros b. apply spends_ret. cbn. lia. Qed.

(** ** Strings *)

Lemma room_big c : 65536 <= room c.
Proof. unfold room. destruct (clo c); lia. Qed.

Lemma spends_made {A B} r (x : res A) (k : A -> res B) (m : B -> Z) :
  (forall a b, x = Ok a -> k a = Ok b -> m b <= 0) -> spends r 0 m (do a <- lift x; lift (k a)).
Proof.
  intros F. destruct x as [a|e]; [|apply (@spends_fail B)]. apply spends_lift_ok. apply spends_lift. eauto.
Qed.

Lemma spends_read {B} be n sz al (m : B -> Z) (k : Z -> D B) : n = Z.of_nat (8 * fst sz + snd sz) -> n <= be ->
  (forall v, 0 <= v < 2 ^ n -> spends (1, be) 0 (fun b => m b - n) (k v)) ->
  spends (1, be) (Z.min n 1) m (dbind (per_next sz al) k).
Proof.
  intros -> L K. set (n := Z.of_nat (8 * fst sz + snd sz)) in *. replace (Z.min n 1) with (Z.min n 1 + 0) by lia.
  eapply spends_bind with (m1 := fun _ => n); [|apply post_next|exact K].
  apply spends_weaken with (r := (1, n)) (w := Z.min n 1) (m := fun _ => n); [split; cbn; lia|lia|intros p a p' _; cbn beta; lia|].
  apply spends_next.
Qed.

Lemma spends_still {A B} be (m : B -> Z) (d : D A) (k : A -> D B) w : 0 <= be -> idle 0 d -> (forall a, spends (1, be) w m (k a)) ->
  spends (1, be) w m (dbind d k).
Proof. intros B0 X K. apply spends_then; [|exact K]. apply idle_any; cbn [fst snd]; [lia|lia|exact X]. Qed.

(** Behind a read of which some bit was there. *)
Lemma spends_more {A B} be (d : D A) (Q : A -> Prop) (m : B -> Z) (k : A -> D B) :
  0 <= be -> idle 1 d -> post d Q -> (forall n, Q n -> spends (1, be) 0 (fun b => m b - 1) (k n)) ->
  spends (1, be) 1 m (dbind d k).
Proof.
  intros B0 I1 P K. replace 1 with (1 + 0) at 2 by lia. eapply spends_bind with (m1 := fun _ => 1); [|exact P|exact K].
  intros p s pos a p' H E. destruct (I1 p s pos a p' H E) as (q & X & L & W & _). exists q. split; auto. split; auto. split; auto.
  cbn [fst snd]. pose proof (over_mono s pos q L). nia.
Qed.

Lemma spends_less {A} r w w' (m m' : A -> Z) (d : D A) : w' <= w -> (forall a, m' a <= m a) -> spends r w m d -> spends r w' m' d.
Proof. intros W M. apply spends_weaken; [split; lia|lia|]. intros p a p' _. apply M. Qed.

(** The bits of a string of [n] bits; an empty one comes out as one bit (C03). *)
Lemma spends_mk_bits c n v f be : 0 <= n -> 0 <= v < 2 ^ n -> (forall s : bits, zlen (f s) <= zlen s) ->
  spends (1, be) 0 (fun d => heavy d - Z.max n 1) (do s <- lift (bin_zfill v n); lift (mk_bits c (f s))).
Proof.
  intros N V F. apply spends_made. intros s d E M. apply bin_zfill_length in E as (_ & E); [|lia|exact V].
  unfold mk_bits in M. destruct (ctest _ _); [|discriminate]. injection M as <-. cbn [heavy weight]. specialize (F s). lia.
Qed.

Lemma spends_bits_read c n al f : 0 <= n <= room c -> (forall s : bits, zlen (f s) <= zlen s) ->
  spends (1, room c) (Z.min n 1) (fun d => heavy d - 1 + Z.min n 1)
    (do v <- per_next (0%nat, Z.to_nat n) al; do s <- lift (bin_zfill v n); lift (mk_bits c (f s))).
Proof.
  intros N F. apply spends_read; [cbn; lia|lia|]. intros v V.
  eapply spends_less; [| |apply (spends_mk_bits c n v f); auto; lia]; [lia|]. intros d. cbn beta. lia.
Qed.

Lemma post_lc' l h : 0 <= l -> l <> h -> post (dec_length_constrained (Some l) (Some h)) (fun n => 0 <= n <= l + 65535).
Proof.
  intros L N. destruct (Z.lt_ge_cases l h) as [Lh|Lh].
  - eapply post_weaken; [apply post_lc; auto|]. intros z (A & B). destruct (B h eq_refl Lh). lia.
  - unfold dec_length_constrained. cbn [need]. apply post_bind with (Q := fun x => x = h); [apply post_lift; now intros ? [= <-]|]. intros ? ->.
    apply post_bind with (Q := fun x => x = l); [apply post_lift; now intros ? [= <-]|]. intros ? ->.
    unfold decode_constrained_whole_number, integer_range. cbv zeta.
    apply post_bind with (Q := fun o => o = None).
    + apply post_lift. unfold get_bit_field_size. intros o E.
      repeat match type of E with (if ?b then _ else _) = _ => destruct b eqn:?; [lia|] end. now injection E as <-.
    + intros o ->. destruct (Z.eqb_spec (h - l + 1) 1); [lia|]. destruct (Z.leb_spec (h - l + 1) 255); [|lia].
      apply post_bind with (Q := fun _ => False); [apply post_fail|contradiction].
Qed.

Lemma spends_bitstring c : match clo c with Some l => 0 <=? l | None => true end = true ->
  spends (1, room c) (least (TBits c)) heavy (decode_bitstring c).
Proof.
  intros SN. pose proof (room_big c) as RB. unfold decode_bitstring. cbv zeta.
  set (after := if opt_is (chi c) 0 then _ else _).
  assert (AF : spends (1, room c) (if opt_is (chi c) 0 then 0 else 1) heavy after).
  { subst after. destruct (opt_is (chi c) 0) eqn:O; [apply spends_ret; cbn; lia|].
    destruct (some_eq (clo c) (chi c)) eqn:Q.
    - destruct (clo c) as [l|] eqn:L; [|destruct (chi c); discriminate]. cbn [need]. apply spends_lift_ok.
      destruct (chi c) as [h|]; [|discriminate]. cbn [some_eq opt_is] in Q, O.
      assert (R : 1 <= l /\ (l < 65536 -> l <= room c)) by (unfold room; rewrite L; lia).
      destruct (Z.leb_spec l 16).
      + eapply spends_less; [| |apply (spends_bits_read c l false (fun s => s))]; [lia| |lia|intros; lia]. intros d. cbn beta. lia.
      + destruct ((16 <? l) && (l <? 65536)) eqn:K; [|apply (@spends_fail dval)].
        apply spends_still; [lia|apply idle_align|]. intros _.
        eapply spends_less; [| |apply (spends_bits_read c l false (firstn (Z.to_nat l)))]; [lia| |lia|].
        * intros d. cbn beta. lia.
        * intros s. unfold zlen. rewrite firstn_length. lia.
    - destruct (truthy (chi c) && lt65536 (chi c)) eqn:T.
      + destruct (clo c) as [l|] eqn:L; [|unfold dec_length_constrained; destruct (chi c); apply (@spends_fail dval)].
        destruct (chi c) as [h|]; [|discriminate].
        apply spends_more with (Q := fun n => 0 <= n <= l + 65535); [lia|apply idle_lc; exact Q|apply post_lc'; cbn [some_eq] in Q; lia|].
        intros n Nn. eapply spends_less; [| |apply (spends_bits_read c n true (fun s => s))]; [lia| | |intros; lia].
        * intros d. cbn beta. lia.
        * unfold room. rewrite L. lia.
      + apply spends_more with (Q := fun n => 0 <= n < 16384); [lia|apply idle_lu|apply post_lu|].
        intros n Nn. eapply spends_less; [| |apply (spends_bits_read c n true (fun s => s))]; [lia| |lia|intros; lia].
        intros d. cbn beta. lia. }
  unfold least, visible. destruct (cext c); cbn [orb].
  - apply spends_more with (Q := fun _ => True); [lia|apply idle_bit|apply post_any|]. intros b _. destruct (b =? 0).
    + eapply spends_less; [| |exact AF]; [destruct (opt_is _ _); lia|]. intros d. lia.
    + apply spends_still; [lia|apply idle_align|]. intros _.
      apply spends_given with (Q := fun n => 0 <= n < 16384); [apply idle_any; cbn [fst snd]; [lia|lia|eapply idle_weak; [|apply idle_lu]; lia]|apply post_lu|].
      intros n Nn. apply spends_less with (w := Z.min n 1) (m := fun d => heavy d - 1); [lia|intros; lia|].
      apply spends_read; [cbn; lia|lia|]. intros v V. apply spends_still; [lia|apply idle_align|]. intros _.
      eapply spends_less; [| |apply (spends_mk_bits c n v (fun s => s)); auto; try lia; intros; lia]; [lia|]. intros d. cbn beta. lia.
  - eapply spends_less; [| |exact AF]; [destruct (opt_is _ _); cbn [negb]; lia|]. intros d. lia.
Qed.

Lemma mk_octs_heavy c h d : mk_octs c h = Ok d -> heavy d <= 4 * (zlen h + 1).
Proof.
  unfold mk_octs. cbv zeta. destruct (ctest _ _); [|discriminate]. intros [= <-]. cbn [heavy weight].
  pose proof (from_hex_length h). unfold zlen. lia.
Qed.

Lemma spends_mk_octs c n v be : 0 <= n -> 0 <= v < 2 ^ (8 * n) ->
  spends (1, be) 0 (fun d => heavy d - 8 * Z.max n 1) (do s <- lift (hex_zfill v n); lift (mk_octs c s)).
Proof.
  intros N V. apply spends_made. intros h d E M. apply hex_zfill_length in E; [|lia|exact V]. pose proof (mk_octs_heavy _ _ _ M).
  assert (zlen h <= 2 * Z.max n 1 - 1 \/ zlen h <= 2 * n) by lia.
  unfold mk_octs in M. cbv zeta in M. destruct (ctest _ _); [|discriminate]. injection M as <-. cbn [heavy weight].
  pose proof (from_hex_length h). unfold zlen in *. lia.
Qed.

Lemma spends_octs_read c n al : 0 <= n <= room c ->
  spends (1, 8 * room c) (Z.min n 1) (fun d => heavy d - (if n =? 0 then 8 else 0))
    (do v <- per_next (Z.to_nat n, 0%nat) al; do s <- lift (hex_zfill v n); lift (mk_octs c s)).
Proof.
  intros N. replace (Z.min n 1) with (Z.min (8 * n) 1) by lia. apply spends_read; [cbn [fst snd]; lia|lia|]. intros v V.
  eapply spends_less; [| |apply (spends_mk_octs c n v); auto; lia]; [lia|]. intros d. cbn beta. destruct (Z.eqb_spec n 0); lia.
Qed.

Lemma spends_no_octs c r : spends r 0 heavy (lift (mk_octs c [])).
Proof. apply spends_lift. intros d M. unfold mk_octs in M. cbv zeta in M. destruct (ctest _ _); [|discriminate]. injection M as <-. cbn. lia. Qed.

Lemma spends_octetstring c : match clo c with Some l => 0 <=? l | None => true end = true ->
  spends (1, 8 * room c) (least (TOcts c)) heavy (decode_octetstring c).
Proof.
  intros SN. pose proof (room_big c) as RB. unfold decode_octetstring. cbv zeta.
  set (after := if opt_is (chi c) 0 then _ else _).
  assert (AF : spends (1, 8 * room c) (if opt_is (chi c) 0 then 0 else 1) heavy after).
  { subst after. destruct (opt_is (chi c) 0) eqn:O; [apply spends_ret; cbn; lia|].
    destruct (some_eq (clo c) (chi c)) eqn:Q.
    - destruct (clo c) as [l|] eqn:L; [|destruct (chi c); discriminate]. cbn [need]. apply spends_lift_ok.
      destruct (chi c) as [h|]; [|discriminate]. cbn [some_eq opt_is] in Q, O.
      assert (R : 1 <= l /\ (l < 65536 -> l <= room c)) by (unfold room; rewrite L; lia).
      destruct (Z.leb_spec l 2).
      + eapply spends_less; [| |apply (spends_octs_read c l false)]; [lia| |lia]. intros d. cbn beta. destruct (Z.eqb_spec l 0); lia.
      + destruct ((2 <? l) && (l <? 65536)) eqn:K; [|apply (@spends_fail dval)].
        apply spends_still; [lia|apply idle_align|]. intros _.
        eapply spends_less; [| |apply (spends_octs_read c l false)]; [lia| |lia]. intros d. cbn beta. destruct (Z.eqb_spec l 0); lia.
    - destruct (truthy (chi c)) eqn:T.
      + destruct (clo c) as [l|] eqn:L; [|unfold dec_length_constrained; destruct (chi c); apply (@spends_fail dval)].
        destruct (chi c) as [h|]; [|discriminate].
        apply spends_more with (Q := fun n => 0 <= n <= l + 65535); [lia|apply idle_lc; exact Q|apply post_lc'; cbn [some_eq] in Q; lia|].
        intros n Nn. destruct (Z.eqb_spec n 0) as [->|N0].
        * eapply spends_less; [| |apply spends_no_octs]; [lia|]. intros d. lia.
        * apply spends_less with (w := Z.min (8 * n) 1) (m := heavy); [lia|intros; lia|].
          apply spends_read; [cbn [fst snd]; lia|unfold room; rewrite L; lia|]. intros v V.
          apply spends_made. intros g d E M. destruct (py_hex_spec v) as (g' & Eg & _ & _ & _ & HL); [lia|].
          rewrite Eg in E. apply ok_inj in E. subst g'.
          assert (G : (List.length g <= Z.to_nat (2 * n))%nat).
          { apply HL; [lia|]. rewrite Z2Nat.id by lia. replace (16 ^ (2 * n)) with (2 ^ (8 * n)); [lia|].
            change 16 with (2 ^ 4). rewrite <- Z.pow_mul_r by lia. f_equal. lia. }
          unfold mk_octs in M. cbv zeta in M. destruct (ctest _ _); [|discriminate]. injection M as <-. cbn [heavy weight].
          pose proof (from_hex_length g). unfold zlen in *. lia.
      + apply spends_still; [lia|apply idle_align|]. intros _.
        replace 1 with (1 + 0) at 2 by lia. eapply spends_bind with (m1 := fun _ => 8); [|apply post_lu|].
        * apply spends_weaken with (r := (1, 8)) (w := 1) (m := fun _ => 8); [split; cbn [fst snd]; lia|lia|intros p a p' _; cbn beta; lia|apply spends_lu].
        * intros n Nn. cbn beta in *. eapply spends_less; [| |apply (spends_octs_read c n false)]; [lia| |lia].
          intros d. cbn beta. destruct (Z.eqb_spec n 0); lia. }
  unfold least, visible. destruct (cext c); cbn [orb].
  - apply spends_more with (Q := fun _ => True); [lia|apply idle_bit|apply post_any|]. intros b _. destruct (b =? 0).
    + eapply spends_less; [| |exact AF]; [destruct (opt_is _ _); lia|]. intros d. lia.
    + apply spends_still; [lia|apply idle_align|]. intros _.
      apply spends_given with (Q := fun n => 0 <= n < 16384); [apply idle_any; cbn [fst snd]; [lia|lia|eapply idle_weak; [|apply idle_lu]; lia]|apply post_lu|].
      intros n Nn. destruct (Z.eqb_spec n 0) as [->|N0].
      * eapply spends_less; [| |apply spends_no_octs]; [lia|]. intros d. lia.
      * eapply spends_less; [| |apply (spends_octs_read c n false)]; [lia| |lia]. intros d. cbn beta. destruct (Z.eqb_spec n 0); lia.
  - eapply spends_less; [| |exact AF]; [destruct (opt_is _ _); cbn [negb]; lia|]. intros d. lia.
Qed.

(** * Open types *)

Lemma per_init_at h p : Forall hexdigit h -> per_init h = Ok p -> exists s, at_ p s 0 /\ (len s <= 4 * len h)%nat.
Proof.
  intros F E. unfold per_init, py_int16 in E. destruct h as [|x h]; [discriminate|]. cbn [bind] in E.
  pose proof (hval_range _ F) as V. rewrite py_bin_ok in E by lia. cbn [bind] in E. apply ok_inj in E. subst p.
  eexists. split; [split; [reflexivity|split; [reflexivity|cbn; lia]]|]. cbn [pb_bits]. rewrite zfill_length, to_bits_length.
  assert (L : (bin_len (hval (x :: h)) <= len (x :: h) * 4)%nat).
  { apply bin_len_lt; [lia|cbn [List.length]; lia|]. eapply Z.lt_le_trans; [apply V|].
    change 16 with (2 ^ 4). rewrite <- Z.pow_mul_r by lia. apply Z.pow_le_mono_r; lia. }
  lia.
Qed.

Lemma hex_zfill_digits v n h : 0 <= v -> hex_zfill v n = Ok h -> Forall hexdigit h.
Proof.
  intros V E. unfold hex_zfill in E. destruct (py_hex_spec v V) as (g & Eg & F & _). rewrite Eg in E. cbn [bind] in E.
  apply ok_inj in E. subst h. now apply hzfill_spec.
Qed.

Lemma spends_open {A} r (m : A -> Z) (d : D A) : 0 <= fst r -> 0 <= snd r -> spends r 0 m d ->
  spends (opened r) 1 m (decode_open_type_field d).
Proof.
  intros R1 R2 X p s pos a p' H E. unfold decode_open_type_field in E.
  apply dbind_inv in E as (n & p1 & E1 & E). destruct (spends_lu p s pos n p1 H E1) as (q1 & A1 & L1 & W1 & B1).
  pose proof (post_lu _ _ _ E1) as N. cbn beta in N.
  apply dbind_inv in E as (v & p2 & E2 & E). destruct (spends_next (Z.to_nat n, 0%nat) true p1 s q1 v p2 A1 E2) as (q2 & A2 & L2 & W2 & B2).
  pose proof (post_next _ _ _ _ _ E2) as V. cbn beta in V. cbn [fst snd] in *.
  replace (Z.of_nat (8 * Z.to_nat n + 0)) with (8 * n) in * by lia.
  apply dbind_inv in E as (h & p3 & E3 & E). unfold lift in E3. destruct (hex_zfill v n) as [h'|] eqn:Eh; [|discriminate]. injection E3 as <- <-.
  apply dbind_inv in E as (q & p4 & E4 & E). unfold lift in E4. destruct (per_init h') as [q'|] eqn:Ei; [|discriminate]. injection E4 as <- <-.
  destruct (d q') as [[x y]|] eqn:Ed; [|discriminate]. injection E as <- <-.
  pose proof (hex_zfill_digits _ _ _ (proj1 V) Eh) as Fh. apply hex_zfill_length in Eh; [|lia|exact V]. destruct (per_init_at _ _ Fh Ei) as (s' & A' & L').
  destruct (X q' s' 0%nat x y A' Ed) as (e & _ & Le & _ & B).
  exists q2. split; auto. split; [lia|]. rewrite <- (used_add s pos q1 q2).
  pose proof (used_nonneg s q1 q2 L2) as U2. pose proof (used_nonneg s pos q1 L1) as U1. split; [lia|].
  pose proof (over_mono s q1 q2 L2) as O2. pose proof (over_mono s pos q1 L1) as O1.
  pose proof (over_mono s pos q2 ltac:(lia)) as O3. pose proof (over_mono s' 0 e ltac:(lia)) as Oe. pose proof (used_nonneg s' 0 e ltac:(lia)) as Ue.
  assert (Us : used s' 0 e <= Z.max (8 * n) 4) by (unfold used, zlen in *; lia).
  unfold opened. cbn [fst snd].
  assert (M : m x <= fst r * Z.max (8 * n) 4 + snd r) by nia.
  set (u := used s pos q1 + used s q1 q2) in *.
  destruct (Z.eq_dec (over s q2 - over s pos) 0) as [O0|O0].
  - rewrite O0, Z.mul_0_r, Z.add_0_r. assert (over s q1 - over s pos = 0 /\ over s q2 - over s q1 = 0) as (Z1 & Z2) by lia.
    rewrite Z1, Z2 in *. assert (8 <= used s pos q1 /\ 8 * n <= used s q1 q2) as (K1 & K2) by lia.
    assert (Z.max (8 * n) 4 <= u /\ 1 <= u) as (K3 & K4) by lia. clear - M K3 K4 R1 R2. nia.
  - assert (over s q2 - over s pos = 1) as -> by lia. assert (Z.max (8 * n) 4 <= 131064) by lia. assert (0 <= u) by lia.
    clear - M R1 R2 H0 H1. nia.
Qed.

(** * Structured types *)

Fixpoint weight_nonneg (v : val) : 0 <= weight v.
Proof.
  destruct v as [| | | |s|bs|[slots|]|vs|[[i x]|]]; cbn [weight]; try (unfold zlen; lia).
  - induction slots as [|[x|] slots IH]; cbn [fold_right]; [lia| |lia]. specialize (weight_nonneg x). lia.
  - induction vs as [|x vs IH]; cbn [fold_right]; [lia|]. specialize (weight_nonneg x). lia.
Qed.

Definition load (l : list assign) : Z := fold_right (fun a n => weight (snd a) + n) 0 l.

Lemma load_app a b : load (a ++ b) = load a + load b.
Proof. unfold load. induction a as [|x a IH]; cbn [app fold_right]; lia. Qed.

Lemma cast_weight t d v : cast t d = Ok v -> weight v <= heavy d.
Proof.
  destruct d as [x|]; cbn [cast heavy]; [intros [= <-]; lia|].
  destruct t; try discriminate; destruct (ctest _ 0); try discriminate; intros [= <-]; cbn; lia.
Qed.

Lemma spends_take r w t (n : string) d : spends r w heavy d ->
  spends r w load (do x <- d; do v <- lift (cast t x); ret [(n, v)]).
Proof.
  intros X. replace w with (w + 0) by lia. eapply spends_bind; [exact X|apply post_any|]. intros x _.
  destruct (cast t x) as [v|e] eqn:E; [|apply (@spends_fail (list assign))]. apply spends_lift_ok, spends_ret.
  apply cast_weight in E. cbn [load fold_right snd]. lia.
Qed.

(** Steps made of two that both make something. *)
Lemma spends_pair r w1 w2 (d k : D (list assign)) : spends r w1 load d -> spends r w2 load k ->
  spends r (w1 + w2) load (do a <- d; do b <- k; ret (a ++ b)).
Proof.
  intros X Y. eapply spends_bind; [exact X|apply post_any|]. intros a _. replace w2 with (w2 + 0) by lia.
  eapply spends_bind with (m1 := load); [exact Y|apply post_any|]. intros b _. apply spends_ret. rewrite load_app. lia.
Qed.

Definition seen (cs : list (comp ty)) : Z := if existsb (fun c => is_mandatory c && visible (cty c)) cs then 1 else 0.

Lemma least_01 t : 0 <= least t <= 1.
Proof. unfold least. destruct (visible t); lia. Qed.
Lemma seen_01 cs : 0 <= seen cs <= 1.
Proof. unfold seen. destruct (existsb _ cs); lia. Qed.

Definition spender (r : Z * Z) (c : comp ty) : Prop := spends r (least (cty c)) heavy (dec (cty c)).

Lemma spends_root r cs : Forall (spender r) cs -> forall bm, spends r (seen cs) load (dec_root dec cs bm).
Proof.
  induction 1 as [|c cs X F IH]; intros bm; cbn [dec_root]; [apply spends_ret; cbn; lia|].
  cbv zeta. pose proof (spends_take r (least (cty c)) (cty c) (cname c) _ X) as T.
  pose proof (least_01 (cty c)) as L1. pose proof (seen_01 cs) as L2.
  destruct (is_mandatory c) eqn:M.
  - eapply spends_less; [| |exact (spends_pair _ _ _ _ _ T (IH bm))]; [|intros; lia].
    unfold seen in *. cbn [existsb]. rewrite M. unfold least in *. cbn [andb]. destruct (visible (cty c)), (existsb _ cs); cbn [orb]; lia.
  - destruct bm as [|b bm]; [apply (@spends_fail (list assign))|].
    assert (Tb : spends r 0 load (if b then do d <- dec (cty c); do v <- lift (cast (cty c) d); ret [(cname c, v)] else ret [])).
    { destruct b; [|apply spends_ret; cbn; lia]. eapply spends_less; [| |exact T]; [lia|intros; lia]. }
    eapply spends_less; [| |exact (spends_pair _ _ _ _ _ Tb (IH bm))]; [|intros; lia].
    unfold seen. cbn [existsb]. rewrite M. cbn [andb orb]. lia.
Qed.

Lemma optional_none cs : optional_count cs = 0%nat -> forallb is_mandatory cs = true.
Proof.
  unfold optional_count. induction cs as [|c cs IH]; cbn [filter forallb]; auto.
  unfold is_optional, is_defaulted, is_mandatory. destruct (cpres c); cbn [orb List.length andb]; auto; lia.
Qed.

Lemma spends_root_part r cs : 0 <= fst r -> 0 <= snd r -> Forall (spender r) cs ->
  spends r (if existsb (fun c => negb (is_mandatory c) || visible (cty c)) cs then 1 else 0) load (dec_root_part dec cs).
Proof.
  intros R1 R2 F. unfold dec_root_part. cbv zeta. destruct (Nat.eqb_spec (optional_count cs) 0) as [O|O].
  - eapply spends_less; [| |apply (spends_root r cs F)]; [|intros; lia].
    apply optional_none in O. unfold seen. clear F. induction cs as [|c cs IH]; cbn [existsb forallb] in *; [lia|].
    apply andb_prop in O as (O1 & O2). specialize (IH O2). rewrite O1. cbn [negb orb andb]. destruct (visible (cty c)); cbn [orb]; lia.
  - destruct (Z.ltb_spec (Z.of_nat (optional_count cs)) 65536); [|apply (@spends_fail (list assign))].
    apply spends_first.
    + apply idle_any; auto. unfold next_bits. eapply idle_weak; [|apply idle_next]. cbn [fst snd]. destruct (existsb _ cs); lia.
    + intros v. destruct (bin_zfill v _) as [bm|]; [|apply (@spends_fail (list assign))]. apply spends_lift_ok.
      eapply spends_less; [| |apply (spends_root r cs F)]; [pose proof (seen_01 cs); lia|intros; lia].
Qed.

Lemma spends_adds r cs : 0 <= fst r -> 0 <= snd r -> Forall (spender r) cs -> forall bm, spends (opened r) 0 load (dec_adds dec cs bm).
Proof.
  intros R1 R2. induction 1 as [|c cs X F IH]; intros bm; cbn [dec_adds]; [apply spends_ret; cbn; lia|].
  destruct bm as [|b bm]; [apply spends_ret; cbn; lia|].
  assert (Tb : spends (opened r) 0 load (if b then do d <- decode_open_type_field (dec (cty c)); do v <- lift (cast (cty c) d); ret [(cname c, v)] else ret [])).
  { destruct b; [|apply spends_ret; cbn; lia]. eapply spends_less with (w := 1); [lia| |].
    - intros a. apply Z.le_refl.
    - apply spends_take, spends_open; auto. eapply spends_less; [| |exact X]; [apply least_01|intros; lia]. }
  exact (spends_pair _ _ _ _ _ Tb (IH bm)).
Qed.

Lemma spends_groups r gs : 0 <= fst r -> 0 <= snd r -> Forall (Forall (spender r)) gs -> forall bm, spends (opened r) 0 load (dec_groups dec gs bm).
Proof.
  intros R1 R2. induction 1 as [|g gs X F IH]; intros bm; cbn [dec_groups]; [apply spends_ret; cbn; lia|].
  destruct bm as [|b bm]; [apply spends_ret; cbn; lia|].
  assert (Tb : spends (opened r) 0 load (if b then decode_open_type_field (dec_root_part dec g) else ret [])).
  { destruct b; [|apply spends_ret; cbn; lia]. eapply spends_less with (w := 1) (m := load); [lia|intros; lia|].
    apply spends_open; auto. eapply spends_less; [| |apply (spends_root_part r g R1 R2 X)]; [destruct (existsb _ g); lia|intros; lia]. }
  exact (spends_pair _ _ _ _ _ Tb (IH bm)).
Qed.

(** ** Assignments *)

Definition slots_weight (o : option (list (option val))) : Z := weight (VSeq o).

Lemma update_weight (l : list (option val)) v : forall i, weight (VSeq (Some (update i (Some v) l))) <= weight (VSeq (Some l)) + weight v.
Proof.
  pose proof (weight_nonneg v) as V. cbn [weight]. induction l as [|x l IH]; intros [|i]; cbn [update fold_right]; try lia.
  destruct x as [x|]; [pose proof (weight_nonneg x)|]; lia.
Qed.

Lemma repeat_weight n : weight (VSeq (Some (repeat None n))) = 0.
Proof. cbn [weight]. induction n; cbn [repeat fold_right]; lia. Qed.

Lemma assign_weight cs l : forall slots slots', assign_all cs slots l = Ok slots' ->
  weight (VSeq slots') <= weight (VSeq slots) + load l.
Proof.
  induction l as [|[nm v] l IH]; intros slots slots' E; cbn [assign_all] in E.
  - apply ok_inj in E. subst. cbn [load fold_right]. lia.
  - destruct (index_of nm cs) as [i|]; [|discriminate]. apply IH in E. unfold slot_set in E.
    cbn [load fold_right snd]. fold (load l). destruct slots as [sl|].
    + pose proof (update_weight sl v i). lia.
    + pose proof (update_weight (repeat None (List.length cs)) v i) as U. rewrite repeat_weight in U. cbn [weight] in *. lia.
Qed.

(** ** Bounds of components *)

Lemma leq_refl x : leq x x.
Proof. split; lia. Qed.
Lemma leq_trans x y z : leq x y -> leq y z -> leq x z.
Proof. unfold leq. lia. Qed.
Lemma sup_l x y : leq x (sup x y).
Proof. split; cbn; lia. Qed.
Lemma sup_r x y : leq y (sup x y).
Proof. split; cbn; lia. Qed.

Lemma most_in x l : In x l -> leq x (most l).
Proof.
  induction l as [|y l IH]; [contradiction|]. cbn [most fold_right]. intros [->|J]; [apply sup_l|].
  eapply leq_trans; [apply IH, J|apply sup_r].
Qed.

Lemma most_nonneg l : leq (0, 0) (most l).
Proof. induction l as [|y l IH]; [apply leq_refl|]. eapply leq_trans; [exact IH|apply sup_r]. Qed.

Lemma spender_leq r r' c : leq r r' -> spender r c -> spender r' c.
Proof. intros L. apply spends_weaken; [exact L|lia|]. intros p a p' _. lia. Qed.

Lemma spends_leq {A} r r' w m (d : D A) : leq r r' -> spends r w m d -> spends r' w m d.
Proof. intros L. apply spends_weaken; [exact L|lia|]. intros p a p' _. lia. Qed.

Definition fair (c : comp ty) : Prop := spender (rate (cty c)) c.

Lemma fair_most cs l : Forall fair cs -> (forall c, In c cs -> In (rate (cty c)) l) -> Forall (spender (most l)) cs.
Proof.
  intros F J. apply Forall_forall. intros c C. rewrite Forall_forall in F.
  eapply spender_leq; [apply most_in, J, C|]. now apply F.
Qed.

(** ** SEQUENCE *)

Lemma rate_seq ext r a g : rate (TSeq ext r a g) = sup (most (map (fun c => rate (cty c)) r))
  (if ext then opened (most (map (fun c => rate (cty c)) a ++ List.concat (map (map (fun c => rate (cty c))) g))) else (0, 0)).
Proof. reflexivity. Qed.

Lemma additions_fair a g : Forall fair a -> Forall (Forall fair) g ->
  let m := most (map (fun c => rate (cty c)) a ++ List.concat (map (map (fun c => rate (cty c))) g)) in
  Forall (spender m) a /\ Forall (Forall (spender m)) g.
Proof.
  intros Fa Fg m. split.
  - apply fair_most; auto. intros c C. apply in_or_app. left. now apply (in_map (fun c => rate (cty c))).
  - rewrite Forall_forall in *. intros x X. apply fair_most; [now apply Fg|]. intros c C. apply in_or_app. right.
    apply in_concat. exists (map (fun c => rate (cty c)) x). split; [now apply in_map|]. now apply (in_map (fun c => rate (cty c))).
Qed.

Lemma spends_seq ext r a g : Forall fair r -> Forall fair a -> Forall (Forall fair) g ->
  spends (rate (TSeq ext r a g)) (least (TSeq ext r a g)) heavy (decode_sequence dec ext r a g).
Proof.
  intros Fr Fa Fg. rewrite rate_seq. set (mr := most _). set (ma := most (_ ++ _)).
  destruct (most_nonneg (map (fun c => rate (cty c)) r)) as (P1 & P2). fold mr in P1, P2. cbn [fst snd] in P1, P2.
  destruct (most_nonneg (map (fun c => rate (cty c)) a ++ List.concat (map (map (fun c => rate (cty c))) g))) as (P3 & P4).
  fold ma in P3, P4. cbn [fst snd] in P3, P4.
  assert (Xr : Forall (spender mr) r) by (apply fair_most; auto; intros c C; now apply (in_map (fun c => rate (cty c)))).
  destruct (additions_fair a g Fa Fg) as (Xa & Xg). fold ma in Xa, Xg.
  set (rt := sup _ _). assert (0 <= fst rt /\ 0 <= snd rt) as (Q1 & Q2) by (unfold rt; cbn; lia).
  pose proof (spends_root_part mr r P1 P2 Xr) as RP.
  eapply spends_leq in RP; [|apply (sup_l mr (if ext then opened ma else (0, 0)))]. fold rt in RP.
  unfold decode_sequence.
  assert (K : forall e : Z, (ext = false -> e = 0) -> spends rt (if existsb (fun c => negb (is_mandatory c) || visible (cty c)) r then 1 else 0) heavy
    (do a0 <- dec_root_part dec r;
     do b <- (if negb (e =? 0) then
                do n <- dec_length_normally_small;
                do v <- next_bits (Z.to_nat n);
                do bm <- lift (bin_zfill v (zlen a + zlen g));
                do _ <- align;
                do x <- dec_adds dec a (firstn (List.length a) bm);
                do y <- dec_groups dec g (skipn (List.length a) bm);
                ret (x ++ y)
              else ret []);
     do slots <- lift (assign_all (all_comps r a g) None (a0 ++ b));
     ret (DVal (VSeq slots)))).
  { intros e Ee. set (w := if existsb _ r then 1 else 0) in *. replace w with (w + 0) by lia.
    eapply spends_bind; [exact RP|apply post_any|]. intros x _. eapply spends_less with (w := 0 + 0); [lia|intros; apply Z.le_refl|].
    eapply spends_bind with (m1 := load); [|apply post_any|].
    - destruct (Z.eqb_spec e 0) as [->|N]; cbn [negb]; [apply spends_ret; cbn; lia|].
      destruct ext; [|exfalso; apply N; auto]. eapply spends_leq; [apply sup_r|].
      assert (0 <= fst (opened ma) /\ 0 <= snd (opened ma)) as (Q3 & Q4) by (unfold opened; cbn [fst snd]; lia).
      apply spends_then; [apply idle_any; auto; eapply idle_weak; [|apply idle_nsl]; lia|]. intros n.
      apply spends_then; [apply idle_any; auto; eapply idle_weak; [|apply idle_next]; lia|]. intros v.
      destruct (bin_zfill v _) as [bm|]; [|apply (@spends_fail (list assign))]. apply spends_lift_ok.
      apply spends_then; [apply idle_any; auto; apply idle_align|]. intros _.
      apply (spends_pair _ 0 0); [apply spends_adds; auto|apply spends_groups; auto].
    - intros b _. destruct (assign_all _ None _) as [slots|] eqn:As; [|apply (@spends_fail dval)]. apply spends_lift_ok.
      apply spends_ret. apply assign_weight in As. rewrite load_app in As. cbn [heavy weight] in *. lia. }
  unfold least, visible; fold visible. destruct ext; cbn [orb].
  - apply spends_first; [apply idle_any; auto; apply idle_bit|]. intros e.
    eapply spends_less; [| |apply K; discriminate]; [destruct (existsb _ r); lia|intros; lia].
  - exact (K 0 (fun _ => eq_refl)).
Qed.

(** ** SEQUENCE OF *)

Lemma spends_n r (d : D val) n : 0 <= fst r -> 0 <= snd r -> spends r 1 weight d ->
  spends (1 + fst r, snd r) (Z.of_nat n) (fun vs => weight (VSeqOf vs)) (dec_n d n).
Proof.
  intros R1 R2 X. induction n as [|n IH]; cbn [dec_n]; [apply spends_ret; cbn; lia|].
  replace (Z.of_nat (Datatypes.S n)) with (1 + (Z.of_nat n + 0)) by lia.
  eapply spends_bind with (m1 := fun v => 1 + weight v); [|apply post_any|].
  - intros p s pos v p' H E. destruct (X p s pos v p' H E) as (q & A & L & W & M). exists q. split; auto. split; auto. split; auto.
    cbn [fst snd]. lia.
  - intros v _. eapply spends_bind with (m1 := fun vs => weight (VSeqOf vs)); [exact IH|apply post_any|].
    intros vs _. apply spends_ret. cbn [weight fold_right]. lia.
Qed.

Lemma idle_seqof_len c : idle (if cext c || negb (some_eq (clo c) (chi c)) then 1 else 0) (dec_seqof_len c).
Proof.
  unfold dec_seqof_len. destruct (cext c); cbn [orb].
  - apply spends_first; [apply idle_bit|]. intros b. destruct (b =? 0).
    + apply idle_stable, stable_lc.
    + apply spends_then; [apply idle_align|]. intros _. eapply idle_weak; [|apply idle_lu]. lia.
  - destruct (clo c) as [l|], (chi c) as [h|]; cbn [some_eq negb].
    + destruct (Z.eqb_spec l h) as [->|N]; cbn [andb negb].
      * destruct (h <? 65536); [apply spends_ret; lia|].
        destruct (truthy _); [apply idle_stable, stable_lc|eapply idle_weak; [|apply idle_lu]; lia].
      * destruct (truthy _); [apply idle_lc; cbn [some_eq]; lia|apply idle_lu].
    + cbn [truthy]. apply idle_lu.
    + destruct (truthy _); [unfold dec_length_constrained; cbn [need]; apply spends_lift_ok; apply (@spends_fail Z)|apply idle_lu].
    + apply (@spends_fail Z).
Qed.

Lemma spends_seqof c t : 0 <= fst (rate t) -> 0 <= snd (rate t) -> visible t = true -> spends (rate t) (least t) heavy (dec t) ->
  spends (rate (TSeqOf c t)) (least (TSeqOf c t)) heavy (decode_sequence_of (dec t) t c).
Proof.
  intros R1 R2 V X. unfold least in X. rewrite V in X.
  assert (X' : spends (rate t) 1 weight (do d <- dec t; lift (cast t d))).
  { replace 1 with (1 + 0) by lia. eapply spends_bind; [exact X|apply post_any|]. intros d _. apply spends_lift.
    intros v E. apply cast_weight in E. lia. }
  assert (K : forall n, spends (1 + fst (rate t), snd (rate t)) (Z.max 0 n) heavy
    (do vs <- dec_n (do d <- dec t; lift (cast t d)) (Z.to_nat n); ret (DVal (VSeqOf vs)))).
  { intros n. replace (Z.max 0 n) with (Z.of_nat (Z.to_nat n) + 0) by lia.
    eapply spends_bind; [apply spends_n; auto; exact X'|apply post_any|]. intros vs _. apply spends_ret. cbn [heavy]. lia. }
  change (rate (TSeqOf c t)) with (1 + fst (rate t), snd (rate t)). unfold decode_sequence_of.
  assert (Z : spends (1 + fst (rate t), snd (rate t)) (if cext c || negb (some_eq (clo c) (chi c)) then 1 else 0) heavy
    (do n <- dec_seqof_len c; do vs <- dec_n (do d <- dec t; lift (cast t d)) (Z.to_nat n); ret (DVal (VSeqOf vs)))).
  { apply spends_first; [apply idle_any; cbn [fst snd]; [lia|lia|apply idle_seqof_len]|]. intros n.
    eapply spends_less; [| |apply K]; [lia|intros; lia]. }
  unfold least, visible; fold visible. destruct (cext c || negb (some_eq (clo c) (chi c))) eqn:Q; cbn [orb]; [exact Z|].
  apply orb_false_iff in Q as (Q1 & Q2).
  destruct (clo c) as [l|] eqn:El; [|exact Z].
  destruct ((0 <? l) && (l <? 65536) && visible t) eqn:W; [|exact Z].
  destruct (chi c) as [h|] eqn:Eh; [|discriminate]. cbn [some_eq] in Q2. assert (h = l) as -> by lia.
  unfold dec_seqof_len in *. rewrite Q1, El, Eh in *. replace ((l =? l) && (l <? 65536)) with true in * by lia.
  eapply spends_less; [| |exact (K l)]; [lia|intros; lia].
Qed.

(** ** CHOICE *)

Definition alts (cs : list (comp ty)) : list (ty * D dval) := map (fun c => (cty c, dec (cty c))) cs.

Lemma spends_picked r (l : list (comp ty)) i w (f : val -> val) (g : D dval -> D dval) :
  (forall v, weight (f v) = weight v) ->
  Forall (fun c => spends r w heavy (g (dec (cty c)))) l ->
  spends r w heavy (do a <- pick (alts l) i; do d <- g (snd a); do v <- lift (cast (fst a) d); ret (DVal (f v))).
Proof.
  intros F X. unfold pick, alts. rewrite nth_error_map. destruct (nth_error l (Z.to_nat i)) as [c|] eqn:E; cbn [option_map].
  2: { apply (@spends_fail dval). }
  apply nth_error_In in E. rewrite Forall_forall in X. specialize (X c E).
  change (spends r w heavy (do d <- g (dec (cty c)); do v <- lift (cast (cty c) d); ret (DVal (f v)))).
  replace w with (w + 0) by lia. eapply spends_bind; [exact X|apply post_any|]. intros d _.
  destruct (cast (cty c) d) as [v|] eqn:C; [|apply (@spends_fail dval)]. apply spends_lift_ok, spends_ret.
  apply cast_weight in C. cbn [heavy]. rewrite F. lia.
Qed.

Lemma rate_choice ext r a g : rate (TChoice ext r a g) = rate (TSeq ext r a g).
Proof. reflexivity. Qed.

Lemma Forall_concat {A} (P : A -> Prop) l : Forall (Forall P) l -> Forall P (List.concat l).
Proof. induction 1; cbn [List.concat]; [constructor|]. apply Forall_app. auto. Qed.

Lemma spends_choice ext r a g : Forall fair r -> Forall fair a -> Forall (Forall fair) g ->
  spends (rate (TChoice ext r a g)) (least (TChoice ext r a g)) heavy
    (decode_choice ext (alts r) (alts a) (List.concat (map alts g))).
Proof.
  intros Fr Fa Fg. rewrite rate_choice, rate_seq. set (mr := most _). set (ma := most (_ ++ _)).
  destruct (most_nonneg (map (fun c => rate (cty c)) r)) as (P1 & P2). fold mr in P1, P2. cbn [fst snd] in P1, P2.
  destruct (most_nonneg (map (fun c => rate (cty c)) a ++ List.concat (map (map (fun c => rate (cty c))) g))) as (P3 & P4).
  fold ma in P3, P4. cbn [fst snd] in P3, P4.
  assert (Xr : Forall (spender mr) r) by (apply fair_most; auto; intros c C; now apply (in_map (fun c => rate (cty c)))).
  destruct (additions_fair a g Fa Fg) as (Xa & Xg). fold ma in Xa, Xg.
  set (rt := sup _ _). assert (0 <= fst rt /\ 0 <= snd rt) as (Q1 & Q2) by (unfold rt; cbn; lia).
  assert (Yr : Forall (spender rt) r).
  { eapply Forall_impl; [|exact Xr]. intros c. apply spender_leq, sup_l. }
  unfold decode_choice. cbv zeta. set (ra := dbind _ _).
  assert (RA : spends rt (if negb (Nat.eqb (List.length r) 1) || forallb (fun c => visible (cty c)) r then 1 else 0) heavy ra).
  { subst ra. unfold alts at 1. rewrite map_length. destruct (Nat.eqb_spec (List.length r) 1) as [L|L]; cbn [negb orb].
    - change (spends rt (if forallb (fun c => visible (cty c)) r then 1 else 0) heavy
        (do a0 <- pick (alts r) 0; do d <- snd a0; do v <- lift (cast (fst a0) d); ret (DVal (VChoice (Some (Z.to_nat 0, v)))))).
      apply (spends_picked rt r 0 _ (fun v => VChoice (Some (Z.to_nat 0, v))) (fun d => d)); [reflexivity|].
      apply Forall_forall. intros c C. rewrite Forall_forall in Yr. eapply spends_less; [| |exact (Yr c C)]; [|intros; lia].
      destruct (forallb _ r) eqn:V; [|apply least_01]. rewrite forallb_forall in V. unfold least. rewrite (V c C). lia.
    - apply spends_first.
      + apply idle_any; auto. unfold alts, zlen. rewrite map_length. apply idle_cfl. lia.
      + intros i. apply (spends_picked rt r i _ (fun v => VChoice (Some (Z.to_nat i, v))) (fun d => d)); [reflexivity|].
        eapply Forall_impl; [|exact Yr]. intros c C. eapply spends_less; [| |exact C]; [apply least_01|intros; lia]. }
  clearbody ra. unfold least, visible; fold visible. destruct ext; cbn [negb orb]; [|exact RA].
  apply spends_first; [apply idle_any; auto; apply idle_bit|]. intros b. destruct (b =? 0).
  { eapply spends_less; [| |exact RA]; [destruct (_ || _); lia|intros; lia]. }
  apply spends_then; [apply idle_any; auto; eapply idle_weak; [|apply idle_ns]; lia|]. intros i.
  destruct (_ && _); [apply (@spends_fail dval)|].
  replace (alts a ++ List.concat (map alts g)) with (alts (a ++ List.concat g)).
  2: { unfold alts. rewrite map_app, concat_map. reflexivity. }
  apply (spends_picked rt (a ++ List.concat g) i 0 (fun v => VChoice (Some ((List.length (alts r) + Z.to_nat i)%nat, v))) decode_open_type_field); [reflexivity|].
  assert (Ya : Forall (spender ma) (a ++ List.concat g)) by (apply Forall_app; split; [exact Xa|apply Forall_concat, Xg]).
  eapply Forall_impl; [|exact Ya]. intros c C. eapply spends_leq; [apply sup_r|].
  eapply spends_less with (w := 1) (m := heavy); [lia|intros; lia|]. apply spends_open; auto.
  eapply spends_less; [| |exact C]; [apply least_01|intros; lia].
Qed.

(** * Every type *)

Lemma rate_nonneg t : leq (0, 0) (rate t).
Proof.
  induction t as [ | | |c|c|e r a g Hr Ha Hg|c t IH|e r a g Hr Ha Hg] using ty_rect'; try apply leq_refl.
  - pose proof (room_big c). split; cbn [rate fst snd]; lia.
  - pose proof (room_big c). split; cbn [rate fst snd]; lia.
  - rewrite rate_seq. eapply leq_trans; [apply most_nonneg|apply sup_l].
  - destruct IH. split; cbn [rate fst snd] in *; lia.
  - rewrite rate_choice, rate_seq. eapply leq_trans; [apply most_nonneg|apply sup_l].
Qed.

Lemma forall_fair cs : Forall (fun c => narrow (cty c) = true -> spends (rate (cty c)) (least (cty c)) heavy (dec (cty c))) cs ->
  forallb (fun c => narrow (cty c)) cs = true -> Forall fair cs.
Proof.
  induction 1 as [|c cs X F IH]; cbn [forallb]; intros E; [constructor|]. apply andb_prop in E as (E1 & E2).
  constructor; [exact (X E1)|auto].
Qed.

Lemma forall_fairs gs : Forall (Forall (fun c => narrow (cty c) = true -> spends (rate (cty c)) (least (cty c)) heavy (dec (cty c)))) gs ->
  forallb (forallb (fun c => narrow (cty c))) gs = true -> Forall (Forall fair) gs.
Proof.
  induction 1 as [|c cs X F IH]; cbn [forallb]; intros E; [constructor|]. apply andb_prop in E as (E1 & E2).
  constructor; [now apply forall_fair|auto].
Qed.

Lemma spends_type t : narrow t = true -> spends (rate t) (least t) heavy (dec t).
Proof.
  induction t as [ | | |c|c|e r a g Hr Ha Hg|c t IH|e r a g Hr Ha Hg] using ty_rect'; intros N; cbn [narrow] in N.
  - exact spends_bool.
  - apply spends_integer.
  - apply spends_enum.
  - now apply spends_bitstring.
  - now apply spends_octetstring.
  - apply andb_prop in N as (N & N3). apply andb_prop in N as (N1 & N2).
    apply spends_seq; auto using forall_fair, forall_fairs.
  - apply andb_prop in N as (N1 & N2). destruct (rate_nonneg t). apply spends_seqof; auto.
  - apply andb_prop in N as (N & N3). apply andb_prop in N as (N1 & N2).
    apply spends_choice; auto using forall_fair, forall_fairs.
Qed.

(** * C58 *)

(** How deep lists are nested. *)
Fixpoint lists (t : ty) : Z :=
  match t with
  | TSeq _ r a g | TChoice _ r a g =>
      Z.max (fold_right (fun c n => Z.max (lists (cty c)) n) 0 r)
        (Z.max (fold_right (fun c n => Z.max (lists (cty c)) n) 0 a)
               (fold_right (fun x n => Z.max (fold_right (fun c n => Z.max (lists (cty c)) n) 0 x) n) 0 g))
  | TSeqOf _ t' => 1 + lists t'
  | _ => 0
  end.

(** No extension marker in a SEQUENCE or CHOICE. *)
Fixpoint unmarked (t : ty) : bool :=
  match t with
  | TSeq ext r _ _ | TChoice ext r _ _ => negb ext && forallb (fun c => unmarked (cty c)) r
  | TSeqOf _ t' => unmarked t'
  | _ => true
  end.

(** No BIT STRING and no OCTET STRING. *)
Fixpoint stringless (t : ty) : bool :=
  match t with
  | TBits _ | TOcts _ => false
  | TSeq _ r a g | TChoice _ r a g =>
      forallb (fun c => stringless (cty c)) r && forallb (fun c => stringless (cty c)) a &&
      forallb (forallb (fun c => stringless (cty c))) g
  | TSeqOf _ t' => stringless t'
  | _ => true
  end.

Lemma decode_weight t bs v p : narrow t = true -> Forall octet bs -> decode_pos bs t = Ok (v, p) ->
  weight v <= fst (rate t) * (8 * zlen bs) + snd (rate t) * (if (8 * len bs <? position p)%nat then 1 else 0).
Proof.
  intros N O E. unfold decode_pos in E.
  destruct bs as [|b bs]; [discriminate|]. destruct (per_init_ok (b :: bs) O ltac:(discriminate)) as (p0 & E0 & A0).
  rewrite E0 in E. cbn [bind] in E. destruct (dec t p0) as [[d q]|] eqn:Ed; [|discriminate]. cbn [bind fst snd] in E.
  destruct (spends_type t N p0 _ _ d q A0 Ed) as (pos & A1 & _ & _ & B).
  assert (p = q /\ weight v <= heavy d) as (-> & W).
  { destruct d as [x|]; [destruct (eq_empty x)|].
    - destruct (from_empty t) as [y|] eqn:F; [|discriminate]. cbn [bind] in E. apply ok_inj in E. injection E as <- <-.
      split; auto. pose proof (weight_nonneg x). destruct t; try discriminate F; cbn [from_empty] in F; apply cast_weight in F; cbn [heavy] in *; lia.
    - apply ok_inj in E. injection E as <- <-. cbn [heavy]. split; auto. lia.
    - destruct (from_empty t) as [y|] eqn:F; [|discriminate]. cbn [bind] in E. apply ok_inj in E. injection E as <- <-.
      split; auto. destruct t; try discriminate F; cbn [from_empty] in F; now apply cast_weight in F. }
  apply at_position in A1 as (-> & _). destruct (rate_nonneg t) as (R1 & R2). cbn [fst snd] in R1, R2.
  unfold used, over in B. rewrite obits_length in B. rewrite Nat.min_0_r in B.
  replace (8 * len (b :: bs) <? 0)%nat with false in B by lia. rewrite !Z.sub_0_r in B.
  set (o := if (_ <? pos)%nat then 1 else 0) in *. set (u := Z.of_nat (Nat.min _ _)) in *.
  assert (0 <= u <= 8 * zlen (b :: bs)) by (unfold zlen, u; lia).
  assert (fst (rate t) * u <= fst (rate t) * (8 * zlen (b :: bs))) by (apply Z.mul_le_mono_nonneg_l; lia). lia.
Qed.

(** A type whose lists have elements of at least one bit: the size of what is
    decoded is at most proportional to the octets received.  Missing: the types
    with elements of no bits, of which it is false, below. *)
Theorem C58_bound_partial : forall t bs v, narrow t = true -> Forall octet bs -> decode bs t = Ok v ->
  weight v <= fst (rate t) * (8 * zlen bs) + snd (rate t).
Proof.
  intros t bs v N O E. unfold decode in E. destruct (decode_pos bs t) as [[v' p]|] eqn:D; [|discriminate].
  cbn [bind fst] in E. apply ok_inj in E. subst v'. pose proof (decode_weight t bs v p N O D) as W.
  destruct (rate_nonneg t) as (R1 & R2). cbn [fst snd] in R1, R2. destruct (_ <? _)%nat; lia.
Qed.

Lemma most_bound l x y : (forall p, In p l -> fst p <= x /\ snd p <= y) -> 0 <= x -> 0 <= y -> fst (most l) <= x /\ snd (most l) <= y.
Proof.
  induction l as [|p l IH]; intros F X Y; cbn [most fold_right fst snd sup]; [lia|].
  destruct (F p (or_introl eq_refl)). destruct IH as (A & B); auto; [intros q Q; apply F; now right|]. unfold most in *. lia.
Qed.

Lemma lists_nonneg t : 0 <= lists t.
Proof.
  induction t as [ | | |c|c|e r a g Hr Ha Hg|c t IH|e r a g Hr Ha Hg] using ty_rect'; cbn [lists]; try lia;
    apply Z.max_le_iff; left; clear - Hr; induction r as [|c r IH]; cbn [fold_right]; try lia; inversion Hr; subst; specialize (IH ltac:(auto)); lia.
Qed.

Lemma lists_in r c : In c r -> lists (cty c) <= fold_right (fun c n => Z.max (lists (cty c)) n) 0 r.
Proof. induction r as [|d r IH]; [contradiction|]. intros [->|J]; cbn [fold_right]; [lia|]. specialize (IH J). lia. Qed.

Lemma rate_unmarked t : unmarked t = true -> fst (rate t) <= 1 + lists t.
Proof.
  induction t as [ | | |c|c|e r a g Hr Ha Hg|c t IH|e r a g Hr Ha Hg] using ty_rect'; intros U; try (cbn; lia).
  - rewrite rate_seq. cbn [unmarked] in U. apply andb_prop in U as (U1 & U2). destruct e; [discriminate|].
    cbn [sup fst snd]. pose proof (lists_nonneg (TSeq false r a g)) as L0. cbn [lists] in *.
    set (m := fold_right _ 0 r) in *. apply Z.max_lub; [|lia].
    assert (fst (most (map (fun c => rate (cty c)) r)) <= 1 + m /\ snd (most (map (fun c => rate (cty c)) r)) <= snd (most (map (fun c => rate (cty c)) r))); [|lia].
    apply most_bound; [|subst m; clear; induction r; cbn [fold_right]; lia|apply most_nonneg].
    intros p P. split; [|now apply most_in]. apply in_map_iff in P as (c & <- & C). rewrite forallb_forall in U2. rewrite Forall_forall in Hr.
    specialize (Hr c C (U2 c C)). pose proof (lists_in r c C). lia.
  - cbn [unmarked] in U. specialize (IH U). cbn [rate fst lists]. lia.
  - rewrite rate_choice, rate_seq. cbn [unmarked] in U. apply andb_prop in U as (U1 & U2). destruct e; [discriminate|].
    cbn [sup fst snd]. pose proof (lists_nonneg (TSeq false r a g)) as L0. cbn [lists] in *.
    set (m := fold_right _ 0 r) in *. apply Z.max_lub; [|lia].
    assert (fst (most (map (fun c => rate (cty c)) r)) <= 1 + m /\ snd (most (map (fun c => rate (cty c)) r)) <= snd (most (map (fun c => rate (cty c)) r))); [|lia].
    apply most_bound; [|subst m; clear; induction r; cbn [fold_right]; lia|apply most_nonneg].
    intros p P. split; [|now apply most_in]. apply in_map_iff in P as (c & <- & C). rewrite forallb_forall in U2. rewrite Forall_forall in Hr.
    specialize (Hr c C (U2 c C)). pose proof (lists_in r c C). lia.
Qed.

(** Without extension markers, and when decoding ends inside the octets: at most
    one for every bit, and one more for every list around it. *)
Theorem C58_complete_partial : forall t bs v p, narrow t = true -> unmarked t = true -> Forall octet bs ->
  decode_pos bs t = Ok (v, p) -> (position p <= 8 * List.length bs)%nat ->
  weight v <= (1 + lists t) * (8 * zlen bs).
Proof.
  intros t bs v p N U O D P. pose proof (decode_weight t bs v p N O D) as W.
  replace (8 * len bs <? position p)%nat with false in W by lia.
  pose proof (rate_unmarked t U). assert (0 <= 8 * zlen bs) by (unfold zlen; lia).
  pose proof (Z.mul_le_mono_nonneg_r (fst (rate t)) (1 + lists t) (8 * zlen bs)). lia.
Qed.

Lemma rate_stringless t : unmarked t = true -> stringless t = true -> fst (rate t) <= lists t /\ snd (rate t) <= 0.
Proof.
  assert (Sq : forall r a g, Forall (fun c => unmarked (cty c) = true -> stringless (cty c) = true ->
      fst (rate (cty c)) <= lists (cty c) /\ snd (rate (cty c)) <= 0) r ->
    forallb (fun c => unmarked (cty c)) r = true -> forallb (fun c => stringless (cty c)) r = true ->
    fst (rate (TSeq false r a g)) <= lists (TSeq false r a g) /\ snd (rate (TSeq false r a g)) <= 0).
  { intros r a g Hr U T. rewrite rate_seq. cbn [sup fst snd]. pose proof (lists_nonneg (TSeq false r a g)) as L0. cbn [lists] in *.
    set (m := fold_right _ 0 r) in *. set (m' := Z.max m _) in *. assert (m <= m') by (subst m'; lia).
    assert (fst (most (map (fun c => rate (cty c)) r)) <= m' /\ snd (most (map (fun c => rate (cty c)) r)) <= 0); [|lia].
    apply most_bound; [|lia|lia]. intros p P. apply in_map_iff in P as (c & <- & C).
    rewrite forallb_forall in U, T. rewrite Forall_forall in Hr. specialize (Hr c C (U c C) (T c C)).
    pose proof (lists_in r c C) as J. fold m in J. lia. }
  induction t as [ | | |c|c|e r a g Hr Ha Hg|c t IH|e r a g Hr Ha Hg] using ty_rect'; intros U T; try discriminate; try (cbn; lia).
  - cbn [unmarked] in U. apply andb_prop in U as (U1 & U2). destruct e; [discriminate|].
    cbn [stringless] in T. apply andb_prop in T as (T & _). apply andb_prop in T as (T & _). now apply Sq.
  - cbn [unmarked stringless] in U, T. specialize (IH U T). cbn [rate fst snd lists]. lia.
  - cbn [unmarked] in U. apply andb_prop in U as (U1 & U2). destruct e; [discriminate|].
    cbn [stringless] in T. apply andb_prop in T as (T & _). apply andb_prop in T as (T & _).
    rewrite rate_choice. change (lists (TChoice false r a g)) with (lists (TSeq false r a g)). now apply Sq.
Qed.

(** Without strings and extension markers: as many elements as bits, for every
    list that is nested in another, whether decoding ends inside the octets or not. *)
Theorem C58_elements_partial : forall t bs v, narrow t = true -> unmarked t = true -> stringless t = true -> Forall octet bs ->
  decode bs t = Ok v -> weight v <= lists t * (8 * zlen bs).
Proof.
  intros t bs v N U T O E. pose proof (C58_bound_partial t bs v N O E) as W. destruct (rate_stringless t U T) as (R1 & R2).
  assert (0 <= 8 * zlen bs) by (unfold zlen; lia).
  pose proof (Z.mul_le_mono_nonneg_r (fst (rate t)) (lists t) (8 * zlen bs)). lia.
Qed.

(** What the library encoded itself is never read past its end. *)
Lemma own_inside t v bs v' p : supported t v -> encode t v = Ok bs -> decode_pos bs t = Ok (v', p) -> (position p <= 8 * len bs)%nat.
Proof.
  intros S E F. apply encode_inv in E as (fs & E & Hbs & Hob & Hoct & Hne).
  destruct (rt_all t v fs S E) as (dv & C & R). unfold decode_pos in F.
  destruct (per_init_ok bs Hoct Hne) as (p0 & E0 & A0). rewrite E0 in F. cbn [bind] in F.
  destruct (produce_spec fs) as (k & Ek & K). rewrite Hob, Ek in A0.
  destruct (R 0%nat p0 [] (repeat false k) eq_refl A0) as (p1 & D1 & A1).
  rewrite D1 in F. cbn [bind fst snd] in F.
  assert (EP : p1 = p).
  { destruct dv as [v0|].
    - destruct (eq_empty v0); [|congruence]. destruct (from_empty t); [|discriminate]. cbn [bind] in F. congruence.
    - destruct (from_empty t); [|discriminate]. cbn [bind] in F. congruence. }
  subst p1. apply at_position in A1 as (A1 & _).
  assert (LB : (8 * len bs = len (render 0 fs) + k)%nat).
  { rewrite <- obits_length, Hob, Ek, app_length, repeat_length. reflexivity. }
  cbn [List.length] in A1. lia.
Qed.

Theorem C58_own_partial : forall t v bs v', supported t v -> narrow t = true -> unmarked t = true ->
  encode t v = Ok bs -> decode bs t = Ok v' -> weight v' <= (1 + lists t) * (8 * zlen bs).
Proof.
  intros t v bs v' S N U E F. unfold decode in F. destruct (decode_pos bs t) as [[x p]|] eqn:Dp; [|discriminate].
  cbn [bind fst] in F. apply ok_inj in F. subst x. pose proof (own_inside t v bs v' p S E Dp) as L.
  apply encode_inv in E as (_ & _ & _ & _ & O & _). exact (C58_complete_partial t bs v' p N U O Dp L).
Qed.

(** ** Refutations *)

(** SEQUENCE (SIZE (k)) OF SEQUENCE (SIZE (k)) OF ... INTEGER (5..5). *)
Fixpoint nest (k : Z) (d : nat) : ty :=
  match d with
  | O => TInt (CRange false (Some 5) (Some 5))
  | Datatypes.S e => TSeqOf (CSeqSize false (Some k) (Some k)) (nest k e)
  end.

Fixpoint tree (k : Z) (d : nat) : val :=
  match d with
  | O => VInt 5
  | Datatypes.S e => VSeqOf (repeat (tree k e) (Z.to_nat k))
  end.

Lemma dec_n_same (d : D val) v p : d p = Ok (v, p) -> forall n, dec_n d n p = Ok (repeat v n, p).
Proof. intros E. induction n as [|n IH]; cbn [dec_n repeat]; [reflexivity|]. unfold dbind at 1. rewrite E. unfold dbind. now rewrite IH. Qed.

Lemma dec_nest k d p : 1 <= k < 65536 -> dec (nest k d) p = Ok (DVal (tree k d), p).
Proof.
  intros B. induction d as [|d IH]; [reflexivity|]. cbn [nest dec tree]. unfold decode_sequence_of, dec_seqof_len. cbn [cext clo chi].
  replace ((k =? k) && (k <? 65536)) with true by lia.
  change ((do vs <- dec_n (do x <- dec (nest k d); lift (cast (nest k d) x)) (Z.to_nat k); ret (DVal (VSeqOf vs))) p
    = Ok (DVal (VSeqOf (repeat (tree k d) (Z.to_nat k))), p)).
  unfold dbind at 1. rewrite (dec_n_same _ (tree k d) p); [reflexivity|]. unfold dbind. rewrite IH. reflexivity.
Qed.

Lemma tree_weight k d : 1 <= k -> k ^ Z.of_nat (Datatypes.S d) <= weight (tree k (Datatypes.S d)).
Proof.
  intros B. assert (F : forall e, weight (tree k (Datatypes.S e)) = k * (1 + weight (tree k e))).
  { intros e. transitivity (Z.of_nat (Z.to_nat k) * (1 + weight (tree k e))); [|lia]. cbn [tree].
    generalize (Z.to_nat k). intros n. cbn [weight]. induction n as [|n IH]; cbn [repeat fold_right]; lia. }
  rewrite F, Nat2Z.inj_succ, Z.pow_succ_r by lia. apply Z.mul_le_mono_nonneg_l; [lia|].
  induction d as [|d IH]; [cbn; lia|]. rewrite F, Nat2Z.inj_succ, Z.pow_succ_r by lia.
  pose proof (Z.mul_le_mono_nonneg_l _ _ k ltac:(lia) IH). lia.
Qed.

(** Elements of no bits: every further level of a type multiplies what the same
    octets decode to, one octet being enough. *)
Theorem C58_nested_refuted : forall k d bs, 1 <= k < 65536 -> Forall octet bs -> bs <> [] ->
  exists v, decode bs (nest k (Datatypes.S d)) = Ok v /\ k ^ Z.of_nat (Datatypes.S d) <= weight v.
Proof.
  intros k d bs B O N. exists (tree k (Datatypes.S d)). split; [|apply tree_weight; lia].
  unfold decode, decode_pos. destruct (per_init_ok bs O N) as (p & E & _). rewrite E. cbn [bind].
  rewrite dec_nest by auto. reflexivity.
Qed.

(** So there is no bound at all over the types. *)
Theorem C58_bound_refuted : forall b : Z, exists t v, decode [0] t = Ok v /\ b < weight v.
Proof.
  intros b. set (d := Z.to_nat b).
  destruct (C58_nested_refuted 2 d [0] ltac:(lia) ltac:(repeat constructor; lia) ltac:(discriminate)) as (v & E & L).
  exists (nest 2 (Datatypes.S d)), v. split; [exact E|]. eapply Z.lt_le_trans; [|exact L].
  assert (b < Z.of_nat (Datatypes.S d)) by lia. eapply Z.lt_trans; [eassumption|]. apply Z.pow_gt_lin_r; lia.
Qed.

(** Two octets choose any number of elements up to 65535. *)
Theorem C58_counted_refuted : forall n, 0 <= n < 65536 ->
  decode [n / 256; n mod 256] (TSeqOf (CSeqSize false (Some 0) (Some 65535)) (nest 0 0)) = Ok (VSeqOf (repeat (VInt 5) (Z.to_nat n))).
Proof.
  intros n B. assert (O : Forall octet [n / 256; n mod 256]).
  { repeat constructor; unfold octet; try (apply Z.mod_pos_bound; lia); try (apply Z.div_pos; lia). apply Z.div_lt_upper_bound; lia. }
  unfold decode, decode_pos. destruct (per_init_ok _ O ltac:(discriminate)) as (p & -> & A). cbn [bind].
  assert (E : exists p', dec_seqof_len (CSeqSize false (Some 0) (Some 65535)) p = Ok (n, p')).
  { change (exists p', (do _ <- align; do z <- (do x <- per_next (2, 0)%nat false; do _ <- align; ret x); ret (0 + z)) p = Ok (n, p')).
    pose proof (per_next_spec _ _ _ (0, 0)%nat true A) as N1. cbv zeta in N1. cbn [fst snd Nat.mul Nat.add Nat.eqb] in N1.
    destruct N1 as (p1 & N1 & A1). unfold dbind. unfold align. rewrite N1.
    pose proof (per_next_spec _ _ _ (2, 0)%nat false A1) as N2. cbv zeta in N2.
    change (8 * fst (2, 0) + snd (2, 0))%nat with 16%nat in N2. cbn [Nat.eqb] in N2.
    replace (slice (obits [n / 256; n mod 256]) (fpos false (fpos true 0 + 0)) 16) with (obits [n / 256; n mod 256]) in N2 by reflexivity.
    remember (obits [n / 256; n mod 256]) as s eqn:Es. destruct s as [|b s].
    { apply (f_equal (@List.length bool)) in Es. rewrite obits_length in Es. discriminate. }
    destruct N2 as (p2 & N2 & A2). rewrite N2.
    pose proof (per_next_spec _ _ _ (0, 0)%nat true A2) as N3. cbv zeta in N3. cbn [fst snd Nat.mul Nat.add Nat.eqb] in N3.
    destruct N3 as (p3 & N3 & A3). rewrite N3. exists p3. unfold ret. do 2 f_equal. rewrite Es, obits_cons, bval_app, obits_length.
    rewrite bval_to_bits by (inversion O; assumption). cbn [List.length Nat.mul Nat.add].
    rewrite obits_cons. change (obits []) with (@nil bool). rewrite app_nil_r, bval_to_bits.
    2: { inversion O as [|? ? _ O']. inversion O'. assumption. }
    change (2 ^ Z.of_nat 8) with 256. pose proof (Z.div_mod n 256). lia. }
  destruct E as (p' & E). cbn [dec]. unfold decode_sequence_of, dbind at 1. rewrite E. unfold dbind.
  erewrite dec_n_same; [|reflexivity]. reflexivity.
Qed.

(** One octet of a string of fixed size is taken for all of it: the missing bits
    are made up. *)
Theorem C58_string_refuted : forall b n, octet b -> 16 < n < 65536 ->
  exists s, decode [b] (TBits (CRange false (Some n) (Some n))) = Ok (VBits s) /\ zlen s = n.
Proof.
  intros b n O B. assert (Ob : Forall octet [b]) by auto.
  unfold decode, decode_pos. destruct (per_init_ok _ Ob ltac:(discriminate)) as (p & -> & A). cbn [bind dec].
  unfold decode_bitstring. cbn [cext clo chi opt_is some_eq need]. cbv zeta.
  replace (n =? 0) with false by lia. replace (n =? n) with true by lia.
  change (dbind (lift (Ok n)) ?k p) with (k n p). cbv beta.
  replace (n <=? 16) with false by lia. replace ((16 <? n) && (n <? 65536)) with true by lia.
  pose proof (per_next_spec _ _ _ (0, 0)%nat true A) as N1. cbv zeta in N1. cbn [fst snd Nat.mul Nat.add Nat.eqb] in N1.
  destruct N1 as (p1 & N1 & A1). unfold dbind at 1. unfold align. rewrite N1.
  pose proof (per_next_spec _ _ _ (0%nat, Z.to_nat n) false A1) as N2. cbv zeta in N2. cbn [fst snd] in N2.
  destruct (Nat.eqb_spec (8 * 0 + Z.to_nat n) 0); [lia|]. change (fpos false (fpos true 0 + 0)) with 0%nat in N2.
  unfold slice in N2. rewrite firstn_all2 in N2 by (cbn [skipn]; rewrite obits_length; cbn [List.length]; lia). cbn [skipn] in N2.
  remember (obits [b]) as s eqn:Es. pose proof (bval_range s) as V.
  assert (Ls : len s = 8%nat) by (subst s; now rewrite obits_length). destruct s as [|x s]; [discriminate|].
  destruct N2 as (p2 & N2 & A2). unfold dbind at 1. unfold next_bits. rewrite N2.
  rewrite Ls in V. assert (2 ^ Z.of_nat 8 <= 2 ^ n) by (apply Z.pow_le_mono_r; lia).
  destruct (bin_zfill (bval (x :: s)) n) as [w|] eqn:Ew.
  2: { unfold bin_zfill in Ew. rewrite py_bin_ok in Ew by lia. discriminate. }
  assert (Lw : zlen w = n).
  { unfold bin_zfill in Ew. rewrite py_bin_ok in Ew by lia. cbn [bind] in Ew. apply ok_inj in Ew. subst w.
    unfold zlen. rewrite zfill_length, to_bits_length. pose proof (proj2 (bin_len_lt (bval (x :: s)) 8 ltac:(lia) ltac:(lia)) ltac:(lia)). lia. }
  clear Ew. rename Lw into Ew.
  change (dbind (lift (Ok w)) ?k p2) with (k w p2). cbv beta.
  rewrite firstn_all2 by (unfold zlen in Ew; lia).
  unfold mk_bits. rewrite Ew. cbn [ctest le_opt_l le_opt_r]. replace ((n <=? n) && (n <=? n)) with true by lia.
  exists w. split; [|exact Ew]. unfold lift. cbn [bind fst snd].
  destruct w; [unfold zlen in Ew; cbn [List.length] in Ew; lia|reflexivity].
Qed.

(** Open types announce the octets they have, and those that are missing are
    made up too: four octets give a thousand elements of one bit. *)
Definition announced : ty :=
  TSeq true [] [Comp "a" Opt (TSeqOf (CSeqSize false (Some 1000) (Some 1000)) TBool)] [].

Theorem C58_announced_refuted : exists bs t v, narrow t = true /\ stringless t = true /\ lists t = 1 /\
  decode bs t = Ok v /\ zlen bs = 4 /\ weight v = 1000.
Proof.
  exists [128; 128; 125; 255], announced.
  exists (VSeq (Some [Some (VSeqOf (repeat (VBool false) 992 ++ repeat (VBool true) 8))])).
  repeat split; vm_compute; reflexivity.
Qed.

(** The theorems apply to types with lists in lists, strings and choices, and the
    size they speak of is reached: here 1 element of 3 with 6 bits in all. *)
Definition sheet : ty :=
  TSeq false [Comp "rows" Mand (TSeqOf (CSeqSize false (Some 0) (Some 7)) (TSeqOf (CSeqSize false (Some 3) (Some 3))
                (TBits (CRange false (Some 2) (Some 2)))));
              Comp "more" Opt (TChoice false [Comp "yes" Mand TBool; Comp "no" Mand (TInt (CRange false (Some 0) (Some 3)))] [] [])] [] [].

Example C58_case : narrow sheet = true /\ unmarked sheet = true /\ lists sheet = 2 /\ fst (rate sheet) = 3 /\
  exists v p, decode_pos [19; 108] sheet = Ok (v, p) /\ (position p <= 16)%nat /\ weight v = 10.
Proof.
  do 4 (split; [vm_compute; reflexivity|]). do 2 eexists.
  split; [vm_compute; reflexivity|]. split; [vm_compute; lia|vm_compute; reflexivity].
Qed.
