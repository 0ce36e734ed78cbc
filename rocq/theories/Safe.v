(** A check of a schema that promises that no message is lost.

    Nothing here is code of the library: [safe] is a function of the type alone
    that a user can evaluate on the types of a schema, [message] says what a
    complete and valid object of a type is, and [modest] sets the limits of the
    missing fragmentation. *)
From Coq Require Import ZArith List String Bool Lia ZifyBool ZifyNat ZifyN.
Import ListNotations.
From Verif Require Import PyBase Schema Encoder Decoder BitFacts Stream Prims Spec SimpleTypes RoundTrip Reading
  Totality PropsRoundTrip Objects Constraints Valid Exact Faults Extent.
Open Scope Z_scope.
Ltac Zify.zify_post_hook ::= Z.div_mod_to_equations.

(** * Complete, valid messages *)

(** A component is there when it is set or has a DEFAULT. *)
Definition has (c : comp ty) (s : option val) : bool :=
  match s with Some _ => true | None => is_defaulted c end.

Definition has_flag (c : comp ty) (s : option val) : bool * bool := (is_optional c || has c s, has c s).

Definition any_has (g : list (comp ty)) (ss : list (option val)) : bool :=
  existsb (fun b => b) (zipw has g ss).

Fixpoint has_flags (gs : list (list (comp ty))) (ss : list (option val)) : list (bool * bool) :=
  match gs with
  | [] => []
  | g :: gs' => (existsb is_optional g || any_has g ss, any_has g ss) :: has_flags gs' (skipn (List.length g) ss)
  end.

(** What is set is a message of its type. *)
Definition msg_add (ca : comp ty * (val -> Prop)) (s : option val) : Prop :=
  match s with Some v => snd ca v | None => True end.

(** In the root what is not set has to be OPTIONAL or DEFAULT. *)
Definition msg_root (ca : comp ty * (val -> Prop)) (s : option val) : Prop :=
  match s with Some v => snd ca v | None => cpres (fst ca) <> Mand end.

(** A group of which a component is there is complete. *)
Definition msg_group (g : list (comp ty * (val -> Prop))) (ss : list (option val)) : Prop :=
  all_of (zipw msg_add g ss) /\ (any_has (map fst g) ss = true -> all_of (zipw msg_root g ss)).

Fixpoint msg_groups (gs : list (list (comp ty * (val -> Prop)))) (ss : list (option val)) : Prop :=
  match gs with
  | [] => True
  | g :: gs' => msg_group g ss /\ msg_groups gs' (skipn (List.length g) ss)
  end.

(** A number of elements the SIZE of a SEQUENCE OF allows. *)
Definition allowed (c : constr) (n : Z) : Prop :=
  cext c = true \/ ((forall l, clo c = Some l -> l <= n) /\ (forall h, chi c = Some h -> n <= h)).

Fixpoint message (t : ty) (v : val) {struct t} : Prop :=
  match t, v with
  | TBool, VBool _ => True
  | TInt c, VInt z => sat c z
  | TEnum _ root adds, VEnum z => In z (root ++ adds)
  | TBits c, VBits s => sat c (zlen s)
  | TOcts c, VOcts bs => sat c (zlen bs) /\ Forall (fun b => 0 <= b < 256) bs
  | TSeqOf c t', VSeqOf vs => allowed c (zlen vs) /\ all_of (map (message t') vs)
  | TChoice _ root adds groups, VChoice (Some (i, v')) =>
      match nth_error (att message root ++ att message adds ++ List.concat (map (att message) groups)) i with
      | Some ca => snd ca v'
      | None => False
      end
  | TSeq _ root adds groups, VSeq slots =>
      let ss := slots_list (ncomps root adds groups) slots in
      let s2 := skipn (List.length root) ss in
      let s3 := skipn (List.length root + List.length adds) ss in
      List.length ss = ncomps root adds groups /\
      all_of (zipw msg_root (att message root) ss) /\
      all_of (zipw msg_add (att message adds) s2) /\
      msg_groups (map (att message) groups) s3 /\
      no_gap (zipw has_flag adds s2) /\ no_gap (has_flags groups s3)
  | _, _ => False
  end.

(** * Modest values *)

Definition short (c : constr) (n : Z) : Prop :=
  n < 16384 \/ (inside c n = true /\ forall h, chi c = Some h -> h < 65536).

Definition mod_add (ca : comp ty * (val -> Prop)) (s : option val) : Prop :=
  has (fst ca) s = true ->
  snd ca (slot_get (fst ca) s) /\ open_small (cty (fst ca)) (slot_get (fst ca) s).

Fixpoint mod_groups (gs : list (list (comp ty * (val -> Prop)))) (ss : list (option val)) : Prop :=
  match gs with
  | [] => True
  | g :: gs' =>
      all_of (zipw msg_add g ss) /\
      (any_has (map fst g) ss = true ->
       open_small (TSeq false (map fst g) [] []) (VSeq (Some (firstn (List.length g) ss)))) /\
      mod_groups gs' (skipn (List.length g) ss)
  end.

(** INTEGERs outside a range fit 255 octets, strings and lists outside a SIZE
    below 64K are shorter than 16K, and so are the additions.  [q] is what is asked
    of OCTET STRINGs. *)
Fixpoint modest_by (q : constr -> list Z -> Prop) (t : ty) (v : val) {struct t} : Prop :=
  match t, v with
  | TInt c, VInt z => inside c z = true \/ sfits 255 z
  | TBits c, VBits s => short c (zlen s)
  | TOcts c, VOcts bs => q c bs
  | TSeqOf c t', VSeqOf vs => short c (zlen vs) /\ all_of (map (modest_by q t') vs)
  | TChoice _ root adds groups, VChoice (Some (i, v')) =>
      match nth_error (att (modest_by q) root ++ att (modest_by q) adds ++ List.concat (map (att (modest_by q)) groups)) i with
      | Some ca => snd ca v' /\ ((List.length root <= i)%nat -> open_small (cty (fst ca)) v')
      | None => False
      end
  | TSeq _ root adds groups, VSeq slots =>
      let ss := slots_list (ncomps root adds groups) slots in
      let s2 := skipn (List.length root) ss in
      let s3 := skipn (List.length root + List.length adds) ss in
      all_of (zipw msg_add (att (modest_by q) root) ss) /\
      all_of (zipw mod_add (att (modest_by q) adds) s2) /\
      mod_groups (map (att (modest_by q)) groups) s3
  | _, _ => True
  end.

Definition plain_size (c : constr) (bs : list Z) : Prop := short c (zlen bs).

(** * The check *)

(** Below 2^k. *)
Definition bits_below (k z : Z) : bool := Z.log2 z <? k.

(** The marker, if any, stands at the outermost constraint. *)
Definition regularb (c : constr) : bool := cext c || unmarked c.

Definition safe_int (c : constr) : bool :=
  regularb c &&
  match clo c, chi c with
  | Some l, Some h => (l <=? h) && bits_below (8 * 65536) (h - l) && (negb (cext c) || (l <? h) || (l =? 0))
  | Some l, None => negb (cext c) && bits_below 2039 (Z.abs l)
  | None, _ => negb (cext c)
  end.

Definition list_eqb (a b : list Z) : bool := if list_eq_dec Z.eq_dec a b then true else false.

Definition safe_enum (ext : bool) (root adds : list Z) : bool :=
  list_eqb (root ++ adds) (map Z.of_nat (List.seq 0 (List.length (root ++ adds)))) &&
  (1 <=? zlen root) && (zlen root <=? 65536) && (ext || list_eqb adds []) && bits_below (8 * 16383) (zlen adds).

(** BIT STRINGs must not be empty or extensible. *)
Definition safe_bits (c : constr) : bool :=
  regularb c && negb (cext c) &&
  match clo c, chi c with
  | Some l, Some h => (1 <=? l) && (l <=? h) && ((l <? h) || (h <? 65536))
  | Some l, None => 1 <=? l
  | None, _ => false
  end.

(** OCTET STRINGs have one size, or a lower end and no upper end. *)
Definition safe_octs (c : constr) : bool :=
  regularb c &&
  match clo c, chi c with
  | Some l, Some h => (l =? h) && (0 <=? l) && (h <? 65536) && (negb (cext c) || (1 <=? h))
  | Some l, None => negb (cext c) && (1 <=? l)
  | None, _ => false
  end.

Definition safe_count (c : constr) : bool :=
  match clo c, chi c with
  | Some l, Some h =>
      (0 <=? l) && (l <=? h) && (h - l <? 65536) &&
      ((l <? h) || (if cext c then l =? 0 else h <? 65536))
  | Some l, None => negb (cext c) && (0 <=? l)
  | None, _ => false
  end.

(** Every message of the type has something in it. *)
Fixpoint solid (t : ty) : bool :=
  match t with
  | TBool | TInt _ | TEnum _ _ _ | TBits _ | TOcts _ => true
  | TSeqOf c t' => negb (cext c) && match clo c with Some l => 1 <=? l | None => false end && solid t'
  | TSeq _ root _ _ => existsb (fun c => is_mandatory c && solid (cty c)) root
  | TChoice _ root adds groups =>
      forallb (fun c => solid (cty c)) root && forallb (fun c => solid (cty c)) adds &&
      forallb (forallb (fun c => solid (cty c))) groups
  end.

(** A value of a simple type. *)
Definition fits (t : ty) (d : val) : bool :=
  match t, d with
  | TBool, VBool _ => true
  | TInt c, VInt z => ctest c z
  | TEnum _ root adds, VEnum z => existsb (Z.eqb z) (root ++ adds)
  | TBits c, VBits s => ctest c (zlen s)
  | TOcts c, VOcts bs => ctest c (zlen bs) && forallb (fun b => (0 <=? b) && (b <? 256)) bs
  | _, _ => false
  end.

(** A DEFAULT is a value of a simple type; a BIT STRING with one has one size. *)
Definition safe_default (c : comp ty) : bool :=
  match cpres c with
  | Dflt d =>
      fits (cty c) d &&
      match cty c with
      | TBits k => match clo k, chi k with Some l, Some h => l =? h | _, _ => false end
      | _ => true
      end
  | _ => true
  end.

Definition safe_root (c : comp ty) : bool :=
  safe_default c && (is_mandatory c || solid (cty c)).

Definition safe_add (c : comp ty) : bool := safe_default c && solid (cty c).

Fixpoint distinct (l : list string) : bool :=
  match l with
  | [] => true
  | a :: r => negb (existsb (String.eqb a) r) && distinct r
  end.

Definition few_optional (cs : list (comp ty)) : bool := Z.of_nat (optional_count cs) <? 65536.

Definition closed {A B} (ext : bool) (adds : list A) (groups : list B) : bool :=
  ext || match adds, groups with [], [] => true | _, _ => false end.

(** [o] is the rule for OCTET STRINGs. *)
Fixpoint safe_by (o : constr -> bool) (t : ty) : bool :=
  match t with
  | TBool => true
  | TInt c => safe_int c
  | TEnum ext root adds => safe_enum ext root adds
  | TBits c => safe_bits c
  | TOcts c => o c
  | TSeqOf c t' => safe_count c && safe_by o t'
  | TSeq ext root adds groups =>
      distinct (map cname (all_comps root adds groups)) && closed ext adds groups &&
      few_optional root && (zlen adds + zlen groups <=? 64) &&
      forallb (fun g => (1 <=? zlen g) && few_optional g) groups &&
      forallb safe_root root && forallb safe_add adds && forallb (forallb safe_add) groups &&
      (forallb (fun c => safe_by o (cty c)) root && forallb (fun c => safe_by o (cty c)) adds &&
       forallb (forallb (fun c => safe_by o (cty c))) groups)
  | TChoice ext root adds groups =>
      distinct (map cname (all_comps root adds groups)) && closed ext adds groups &&
      (1 <=? zlen root) && bits_below (8 * 16383) (zlen (all_comps root adds groups)) &&
      (forallb (fun c => safe_by o (cty c)) root && forallb (fun c => safe_by o (cty c)) adds &&
       forallb (forallb (fun c => safe_by o (cty c))) groups)
  end.

(** * Simple types *)

Lemma below_ufits k z : 0 <= z -> 0 < k -> bits_below (8 * k) z = true -> ufits k z.
Proof.
  unfold bits_below, ufits. intros Z0 K B. split; [exact Z0|]. apply Z.ltb_lt in B.
  destruct (Z.eq_dec z 0) as [->|]; [apply Z.pow_pos_nonneg; lia|]. apply Z.log2_lt_pow2; lia.
Qed.

Lemma regular_check c : regularb c = true -> regular c.
Proof. unfold regularb, regular. intros H. apply orb_true_iff in H. exact H. Qed.

Lemma sat_ends c z : regularb c = true -> sat c z -> cext c = false ->
  ctest c z = true /\ (forall l, clo c = Some l -> l <= z) /\ (forall h, chi c = Some h -> z <= h).
Proof.
  intros Rg S X. apply ctest_sat in S. destruct (regular_ends c z (regular_check c Rg) S X) as (A & B).
  split; [exact S|]. unfold Exact.above, Exact.below in *. split; intros y E; rewrite E in *; assumption.
Qed.

Lemma ext_bounded c : (cext c = true -> exists l h, clo c = Some l /\ chi c = Some h) -> bounded_ext c.
Proof. unfold bounded_ext. intros H X. destruct (H X) as (l & h & -> & ->). split; discriminate. Qed.

Lemma int_safe c z : safe_int c = true -> sat c z -> inside c z = true \/ sfits 255 z ->
  int_ok c z /\ bounded_ext c.
Proof.
  unfold safe_int. intros S M Md. apply andb_true_iff in S as (Rg & S). pose proof (proj2 (ctest_sat c z) M) as T.
  unfold int_ok, inside in *. destruct (cext c) eqn:X.
  - destruct (clo c) as [l|] eqn:L; [|discriminate]. destruct (chi c) as [h|] eqn:U; [|discriminate].
    cbn [negb orb] in S. apply andb_true_iff in S as (S & S3). apply andb_true_iff in S as (S1 & S2).
    split; [|apply ext_bounded; eauto]. split; [exact T|].
    destruct ((l <=? z) && (z <=? h)) eqn:J.
    + split; [apply below_ufits; [lia|lia|exact S2]|lia].
    + destruct Md as [Md|Md]; [discriminate|]. auto.
  - destruct (sat_ends c z Rg M X) as (_ & A & B).
    split; [|intros Y; congruence]. split; [exact T|].
    destruct (clo c) as [l|] eqn:L.
    + specialize (A l eq_refl). destruct (chi c) as [h|] eqn:U.
      * specialize (B h eq_refl). replace ((l <=? z) && (z <=? h)) with true by lia.
        cbn [negb orb] in S. apply andb_true_iff in S as (S & _). apply andb_true_iff in S as (S1 & S2).
        split; [apply below_ufits; [lia|lia|exact S2]|discriminate].
      * cbn [negb andb] in S. destruct Md as [Md|Md]; [discriminate|].
        unfold bits_below in S. apply Z.ltb_lt in S.
        assert (Q : Z.abs l < 2 ^ 2039).
        { destruct (Z.eq_dec l 0) as [->|]; [reflexivity|]. apply Z.log2_lt_pow2; lia. }
        unfold sfits in Md. unfold ufits. change (8 * 255 - 1) with 2039 in Md. split; [lia|].
        apply Z.lt_le_trans with (2 ^ 2040).
        -- change (2 ^ 2040) with (2 ^ (Z.succ 2039)). rewrite Z.pow_succ_r by lia.
           set (q := 2 ^ 2039) in *. clearbody q. lia.
        -- apply Z.pow_le_mono_r; lia.
    + split; [reflexivity|]. destruct Md as [Md|Md]; [discriminate|exact Md].
Qed.

Lemma list_eqb_eq a b : list_eqb a b = true -> a = b.
Proof. unfold list_eqb. now destruct (list_eq_dec Z.eq_dec a b). Qed.

Lemma enum_safe ext root adds z : safe_enum ext root adds = true -> In z (root ++ adds) -> enum_ok ext root adds z.
Proof.
  unfold safe_enum, enum_ok. intros S M. repeat (apply andb_true_iff in S as (S & ?)).
  split; [exact (list_eqb_eq _ _ S)|]. split; [exact M|]. split; [lia|]. split.
  - intros ->. now apply list_eqb_eq.
  - apply below_ufits; [unfold zlen; lia|lia|assumption].
Qed.

Lemma bits_safe c s : safe_bits c = true -> sat c (zlen s) -> short c (zlen s) ->
  bits_ok c s /\ bounded_ext c /\ fixed_small c.
Proof.
  unfold safe_bits. intros S M Md. apply andb_true_iff in S as (S & Z0). apply andb_true_iff in S as (Rg & X).
  apply negb_true_iff in X. destruct (sat_ends c _ Rg M X) as (T & A & B).
  assert (N1 : forall l, clo c = Some l -> 1 <= l -> s <> []).
  { intros l E L. specialize (A l E). intros ->. unfold zlen in A. cbn in A. lia. }
  split; [|split].
  - unfold bits_ok. cbv zeta. rewrite X. cbn [andb]. split; [exact T|].
    destruct (clo c) as [l|] eqn:L; [|discriminate]. specialize (A l eq_refl). specialize (N1 l eq_refl).
    destruct (chi c) as [h|] eqn:U.
    + specialize (B h eq_refl). assert (W : s <> [] /\ 0 <= l <= zlen s /\ zlen s <= h /\ (65536 <= h -> zlen s < 16384)).
      { split; [apply N1; lia|]. split; [lia|]. split; [lia|]. destruct Md as [Md|(_ & Md)]; [lia|].
        specialize (Md h U). lia. }
      destruct h; auto. lia.
    + split; [apply N1; lia|]. destruct Md as [Md|(Md & _)]; [exact Md|]. unfold inside in Md. rewrite L, U in Md. discriminate.
  - intros Y. congruence.
  - intros l L U. rewrite L, U in Z0. lia.
Qed.

Lemma octs_safe c bs : safe_octs c = true -> sat c (zlen bs) -> Forall (fun b => 0 <= b < 256) bs ->
  short c (zlen bs) -> octs_ok c bs /\ bounded_ext c /\ fixed_small c.
Proof.
  unfold safe_octs. intros S M O Md. apply andb_true_iff in S as (Rg & S). pose proof (proj2 (ctest_sat c _) M) as T.
  split; [|split].
  - unfold octs_ok. cbv zeta. split; [exact O|]. split; [exact T|]. destruct (cext c) eqn:X; cbn [andb].
    + destruct (inside c (zlen bs)) eqn:I0; cbn [negb]; [|destruct Md as [Md|(Md & _)]; [exact Md|congruence]].
      destruct (clo c) as [l|] eqn:L; [|discriminate]. destruct (chi c) as [h|] eqn:U; [|discriminate].
      unfold inside in I0. rewrite L, U in I0. cbn [negb orb] in S.
      assert (W : 0 <= l <= zlen bs /\ zlen bs <= h /\ (l < h -> h - l < 65536 /\ match bs with [] => 256 <= h - l + 1 | _ => digits_kept bs end)) by lia.
      destruct h; auto. lia.
    + destruct (sat_ends c _ Rg M X) as (_ & A & B).
      destruct (clo c) as [l|] eqn:L; [|discriminate]. specialize (A l eq_refl).
      destruct (chi c) as [h|] eqn:U.
      * specialize (B h eq_refl). cbn [negb orb] in S.
        assert (W : 0 <= l <= zlen bs /\ zlen bs <= h /\ (l < h -> h - l < 65536 /\ match bs with [] => 256 <= h - l + 1 | _ => digits_kept bs end)) by lia.
        destruct h; auto. split; [reflexivity|]. destruct bs; [reflexivity|]. unfold zlen in B. cbn [List.length] in B. lia.
      * cbn [negb andb] in S. destruct Md as [Md|(Md & _)]; [lia|]. unfold inside in Md. rewrite L, U in Md. discriminate.
  - apply ext_bounded. intros X. rewrite X in S. destruct (clo c) as [l|], (chi c) as [h|]; try discriminate. eauto.
  - intros l L U. rewrite L, U in S. lia.
Qed.

Lemma count_safe c n : safe_count c = true -> 0 <= n -> allowed c n -> short c n -> count_ok c n /\ bounded_ext c.
Proof.
  unfold safe_count. intros S N A Md. split.
  - unfold count_ok. destruct (cext c) eqn:X.
    + destruct (inside c n) eqn:I0; [|destruct Md as [Md|(Md & _)]; [exact Md|congruence]].
      destruct (clo c) as [l|], (chi c) as [h|]; try discriminate. lia.
    + destruct A as [A|(A & B)]; [congruence|].
      destruct (clo c) as [l|] eqn:L; [|discriminate]. specialize (A l eq_refl). destruct (chi c) as [h|] eqn:U.
      * specialize (B h eq_refl). lia.
      * destruct Md as [Md|(Md & _)]; [lia|]. unfold inside in Md. rewrite L, U in Md. discriminate.
  - apply ext_bounded. intros X. rewrite X in S. destruct (clo c) as [l|], (chi c) as [h|]; try discriminate. eauto.
Qed.

(** * Solid types *)

Lemma in_zipw {A} (f : comp ty * A -> option val -> Prop) (h : ty -> A) cs ss i c s :
  nth_error cs i = Some c -> nth_error ss i = Some s -> In (f (c, h (cty c)) s) (zipw f (att h cs) ss).
Proof.
  revert ss i. induction cs as [|x cs IH]; intros [|y ss] [|i] C1 C2; cbn [nth_error] in *; try discriminate.
  - injection C1 as ->. injection C2 as ->. now left.
  - right. exact (IH ss i C1 C2).
Qed.

Lemma nth_att {A} (h : ty -> A) cs i ca : nth_error (att h cs) i = Some ca ->
  exists c, nth_error cs i = Some c /\ ca = (c, h (cty c)).
Proof.
  unfold att. intros E. rewrite nth_error_map in E. destruct (nth_error cs i) as [c|]; [|discriminate].
  cbn [option_map] in E. injection E as <-. eauto.
Qed.

Lemma att_nth {A} (h : ty -> A) cs i c : nth_error cs i = Some c -> nth_error (att h cs) i = Some (c, h (cty c)).
Proof. unfold att. intros E. now rewrite nth_error_map, E. Qed.

Lemma three_all (p : comp ty -> bool) r a g :
  forallb p r && forallb p a && forallb (forallb p) g = true -> Forall (fun c => p c = true) (all_comps r a g).
Proof.
  intros S. apply andb_true_iff in S as (S & S3). apply andb_true_iff in S as (S1 & S2).
  rewrite forallb_forall in S1, S2, S3. apply Forall_forall. intros c I.
  unfold all_comps in I. apply in_app_or in I as [I|I]; [auto|]. apply in_app_or in I as [I|I]; [auto|].
  apply in_concat in I as (x & Ix & Ic). specialize (S3 x Ix). rewrite forallb_forall in S3. auto.
Qed.

Lemma all_three (P : comp ty -> Prop) r a g : Forall P r -> Forall P a -> Forall (Forall P) g ->
  Forall P (all_comps r a g).
Proof. intros. unfold all_comps. rewrite !Forall_app, forall_concat. auto. Qed.

Lemma simple_message t v : is_simple t = true -> message t v -> contentful t v /\ present t v = true.
Proof. destruct t; try discriminate; intros _ M; destruct v; try contradiction; split; exact Logic.I || reflexivity. Qed.

Lemma solid_message t : solid t = true -> forall v, message t v -> contentful t v /\ present t v = true.
Proof.
  induction t using ty_rect'; intros So v M; try (apply simple_message; [reflexivity|exact M]).
  - cbn [solid] in So. apply existsb_exists in So as (c & Ic & So). apply andb_true_iff in So as (Mc & So).
    cbn [message] in M. destruct v as [| | | | | |slots| |]; try contradiction. destruct M as (L & MR & _).
    apply In_nth_error in Ic as (i & Ci). assert (Bi : (i < List.length r)%nat) by (apply nth_error_Some; congruence).
    set (ss := slots_list (ncomps r a g) slots) in *.
    assert (Bs : (i < List.length ss)%nat).
    { rewrite L. unfold ncomps, all_comps. rewrite app_length. lia. }
    destruct (nth_error ss i) as [s|] eqn:Si; [|apply nth_error_None in Si; lia].
    rewrite zipw_all in MR. pose proof (MR i c s Ci Si) as Ms. unfold msg_root in Ms. cbn [fst snd] in Ms.
    destruct s as [w|]; [|unfold is_mandatory in Mc; destruct (cpres c); congruence].
    rewrite Forall_forall in H. destruct (H c (nth_error_In _ _ Ci) So w Ms) as (Cw & Pw).
    destruct slots as [l|].
    + cbn [slots_list] in ss. subst ss. split.
      * cbn [contentful]. cbv zeta. cbn [slots_list]. rewrite !some_of_app. left.
        exists (cont_root (c, contentful (cty c)) (Some w)). split; [exact (in_zipw cont_root contentful r l i c (Some w) Ci Si)|].
        unfold cont_root, cont_add. cbn [fst snd slot_get]. split; [auto|].
        unfold is_mandatory in Mc. destruct (cpres c); try discriminate. exact Logic.I.
      * unfold present. rewrite is_value_seq. assert (V : seq_any l (comps_of (TSeq e r a g)) = true).
        { apply seq_any_nth. exists i, c, w. split; [|split; [exact Si|now apply present_value]].
          cbn [comps_of]. unfold all_comps. rewrite nth_error_app1 by lia. exact Ci. }
        rewrite V, orb_true_r. destruct l; [destruct i; discriminate|reflexivity].
    + exfalso. cbn [slots_list] in ss. subst ss. apply nth_error_In, repeat_spec in Si. discriminate.
  - cbn [solid] in So. apply andb_true_iff in So as (So & S3). apply andb_true_iff in So as (X & S2).
    cbn [message] in M. destruct v as [| | | | | | |vs|]; try contradiction. destruct M as (A & M).
    rewrite all_of_forall in M. rewrite Forall_forall in M.
    assert (NE : vs <> []).
    { destruct A as [A|(A & _)]; [rewrite A in X; discriminate|]. destruct (clo c) as [l|]; [|discriminate].
      specialize (A l eq_refl). intros ->. unfold zlen in A. cbn in A. lia. }
    split.
    + cbn [contentful]. split; [exact NE|]. apply all_of_forall, Forall_forall. intros v I. exact (proj1 (IHt S3 v (M v I))).
    + unfold present. rewrite andb_true_r. destruct vs as [|v0 vs]; [congruence|].
      change (is_value (TSeqOf c t) (VSeqOf (v0 :: vs))) with (forallb (is_value t) (v0 :: vs)).
      apply forallb_forall. intros v I. apply present_value. exact (proj2 (IHt S3 v (M v I))).
  - cbn [solid] in So. apply three_all in So. assert (HA := all_three _ r a g H H0 H1).
    cbn [message] in M. destruct v as [| | | | | | | |[(i & w)|]]; try contradiction. rewrite all_att in M.
    destruct (nth_error (att message (all_comps r a g)) i) as [ca|] eqn:Ci; [|contradiction].
    apply nth_att in Ci as (c & Ci & ->). cbn [snd] in M. rewrite Forall_forall in So, HA.
    pose proof (nth_error_In _ _ Ci) as Ic. destruct (HA c Ic (So c Ic) w M) as (Cw & Pw). split.
    + cbn [contentful]. rewrite all_att, (att_nth contentful _ i c Ci). exact Cw.
    + unfold present. rewrite andb_true_r.
      change (is_value (TChoice e r a g) (VChoice (Some (i, w)))) with (is_value (comp_ty (all_comps r a g) i) w).
      unfold comp_ty. rewrite Ci. now apply present_value.
Qed.

Lemma solid_fresh t : solid t = true -> is_value t (fresh t) = false.
Proof.
  destruct t; try reflexivity. cbn [solid fresh]. intros So. apply existsb_exists in So as (c & Ic & So).
  apply andb_true_iff in So as (Mc & _). rewrite is_value_none. cbn [comps_of].
  assert (I2 : In c (all_comps root adds groups)) by (unfold all_comps; apply in_or_app; now left).
  destruct (all_comps root adds groups) as [|x l] eqn:E; [reflexivity|].
  destruct (forallb _ (x :: l)) eqn:F; [|reflexivity]. rewrite forallb_forall in F. specialize (F c I2).
  rewrite Mc in F. discriminate.
Qed.

Lemma fits_message t d : fits t d = true -> is_simple t = true /\ message t d.
Proof.
  destruct t, d; cbn [fits]; try discriminate; intros F; split; try reflexivity; cbn [message].
  - now apply ctest_sat.
  - apply existsb_exists in F as (y & I & E). apply Z.eqb_eq in E. now subst.
  - now apply ctest_sat.
  - apply andb_true_iff in F as (F & G). rewrite forallb_forall in G. split; [now apply ctest_sat|].
    apply Forall_forall. intros b I. specialize (G b I). lia.
Qed.

Lemma same_kind_fits t d v : fits t d = true -> message t v -> same_kind d v.
Proof. intros F M. destruct t, d; cbn [fits] in F; try discriminate; destruct v; try contradiction; exact Logic.I. Qed.

(** What counts as there is what is there. *)
Lemma add_present c s : safe_add c = true -> msg_add (c, message (cty c)) s ->
  present (cty c) (slot_get c s) = has c s /\ is_value (cty c) (slot_get c s) = has c s /\
  (has c s = true -> message (cty c) (slot_get c s) /\ contentful (cty c) (slot_get c s)).
Proof.
  unfold safe_add. intros S M. apply andb_true_iff in S as (Sd & So).
  assert (W : forall v, message (cty c) v -> present (cty c) v = true /\ is_value (cty c) v = true /\
    (true = true -> message (cty c) v /\ contentful (cty c) v)).
  { intros v Mv. destruct (solid_message _ So v Mv) as (Cv & Pv). pose proof (present_value _ _ Pv). auto. }
  unfold msg_add in M. cbn [snd] in M. destruct s as [v|]; cbn [slot_get has]; [exact (W v M)|].
  unfold safe_default in Sd. unfold is_defaulted. destruct (cpres c) as [| |d].
  1-2: pose proof (solid_fresh _ So) as V; split; [unfold present; now rewrite V|split; [exact V|discriminate]].
  apply andb_true_iff in Sd as (F & _). apply fits_message in F as (_ & F). exact (W d F).
Qed.

Section Check.
Context {rule : constr -> bool} {asked ok : constr -> list Z -> Prop}.
Local Notation supported := (supported_by ok).
Local Notation safe := (safe_by rule).
Local Notation modest := (modest_by asked).

Lemma default_told c d v : safe_default c = true -> cpres c = Dflt d -> safe (cty c) = true -> message (cty c) v ->
  default_ok d v.
Proof using rule.
  clear asked ok. intros Sd P Sf M. unfold safe_default in Sd. rewrite P in Sd. apply andb_true_iff in Sd as (F & B).
  unfold default_ok. assert (DD : v = d \/ v <> d).
  { destruct (cty c), d; cbn [fits] in F; try discriminate; destruct v; try contradiction;
      try (left; congruence); try (right; congruence).
    - destruct (Bool.bool_dec b0 b); [left|right]; congruence.
    - destruct (Z.eq_dec z0 z); [left|right]; congruence.
    - destruct (Z.eq_dec z0 z); [left|right]; congruence.
    - destruct (list_eq_dec Bool.bool_dec s0 s); [left|right]; congruence.
    - destruct (list_eq_dec Z.eq_dec bs0 bs); [left|right]; congruence. }
  destruct DD as [DD|DD]; [now left|right]. split; [exact DD|]. intros x y -> ->. intros BV.
  destruct (cty c) as [| | |k| | | |]; try contradiction. cbn [fits] in F. cbn [message] in M. cbn [safe_by] in Sf.
  unfold safe_bits in Sf. apply andb_true_iff in Sf as (Sf & _). apply andb_true_iff in Sf as (Rg & X).
  apply negb_true_iff in X. apply ctest_sat in F. destruct (sat_ends k _ Rg F X) as (_ & A1 & B1).
  destruct (sat_ends k _ Rg M X) as (_ & A2 & B2). destruct (clo k) as [l|]; [|discriminate].
  destruct (chi k) as [h|]; [|discriminate]. specialize (A1 l eq_refl). specialize (A2 l eq_refl).
  specialize (B1 h eq_refl). specialize (B2 h eq_refl). apply DD. f_equal. symmetry. apply bval_inj; [|exact BV].
  unfold zlen in *. lia.
Qed.

(** * Constructed types *)

Definition good (t : ty) : Prop := safe t = true -> forall v, message t v -> modest t v -> supported t v /\ ready t v.

Lemma root_slot c s : good (cty c) -> safe (cty c) = true -> safe_root c = true ->
  msg_root (c, message (cty c)) s -> msg_add (c, modest (cty c)) s ->
  supp_root (c, supported (cty c)) s /\ ready_root (c, ready (cty c)) s.
Proof.
  intros Gd Sf S M Md. unfold safe_root in S. apply andb_true_iff in S as (Sd & So).
  unfold supp_root, ready_root. cbn [fst snd]. cbv zeta. unfold msg_root, msg_add in *. cbn [fst snd] in *.
  destruct s as [v|]; cbn [slot_get].
  - destruct (Gd Sf v M Md) as (Sv & Rv). destruct (cpres c) as [| |d] eqn:P; [auto| |].
    + unfold is_mandatory in So. rewrite P in So. cbn [orb] in So.
      destruct (solid_message _ So v M) as (Cv & _). auto.
    + split; (split; [|auto]); [now apply (default_told c d v)|].
      unfold safe_default in Sd. rewrite P in Sd. apply andb_true_iff in Sd as (F & _). now apply (same_kind_fits (cty c)).
  - destruct (cpres c) as [| |d] eqn:P; [congruence| |].
    + unfold is_mandatory in So. rewrite P in So. cbn [orb] in So. pose proof (solid_fresh _ So) as V.
      unfold present. rewrite V. cbn [andb]. split; discriminate.
    + unfold safe_default in Sd. rewrite P in Sd. apply andb_true_iff in Sd as (F & _).
      split; (split; [|congruence]); [now left|]. pose proof (fits_message _ _ F) as (_ & M2). now apply (same_kind_fits (cty c)).
Qed.

Lemma add_root c : safe_add c = true -> safe_root c = true.
Proof. unfold safe_add, safe_root. intros S. apply andb_true_iff in S as (S & So). now rewrite S, So, orb_true_r. Qed.

Lemma root_slots cs ss : Forall (fun c => good (cty c)) cs -> Forall (fun c => safe (cty c) = true) cs ->
  Forall (fun c => safe_root c = true) cs ->
  all_of (zipw msg_root (att message cs) ss) -> all_of (zipw msg_add (att modest cs) ss) ->
  all_of (zipw supp_root (att supported cs) ss) /\ all_of (zipw ready_root (att ready cs) ss).
Proof.
  rewrite !zipw_all, !Forall_forall. intros Gd Sf S M Md.
  split; intros i c s Ci Si; pose proof (nth_error_In _ _ Ci) as I0;
    now apply (root_slot c s (Gd c I0) (Sf c I0) (S c I0) (M i c s Ci Si) (Md i c s Ci Si)).
Qed.

Lemma add_slot c s : good (cty c) -> safe (cty c) = true -> safe_add c = true ->
  msg_add (c, message (cty c)) s -> mod_add (c, modest (cty c)) s ->
  supp_add (c, supported (cty c)) s /\ ready_add (c, ready (cty c)) s /\ comp_flag c s = has_flag c s.
Proof.
  intros Gd Sf S M Md. destruct (add_present c s S M) as (P & V & W).
  unfold supp_add, ready_add, comp_flag, has_flag. cbn [fst snd]. cbv zeta. rewrite P, V.
  unfold mod_add in Md. cbn [fst snd] in Md. split; [split|split; [|reflexivity]].
  - unfold has. destruct s; auto.
  - intros Hs. destruct (W Hs) as (Mv & Cv). destruct (Md Hs) as (Mdv & Ov). split; [exact Cv|]. split; [|exact Ov].
    now apply Gd.
  - intros Hs. destruct (W Hs) as (Mv & Cv). destruct (Md Hs) as (Mdv & Ov). now apply Gd.
Qed.

Lemma zipw_eq {A B C} (f g : A -> B -> C) l m :
  (forall i a b, nth_error l i = Some a -> nth_error m i = Some b -> f a b = g a b) -> zipw f l m = zipw g l m.
Proof.
  revert m. induction l as [|a l IH]; intros [|b m] E; try reflexivity. cbn [zipw]. f_equal.
  - exact (E 0%nat a b eq_refl eq_refl).
  - apply IH. intros i. exact (E (Datatypes.S i)).
Qed.

Lemma add_slots cs ss : Forall (fun c => good (cty c)) cs -> Forall (fun c => safe (cty c) = true) cs ->
  Forall (fun c => safe_add c = true) cs ->
  all_of (zipw msg_add (att message cs) ss) -> all_of (zipw mod_add (att modest cs) ss) ->
  all_of (zipw supp_add (att supported cs) ss) /\ all_of (zipw ready_add (att ready cs) ss) /\
  zipw comp_flag cs ss = zipw has_flag cs ss.
Proof.
  rewrite !zipw_all, !Forall_forall. intros Gd Sf S M Md.
  split; [|split]; [..|apply zipw_eq]; intros i c s Ci Si; pose proof (nth_error_In _ _ Ci) as I0;
    now apply (add_slot c s (Gd c I0) (Sf c I0) (S c I0) (M i c s Ci Si) (Md i c s Ci Si)).
Qed.

Lemma map_fst_att {A} (h : ty -> A) cs : map fst (att h cs) = cs.
Proof. unfold att. rewrite map_map. apply map_id. Qed.

Lemma group_has g ss : Forall (fun c => safe_add c = true) g -> all_of (zipw msg_add (att message g) ss) ->
  group_valued g ss = any_has g ss.
Proof.
  rewrite zipw_all, Forall_forall. intros S M. unfold group_valued, any_has. f_equal. apply zipw_eq.
  intros i c s Ci Si. apply (add_present c s); [exact (S c (nth_error_In _ _ Ci))|exact (M i c s Ci Si)].
Qed.

Lemma no_gap_full l : Forall (fun x : bool * bool => fst x = true) l -> no_gap l.
Proof. induction 1 as [|(o & p) l X F IH]; cbn [no_gap]; [exact Logic.I|]. cbn [fst] in X. auto. Qed.

Lemma no_gap_empty l : Forall (fun x : bool * bool => snd x = false) l -> no_gap l.
Proof.
  induction 1 as [|(o & p) l X F IH]; cbn [no_gap]; [exact Logic.I|]. split; [|exact IH].
  intros (x & Ix & Ex). rewrite Forall_forall in F. rewrite (F x Ix) in Ex. discriminate.
Qed.

Lemma zipw_in {A B C} (f : A -> B -> C) l m x : In x (zipw f l m) ->
  exists i a b, nth_error l i = Some a /\ nth_error m i = Some b /\ x = f a b.
Proof.
  revert m. induction l as [|a l IH]; intros [|b m] Hx; try contradiction. destruct Hx as [<-|Hx].
  - exists 0%nat, a, b. auto.
  - destruct (IH m Hx) as (i & a' & b' & E1 & E2 & E3). exists (Datatypes.S i), a', b'. auto.
Qed.

Lemma zipw_at {A B C} (f : A -> B -> C) l m i a b :
  nth_error l i = Some a -> nth_error m i = Some b -> In (f a b) (zipw f l m).
Proof.
  revert m i. induction l as [|x l IH]; intros [|y m] [|i] E1 E2; cbn [nth_error] in *; try discriminate.
  - injection E1 as ->. injection E2 as ->. now left.
  - right. exact (IH m i E1 E2).
Qed.

Lemma group_slots g ss : Forall (fun c => good (cty c)) g -> Forall (fun c => safe (cty c) = true) g ->
  Forall (fun c => safe_add c = true) g -> few_optional g = true ->
  msg_group (att message g) ss -> all_of (zipw msg_add (att modest g) ss) ->
  (any_has g ss = true -> open_small (TSeq false g [] []) (VSeq (Some (firstn (List.length g) ss)))) ->
  supp_group (att supported g) ss /\ ready_group (att ready g) ss.
Proof.
  intros Gd Sf S Few (M & MR) Md Op. rewrite map_fst_att in MR.
  pose proof (group_has g ss S M) as GH. unfold supp_group, ready_group. cbv zeta. rewrite !map_fst_att, GH.
  assert (SR : Forall (fun c => safe_root c = true) g).
  { eapply Forall_impl; [|exact S]. intros c. now apply add_root. }
  assert (PP : forall i c s, nth_error g i = Some c -> nth_error ss i = Some s ->
    present (cty c) (slot_get c s) = has c s /\ is_value (cty c) (slot_get c s) = has c s /\
    (has c s = true -> message (cty c) (slot_get c s) /\ contentful (cty c) (slot_get c s))).
  { intros i c s Ci Si. rewrite Forall_forall in S. rewrite zipw_all in M.
    exact (add_present c s (S c (nth_error_In _ _ Ci)) (M i c s Ci Si)). }
  split; split.
  - intros p Ip. apply zipw_in in Ip as (i & c & s & Ci & Si & ->). destruct (PP i c s Ci Si) as (P & _).
    rewrite P. unfold has. destruct s; auto.
  - intros AH. destruct (root_slots g ss Gd Sf SR (MR AH) Md) as (Su & _). split; [exact Su|]. split; [|exact (Op AH)].
    intros p Ip. apply zipw_in in Ip as (i & c & s & Ci & Si & ->). destruct (PP i c s Ci Si) as (P & _ & W).
    rewrite P. intros Hs. exact (proj2 (W Hs)).
  - destruct (any_has g ss) eqn:AH.
    + apply no_gap_full, Forall_forall. intros x Ix. apply zipw_in in Ix as (i & c & s & Ci & Si & ->).
      destruct (PP i c s Ci Si) as (P & _). unfold comp_flag. cbn [fst]. rewrite P.
      specialize (MR eq_refl). rewrite zipw_all in MR. specialize (MR i c s Ci Si). unfold msg_root in MR. cbn [fst snd] in MR.
      unfold is_optional, has, is_defaulted. destruct s; [apply orb_true_r|]. destruct (cpres c); auto; congruence.
    + apply no_gap_empty, Forall_forall. intros x Ix. apply zipw_in in Ix as (i & c & s & Ci & Si & ->).
      destruct (PP i c s Ci Si) as (_ & V & _). unfold comp_flag. cbn [snd]. rewrite V.
      destruct (has c s) eqn:Hs; [|reflexivity]. exfalso. unfold any_has in AH.
      assert (E : existsb (fun b : bool => b) (zipw has g ss) = true); [|congruence]. apply existsb_exists. exists true.
      split; [|reflexivity]. rewrite <- Hs. exact (zipw_at has g ss i c s Ci Si).
  - intros AH. unfold few_optional in Few. split; [lia|].
    exact (proj2 (root_slots g ss Gd Sf SR (MR AH) Md)).
Qed.

Lemma groups_slots gs : forall ss, Forall (Forall (fun c => good (cty c))) gs ->
  Forall (Forall (fun c => safe (cty c) = true)) gs -> Forall (Forall (fun c => safe_add c = true)) gs ->
  Forall (fun g => few_optional g = true) gs -> msg_groups (map (att message) gs) ss ->
  mod_groups (map (att modest) gs) ss ->
  supp_groups (map (att supported) gs) ss /\ ready_groups (map (att ready) gs) ss /\ group_flags gs ss = has_flags gs ss.
Proof.
  induction gs as [|g gs IH]; intros ss Gd Sf S Few M Md; [cbn; auto|].
  inversion Gd; inversion Sf; inversion S; inversion Few; subst.
  cbn [map msg_groups mod_groups supp_groups ready_groups group_flags has_flags] in *.
  rewrite !att_length in *. rewrite !map_fst_att in *. destruct M as (M1 & M2). destruct Md as (Md1 & Op & Md2).
  destruct (IH (skipn (List.length g) ss)) as (S2 & R2 & F2); auto.
  destruct (group_slots g ss) as (S1 & R1); auto. split; [auto|]. split; [auto|].
  rewrite F2. destruct M1 as (M1 & _). rewrite (group_has g ss) by assumption. reflexivity.
Qed.

Lemma distinct_nodup l : distinct l = true -> NoDup l.
Proof.
  induction l as [|x l IH]; cbn [distinct]; [constructor|]. intros E. apply andb_true_iff in E as (E1 & E2).
  constructor; [|auto]. intros I0. apply negb_true_iff in E1.
  assert (E : existsb (String.eqb x) l = true); [|congruence]. apply existsb_exists. exists x.
  split; [exact I0|apply String.eqb_refl].
Qed.

Lemma closed_none {A B} ext (a : list A) (g : list B) : closed ext a g = true -> ext = false -> a = [] /\ g = [].
Proof. unfold closed. intros C ->. destruct a, g; try discriminate. auto. Qed.

Lemma forallb_Forall {A} (p : A -> bool) l : forallb p l = true -> Forall (fun x => p x = true) l.
Proof. rewrite forallb_forall, Forall_forall. auto. Qed.

Lemma forallb_Forall2 {A} (p : A -> bool) l : forallb (forallb p) l = true -> Forall (Forall (fun x => p x = true)) l.
Proof.
  intros E. apply forallb_Forall in E. eapply Forall_impl; [|exact E]. intros x. apply forallb_Forall.
Qed.

(** What the rule for OCTET STRINGs has to promise. *)
Definition octets_good : Prop := forall c bs, rule c = true -> sat c (zlen bs) -> Forall (fun b => 0 <= b < 256) bs ->
  asked c bs -> ok c bs /\ bounded_ext c /\ fixed_small c.

Theorem safe_good t : octets_good -> good t.
Proof.
  intros OG.
  induction t using ty_rect'; intros Sf v M Md.
  - destruct v; try contradiction. split; exact Logic.I.
  - destruct v; try contradiction. now apply int_safe.
  - destruct v; try contradiction. split; [now apply enum_safe|exact Logic.I].
  - destruct v; try contradiction. now apply bits_safe.
  - destruct v; try contradiction. destruct M as (M & O). now apply OG.
  - cbn [safe_by] in Sf. repeat (apply andb_true_iff in Sf as (Sf & ?)).
    repeat match goal with X : _ && _ = true |- _ => apply andb_true_iff in X as (X & ?) end.
    destruct v as [| | | | | |slots| |]; try contradiction. cbn [message modest_by] in M, Md. cbv zeta in M, Md.
    destruct M as (L & M1 & M2 & M3 & N1 & N2). destruct Md as (Md1 & Md2 & Md3).
    set (ss := slots_list (ncomps r a g) slots) in *. cbn [supported_by ready]. cbv zeta. fold ss.
    repeat match goal with X : forallb (forallb _) _ = true |- _ => apply forallb_Forall2 in X end.
    repeat match goal with X : forallb _ _ = true |- _ => apply forallb_Forall in X end.
    destruct (root_slots r ss) as (S1 & R1); auto.
    destruct (add_slots a (skipn (List.length r) ss)) as (S2 & R2 & F2); auto.
    destruct (groups_slots g (skipn (List.length r + List.length a) ss)) as (S3 & R3 & F3); auto.
    { eapply Forall_impl; [|match goal with X : Forall (fun x => (1 <=? zlen x) && _ = true) g |- _ => exact X end].
      intros x X. cbv beta in X. now apply andb_true_iff in X as (_ & X). }
    rewrite F2, F3. split.
    + split; [now apply distinct_nodup|]. split; [exact L|]. split; [|auto]. now apply closed_none.
    + unfold few_optional in *. split; [lia|]. split; [lia|]. split; [|auto 10].
      eapply Forall_impl; [|match goal with X : Forall (fun x => (1 <=? zlen x) && _ = true) g |- _ => exact X end].
      intros x X. cbv beta in X. apply andb_true_iff in X as (X & _). intros ->. discriminate.
  - cbn [safe_by] in Sf. apply andb_true_iff in Sf as (Sc & Sf). destruct v as [| | | | | | |vs|]; try contradiction.
    cbn [message modest_by] in M, Md. destruct M as (A & M). destruct Md as (Sh & Md). rewrite all_of_forall in M, Md.
    destruct (count_safe c (zlen vs) Sc) as (Co & Bo); auto; [unfold zlen; lia|].
    rewrite Forall_forall in M, Md. cbn [supported_by ready]. split; (split; [assumption|]); apply all_of_forall, Forall_forall;
      intros v I0; now apply (IHt Sf v (M v I0) (Md v I0)).
  - cbn [safe_by] in Sf. apply andb_true_iff in Sf as (Sf & S3). apply three_all in S3. pose proof (all_three _ r a g H H0 H1) as HA.
    repeat (apply andb_true_iff in Sf as (Sf & ?)).
    cbn [message modest_by] in M, Md. destruct v as [| | | | | | | |[(i & w)|]]; try contradiction. rewrite all_att in M, Md.
    destruct (nth_error (all_comps r a g) i) as [c|] eqn:Ci.
    2:{ unfold att in M. rewrite nth_error_map, Ci in M. contradiction. }
    rewrite (att_nth message _ i c Ci) in M. rewrite (att_nth modest _ i c Ci) in Md. cbn [fst snd] in M, Md.
    destruct Md as (Md & Op). rewrite Forall_forall in S3, HA. pose proof (nth_error_In _ _ Ci) as Ic.
    destruct (HA c Ic (S3 c Ic) w M Md) as (Sw & Rw).
    assert (Bi : (i < List.length (all_comps r a g))%nat) by (apply nth_error_Some; congruence).
    assert (U : ufits 16383 (zlen (all_comps r a g))) by (apply below_ufits; [unfold zlen; lia|lia|assumption]).
    cbn [supported_by ready]. rewrite !all_att, (att_nth supported _ i c Ci), (att_nth ready _ i c Ci). cbn [fst snd].
    split; [|exact Rw]. split; [now apply distinct_nodup|]. split; [now apply closed_none|]. split.
    + clear - U. unfold ufits in *. destruct U as (U0 & U). split; [exact U0|]. eapply Z.lt_le_trans; [exact U|].
      clear. apply Z.pow_le_mono_r; lia.
    + split; [exact Sw|]. intros Li. split; [|auto]. eapply ufits_le; [|exact U]. clear - Bi. unfold zlen. lia.
Qed.

Lemma safe_top t : safe t = true -> forall v, message t v -> empty_inside v = false.
Proof using rule.
  clear asked ok. induction t using ty_rect'; intros Sf v M; try (destruct v; try contradiction; reflexivity).
  - destruct v; try contradiction. cbn [safe_by message] in Sf, M. unfold safe_bits in Sf.
    apply andb_true_iff in Sf as (Sf & Z0). apply andb_true_iff in Sf as (Rg & X). apply negb_true_iff in X.
    destruct (sat_ends c _ Rg M X) as (_ & A & _). destruct (clo c) as [l|]; [|discriminate]. specialize (A l eq_refl).
    destruct s; [|reflexivity]. unfold zlen in A. cbn in A. destruct (chi c); lia.
  - cbn [safe_by] in Sf. apply andb_true_iff in Sf as (_ & S3). apply three_all in S3. pose proof (all_three _ r a g H H0 H1) as HA.
    cbn [message] in M. destruct v as [| | | | | | | |[(i & w)|]]; try contradiction. rewrite all_att in M.
    destruct (nth_error (att message (all_comps r a g)) i) as [ca|] eqn:Ci; [|contradiction].
    apply nth_att in Ci as (c & Ci & ->). cbn [snd] in M. rewrite Forall_forall in S3, HA.
    pose proof (nth_error_In _ _ Ci) as Ic. exact (HA c Ic (S3 c Ic) w M).
Qed.

End Check.

Notation safe := (safe_by safe_octs).
Notation modest := (modest_by plain_size).

(** * No message is lost *)

Theorem C68_safe : forall t v, safe t = true -> message t v -> modest t v -> survives_reading t v.
Proof.
  intros t v Sf M Md. destruct (safe_good t octs_safe Sf v M Md) as (Su & Re). apply C08_message_partial; [exact Su|exact Re|].
  unfold top_ok. destruct t; try exact Logic.I. exact (safe_top _ Sf v M).
Qed.

(** * Schemas of which all messages are modest *)

Definition below_16k (o : option Z) : bool := match o with Some n => n <? 16384 | None => false end.

Definition ranged (c : constr) : bool :=
  negb (cext c) && match clo c, chi c with Some _, Some _ => true | _, _ => false end.

Definition sized_below (c : constr) : bool :=
  negb (cext c) && match clo c, chi c with Some _, Some h => h <? 65536 | _, _ => false end.

(** Ranges and SIZEs everywhere, and additions whose longest encoding is shorter
    than 16K. *)
Fixpoint limited (t : ty) : bool :=
  match t with
  | TBool | TEnum _ _ _ => true
  | TInt c => ranged c
  | TBits c | TOcts c => sized_below c
  | TSeqOf c t' => sized_below c && limited t'
  | TSeq _ root adds groups =>
      forallb (fun c => below_16k (longest_message (cty c))) adds &&
      forallb (fun g => below_16k (longest_message (TSeq false g [] []))) groups &&
      (forallb (fun c => limited (cty c)) root && forallb (fun c => limited (cty c)) adds &&
       forallb (forallb (fun c => limited (cty c))) groups)
  | TChoice _ root adds groups =>
      forallb (fun c => below_16k (longest_message (cty c))) (adds ++ List.concat groups) &&
      (forallb (fun c => limited (cty c)) root && forallb (fun c => limited (cty c)) adds &&
       forallb (forallb (fun c => limited (cty c))) groups)
  end.

Lemma simple_made t v : is_simple t = true -> message t v -> made t v.
Proof.
  destruct t; try discriminate; intros _ M; destruct v; try contradiction; cbn [message] in M; constructor; tauto.
Qed.

Lemma default_safe_made c : safe_default c = true -> default_made c.
Proof.
  unfold safe_default, default_made. destruct (cpres c); auto. intros S. apply andb_true_iff in S as (F & _).
  apply fits_message in F as (S1 & M). now apply simple_made.
Qed.

Lemma nonempty {A} (l : list A) : (1 <=? zlen l) = true -> l <> [].
Proof. intros E ->. discriminate. Qed.

(** What the rule for OCTET STRINGs has to promise for this. *)
Definition octets_sane (o : constr -> bool) : Prop := forall c, o c = true ->
  regularb c = true /\ forall l h, clo c = Some l -> chi c = Some h -> 0 <= l <= h.

Lemma octs_sane : octets_sane safe_octs.
Proof.
  unfold safe_octs. intros c Sf. apply andb_true_iff in Sf as (Rg & S). split; [exact Rg|].
  intros l h L U. rewrite L, U in S. lia.
Qed.

Section Limits.
Context {rule : constr -> bool} (OS : octets_sane rule).
Local Notation safe := (safe_by rule).

Lemma safe_sane t : safe t = true -> sane t.
Proof.
  induction t using ty_rect'; intros Sf; cbn [safe_by sane] in *.
  - exact Logic.I.
  - unfold safe_int in Sf. apply andb_true_iff in Sf as (Rg & S). split; [now apply regular_check|].
    intros l h L U. rewrite L, U in S. lia.
  - unfold safe_enum in Sf. repeat (apply andb_true_iff in Sf as (Sf & ?)). split; [now apply nonempty|].
    apply list_eqb_eq in Sf. rewrite Sf. apply Forall_forall. intros z I0. apply in_map_iff in I0 as (n & <- & _). lia.
  - unfold safe_bits in Sf. apply andb_true_iff in Sf as (Sf & S). apply andb_true_iff in Sf as (Rg & _).
    split; [now apply regular_check|]. intros l h L U. rewrite L, U in S. lia.
  - destruct (OS c Sf) as (Rg & S). split; [now apply regular_check|]. intros l h L U. specialize (S l h L U). lia.
  - apply andb_true_iff in Sf as (Sf & S3). apply three_all in S3. pose proof (all_three _ r a g H H0 H1) as HA.
    assert (SN : Forall (fun c => sane (cty c)) (all_comps r a g)).
    { rewrite Forall_forall in *. intros c I0. auto. }
    repeat (apply andb_true_iff in Sf as (Sf & ?)).
    repeat match goal with X : forallb (forallb _) _ = true |- _ => apply forallb_Forall2 in X end.
    repeat match goal with X : forallb _ _ = true |- _ => apply forallb_Forall in X end.
    assert (DM : Forall default_made (all_comps r a g)).
    { apply all_three.
      - eapply Forall_impl; [|eassumption]. intros c S. unfold safe_root in S. apply andb_true_iff in S as (S & _).
        now apply default_safe_made.
      - eapply Forall_impl; [|match goal with X : Forall (fun c => safe_add c = true) a |- _ => exact X end].
        intros c S. unfold safe_add in S. apply andb_true_iff in S as (S & _). now apply default_safe_made.
      - eapply Forall_impl; [|match goal with X : Forall (Forall (fun c => safe_add c = true)) g |- _ => exact X end].
        intros x Sx. eapply Forall_impl; [|exact Sx].
        intros c S. unfold safe_add in S. apply andb_true_iff in S as (S & _). now apply default_safe_made. }
    split; [now apply distinct_nodup|]. split.
    { eapply Forall_impl; [|match goal with X : Forall (fun x => (1 <=? zlen x) && _ = true) g |- _ => exact X end].
      intros x X. cbv beta in X. apply andb_true_iff in X as (X & _). now apply nonempty. }
    split; [exact DM|]. unfold all_comps in SN. rewrite !Forall_app in SN. destruct SN as (N1 & N2 & N3).
    rewrite !all_of_forall, all_of_groups. auto.
  - apply andb_true_iff in Sf as (Sc & Sf). split; [|auto]. unfold safe_count in Sc. intros l h L U. rewrite L, U in Sc. lia.
  - apply andb_true_iff in Sf as (Sf & S3). apply three_all in S3. pose proof (all_three _ r a g H H0 H1) as HA.
    assert (SN : Forall (fun c => sane (cty c)) (all_comps r a g)).
    { rewrite Forall_forall in *. intros c I0. auto. }
    repeat (apply andb_true_iff in Sf as (Sf & ?)). split; [now apply nonempty|].
    split; [now apply distinct_nodup|]. unfold all_comps in SN. rewrite !Forall_app in SN. destruct SN as (N1 & N2 & N3).
    rewrite !all_of_forall, all_of_groups. auto.
Qed.

(** What is set in a message is a message. *)
Lemma root_add_msg cs ss : all_of (zipw msg_root (att message cs) ss) -> all_of (zipw msg_add (att message cs) ss).
Proof.
  rewrite !zipw_all. intros M i c s Ci Si. specialize (M i c s Ci Si). unfold msg_root, msg_add in *. cbn [fst snd] in *.
  destruct s; auto.
Qed.

Lemma nth_skip {A} (l : list A) n i : nth_error (skipn n l) i = nth_error l (n + i).
Proof. revert l. induction n as [|n IH]; intros [|x l]; cbn [skipn Nat.add nth_error]; auto. now destruct i. Qed.

Lemma zip_join (cs ds : list (comp ty)) ss : all_of (zipw msg_add (att message cs) ss) ->
  all_of (zipw msg_add (att message ds) (skipn (List.length cs) ss)) ->
  all_of (zipw msg_add (att message (cs ++ ds)) ss).
Proof.
  rewrite !zipw_all. intros M N i c s Ci Si. destruct (Nat.lt_ge_cases i (List.length cs)) as [B|B].
  - rewrite nth_error_app1 in Ci by lia. eauto.
  - rewrite nth_error_app2 in Ci by lia. apply (N (i - List.length cs)%nat); [exact Ci|].
    rewrite nth_skip. now replace (List.length cs + (i - List.length cs))%nat with i by lia.
Qed.

Lemma groups_join gs : forall ss, msg_groups (map (att message) gs) ss ->
  all_of (zipw msg_add (att message (List.concat gs)) ss).
Proof.
  induction gs as [|g gs IH]; intros ss M; cbn [List.concat]; [cbn; apply all_of_nil|].
  cbn [map msg_groups] in M. rewrite att_length in M. destruct M as ((M & _) & N). apply zip_join; auto.
Qed.

Lemma skip_skip {A} (l : list A) n m : skipn n (skipn m l) = skipn (m + n) l.
Proof. revert l. induction m as [|m IH]; intros l; [reflexivity|]. destruct l; [now rewrite !skipn_nil|]. apply IH. Qed.

Lemma seq_slots e r a g slots i c v : message (TSeq e r a g) (VSeq slots) ->
  nth_error (all_comps r a g) i = Some c -> nth_error (slots_list (ncomps r a g) slots) i = Some (Some v) ->
  message (cty c) v.
Proof.
  cbn [message]. cbv zeta. set (ss := slots_list (ncomps r a g) slots). intros (L & M1 & M2 & M3 & _) Ci Si.
  assert (J : all_of (zipw msg_add (att message (all_comps r a g)) ss)).
  { unfold all_comps. apply zip_join; [now apply root_add_msg|]. apply zip_join; [exact M2|].
    rewrite skip_skip. now apply groups_join. }
  rewrite zipw_all in J. exact (J i c (Some v) Ci Si).
Qed.

Lemma message_made t : forall v, message t v -> made t v.
Proof.
  induction t using ty_rect'; intros v M; try (apply simple_made; [reflexivity|exact M]).
  - pose proof (all_three _ r a g H H0 H1) as HA. rewrite Forall_forall in HA.
    destruct v as [| | | | | |[l|]| |]; try contradiction; [|constructor]. constructor.
    + cbn [message] in M. cbv zeta in M. destruct M as (L & _). exact L.
    + intros i c w Ci Si. exact (HA c (nth_error_In _ _ Ci) w (seq_slots e r a g (Some l) i c w M Ci Si)).
  - destruct v as [| | | | | | |vs|]; try contradiction. cbn [message] in M. destruct M as (_ & M).
    rewrite all_of_forall, Forall_forall in M. constructor. auto.
  - pose proof (all_three _ r a g H H0 H1) as HA. rewrite Forall_forall in HA. cbn [message] in M.
    destruct v as [| | | | | | | |[(i & w)|]]; try contradiction. rewrite all_att in M.
    destruct (nth_error (att message (all_comps r a g)) i) as [ca|] eqn:Ci; [|contradiction].
    apply nth_att in Ci as (c & Ci & ->). cbn [snd] in M. econstructor; [exact Ci|].
    exact (HA c (nth_error_In _ _ Ci) w M).
Qed.

Lemma below_small t v : safe t = true -> message t v -> below_16k (longest_message t) = true -> open_small t v.
Proof.
  intros Sf M B bs E. destruct (longest_message t) as [n|] eqn:Ln; [|discriminate]. cbn [below_16k] in B.
  pose proof (C67_longest t v bs n (safe_sane t Sf) (message_made t v M) Ln E). lia.
Qed.

Lemma ranged_inside c z : regularb c = true -> ranged c = true -> sat c z -> inside c z = true.
Proof.
  unfold ranged. intros Rg R0 S. apply andb_true_iff in R0 as (X & R0). apply negb_true_iff in X.
  destruct (sat_ends c z Rg S X) as (_ & A & B). unfold inside. destruct (clo c) as [l|]; [|discriminate].
  destruct (chi c) as [h|]; [|discriminate]. specialize (A l eq_refl). specialize (B h eq_refl). lia.
Qed.

Lemma sized_short c n : (cext c = false -> (forall l, clo c = Some l -> l <= n) /\ (forall h, chi c = Some h -> n <= h)) ->
  sized_below c = true -> short c n.
Proof.
  unfold sized_below. intros A R0. apply andb_true_iff in R0 as (X & R0). apply negb_true_iff in X.
  destruct (A X) as (A1 & B1). right. unfold inside. destruct (clo c) as [l|]; [|discriminate].
  destruct (chi c) as [h|]; [|discriminate]. specialize (A1 l eq_refl). specialize (B1 h eq_refl). split; [lia|].
  intros h' E. injection E as <-. lia.
Qed.

(** A group of a safe SEQUENCE, on its own. *)
Lemma group_sane g : NoDup (map cname g) -> Forall (fun c => safe (cty c) = true) g ->
  Forall (fun c => safe_add c = true) g -> sane (TSeq false g [] []).
Proof.
  intros N Sf S. cbn [sane]. cbn [app List.concat map]. rewrite app_nil_r. split; [exact N|]. split; [constructor|]. split.
  - eapply Forall_impl; [|exact S]. intros c X. unfold safe_add in X. apply andb_true_iff in X as (X & _).
    now apply default_safe_made.
  - split; [|split; apply all_of_nil]. apply all_of_forall. eapply Forall_impl; [|exact Sf]. intros c. apply safe_sane.
Qed.

Lemma nth_firstn {A} (l : list A) n i : (i < n)%nat -> nth_error (firstn n l) i = nth_error l i.
Proof.
  revert l i. induction n as [|n IH]; intros l i B; [lia|]. destruct l as [|x l], i as [|i]; cbn [firstn nth_error]; auto.
  apply IH. lia.
Qed.

Lemma group_made g ss : all_of (zipw msg_add (att message g) ss) -> (List.length g <= List.length ss)%nat ->
  made (TSeq false g [] []) (VSeq (Some (firstn (List.length g) ss))).
Proof.
  intros M L. constructor; cbn [app List.concat]; rewrite app_nil_r.
  - rewrite firstn_length. lia.
  - intros i c v Ci Si. apply message_made. rewrite zipw_all in M. apply (M i c (Some v) Ci).
    rewrite <- Si. symmetry. apply nth_firstn. apply nth_error_Some. congruence.
Qed.

Lemma nodup_parts {A} (l m : list A) : NoDup (l ++ m) -> NoDup l /\ NoDup m.
Proof.
  induction l as [|x l IH]; intros N; [split; [constructor|exact N]|]. inversion N; subst.
  destruct (IH H2) as (N1 & N2). split; [|exact N2]. constructor; [|exact N1]. intros I0. apply H1, in_or_app. now left.
Qed.

Definition calm (t : ty) : Prop := safe t = true -> limited t = true -> forall v, message t v -> modest t v.

Lemma calm_slots cs ss : Forall (fun c => calm (cty c)) cs -> Forall (fun c => safe (cty c) = true) cs ->
  Forall (fun c => limited (cty c) = true) cs ->
  all_of (zipw msg_add (att message cs) ss) -> all_of (zipw msg_add (att modest cs) ss).
Proof.
  rewrite !zipw_all, !Forall_forall. intros Ca Sf Li M i c s Ci Si. specialize (M i c s Ci Si).
  pose proof (nth_error_In _ _ Ci) as I0. unfold msg_add in *. cbn [snd] in *. destruct s as [v|]; [|exact Logic.I].
  exact (Ca c I0 (Sf c I0) (Li c I0) v M).
Qed.

Lemma calm_groups gs : forall ss, Forall (Forall (fun c => calm (cty c))) gs ->
  Forall (Forall (fun c => safe (cty c) = true)) gs -> Forall (Forall (fun c => limited (cty c) = true)) gs ->
  Forall (Forall (fun c => safe_add c = true)) gs -> NoDup (map cname (List.concat gs)) ->
  Forall (fun g => below_16k (longest_message (TSeq false g [] [])) = true) gs ->
  List.length ss = List.length (List.concat gs) -> msg_groups (map (att message) gs) ss ->
  mod_groups (map (att modest) gs) ss.
Proof.
  induction gs as [|g gs IH]; intros ss Ca Sf Li S N B L M; [exact Logic.I|].
  inversion Ca; inversion Sf; inversion Li; inversion S; inversion B; subst.
  cbn [map msg_groups mod_groups List.concat] in *. rewrite !att_length in *. rewrite !map_fst_att in *.
  destruct M as ((M1 & _) & M2). rewrite map_app in N. apply nodup_parts in N as (N1 & N2). rewrite app_length in L.
  split; [now apply calm_slots|]. split.
  - intros _ bs E. destruct (longest_message (TSeq false g [] [])) as [n|] eqn:Ln; [|discriminate].
    assert (Q : zlen bs <= n).
    { apply (C67_longest (TSeq false g [] []) (VSeq (Some (firstn (List.length g) ss)))); auto.
      - now apply group_sane.
      - apply group_made; [exact M1|lia]. }
    match goal with X : below_16k (Some n) = true |- _ => cbn [below_16k] in X end. lia.
  - apply IH; auto. rewrite skipn_length. lia.
Qed.

Theorem limited_calm t : calm t.
Proof.
  induction t using ty_rect'; intros Sf Li v M.
  - destruct v; exact Logic.I.
  - destruct v; try contradiction. cbn [message safe_by limited modest_by] in *. left. unfold safe_int in Sf.
    apply andb_true_iff in Sf as (Rg & _). now apply ranged_inside.
  - destruct v; exact Logic.I.
  - destruct v; try contradiction. cbn [message safe_by limited modest_by] in *. unfold safe_bits in Sf.
    apply andb_true_iff in Sf as (Sf & _). apply andb_true_iff in Sf as (Rg & _). apply sized_short; [|exact Li].
    intros X. now apply sat_ends.
  - destruct v; try contradiction. cbn [message safe_by limited modest_by] in *. destruct M as (M & _).
    destruct (OS c Sf) as (Rg & _). apply sized_short; [|exact Li]. intros X. now apply sat_ends.
  - cbn [safe_by] in Sf. repeat (apply andb_true_iff in Sf as (Sf & ?)).
    cbn [limited] in Li. repeat (apply andb_true_iff in Li as (Li & ?)).
    repeat match goal with X : _ && _ = true |- _ => apply andb_true_iff in X as (X & ?) end.
    destruct v as [| | | | | |slots| |]; try contradiction. cbn [message modest_by] in M |- *. cbv zeta in M |- *.
    destruct M as (L & M1 & M2 & M3 & _). set (ss := slots_list (ncomps r a g) slots) in *.
    repeat match goal with X : forallb (forallb _) _ = true |- _ => apply forallb_Forall2 in X end.
    repeat match goal with X : forallb _ _ = true |- _ => apply forallb_Forall in X end.
    assert (N : NoDup (map cname (all_comps r a g))) by now apply distinct_nodup.
    split; [apply calm_slots; auto; now apply root_add_msg|]. split.
    + rewrite zipw_all in M2 |- *. intros i c s Ci Si. specialize (M2 i c s Ci Si). pose proof (nth_error_In _ _ Ci) as I0.
      repeat match goal with X : Forall _ a |- _ => rewrite Forall_forall in X; specialize (X c I0) end.
      destruct (add_present c s) as (_ & _ & W); auto. unfold mod_add. cbn [fst snd]. intros Hs.
      destruct (W Hs) as (Mv & _). split; [auto|]. now apply below_small.
    + apply calm_groups; auto.
      * unfold all_comps in N. rewrite !map_app in N. now apply nodup_parts in N as (_ & N%nodup_parts).
      * rewrite skipn_length, L. unfold ncomps, all_comps. rewrite !app_length. lia.
  - cbn [safe_by limited] in *. apply andb_true_iff in Sf as (Sc & Sf). apply andb_true_iff in Li as (Lc & Li).
    destruct v as [| | | | | | |vs|]; try contradiction. cbn [message modest_by] in M |- *. destruct M as (A & M).
    rewrite all_of_forall in M |- *. split.
    + apply sized_short; [|exact Lc]. intros X. destruct A as [A|A]; [congruence|exact A].
    + eapply Forall_impl; [|exact M]. intros v Mv. now apply IHt.
  - cbn [safe_by limited] in *. apply andb_true_iff in Sf as (_ & S3). apply andb_true_iff in Li as (Lo & Li).
    apply three_all in S3. apply three_all in Li. pose proof (all_three _ r a g H H0 H1) as HA.
    cbn [message modest_by] in M |- *. destruct v as [| | | | | | | |[(i & w)|]]; try contradiction. rewrite all_att in M |- *.
    destruct (nth_error (att message (all_comps r a g)) i) as [ca|] eqn:Ci; [|contradiction].
    apply nth_att in Ci as (c & Ci & ->). cbn [snd] in M. rewrite (att_nth modest _ i c Ci). cbn [fst snd].
    rewrite Forall_forall in S3, Li, HA. pose proof (nth_error_In _ _ Ci) as Ic. split; [exact (HA c Ic (S3 c Ic) (Li c Ic) w M)|].
    intros Ge. apply below_small; auto. apply forallb_Forall in Lo. rewrite Forall_forall in Lo. apply Lo.
    unfold all_comps in Ci. rewrite nth_error_app2 in Ci by lia. exact (nth_error_In _ _ Ci).
Qed.

End Limits.

(** With ranges and sizes everywhere the schema alone tells. *)
Theorem C68_limited : forall t v, safe t = true -> limited t = true -> message t v -> survives_reading t v.
Proof. intros t v Sf Li M. apply C68_safe; auto. now apply (limited_calm octs_sane). Qed.

(** * The check is not too strict *)

(** On simple types and lists of BOOLEANs with reasonable end points every schema
    that fails the check loses a message. *)

Lemma simple_back t v : is_simple t = true -> message t v -> survives_reading t v -> survives t v.
Proof.
  intros T M (bs & v' & E & Dd & Rd). exists bs. split; [exact E|]. rewrite Dd. f_equal.
  destruct t; try discriminate T; destruct v; try contradiction; destruct v'; cbn [reading] in Rd; congruence.
Qed.

Definition no_message_lost (t : ty) : Prop := forall v, message t v -> modest t v -> survives_reading t v.

Theorem C68_integer_exact : forall e lo hi,
  (forall l, lo = Some l -> Z.abs l < 2 ^ 2039) -> (forall h, hi = Some h -> Z.abs h < 2 ^ 2039) ->
  (forall l h, lo = Some l -> hi = Some h -> l <= h) ->
  let t := TInt (CRange e lo hi) in safe t = true <-> no_message_lost t.
Proof.
  intros e lo hi BL BH Or t. split; [intros Sf v; now apply C68_safe|]. intros N.
  set (c := CRange e lo hi) in *. assert (P : 0 < 2 ^ 2039) by reflexivity.
  assert (Rg : regularb c = true) by (unfold regularb, c; cbn [cext unmarked]; now destruct e).
  assert (X : forall z, sat c z -> inside c z = true \/ sfits 255 z -> int_exact c z).
  { intros z S Md. apply C01_exact; [now apply regular_check|now apply ctest_sat|].
    apply simple_back; [reflexivity|exact S|]. apply N; [exact S|exact Md]. }
  unfold t. cbn [safe_by]. unfold safe_int. rewrite Rg. cbn [andb]. unfold int_exact in X. cbn [c clo chi cext] in *.
  destruct lo as [l|].
  - specialize (BL l eq_refl). destruct hi as [h|].
    + specialize (Or l h eq_refl eq_refl).
      assert (S : sat c l).
      { unfold c. cbn [sat]. right. split; intros ? E; injection E as <-; lia. }
      assert (I0 : inside c l = true) by (unfold inside, c; cbn [clo chi]; lia).
      specialize (X l S (or_introl I0)).
      assert (U : ufits 65536 (h - l) /\ (e = true -> l = h -> l = 0)).
      { destruct e; [|split; [exact X|discriminate]]. destruct X as [(_ & X & Y)|(X & _)]; [auto|]. clear - X Or. lia. }
      clear X. destruct U as (U & Y). assert (Bb : bits_below (8 * 65536) (h - l) = true).
      { unfold bits_below. apply Z.ltb_lt. clear - U Or. unfold ufits in U. destruct U as (_ & U).
        destruct (Z.eq_dec (h - l) 0) as [->|]; [reflexivity|]. apply Z.log2_lt_pow2; [|exact U].
        clear U. lia. }
      rewrite Bb. clear U Bb BL BH P. rewrite andb_true_r. destruct e; cbn [negb orb]; [|lia].
      specialize (Y eq_refl). lia.
    + destruct e; cbn [negb andb].
      * exfalso. assert (Q : l < l /\ sfits 255 l); [|lia]. apply X; [left; reflexivity|]. right.
        unfold sfits. change (8 * 255 - 1) with 2039. set (q := 2 ^ 2039) in *. clearbody q. lia.
      * unfold bits_below. apply Z.ltb_lt. destruct (Z.eq_dec l 0) as [->|]; [reflexivity|]. apply Z.log2_lt_pow2; [|exact BL].
        clear - n. lia.
  - destruct e; [|reflexivity]. exfalso. apply (X 0); [left; reflexivity|]. right. unfold sfits.
    change (8 * 255 - 1) with 2039. set (q := 2 ^ 2039) in *. clearbody q. lia.
Qed.

(** SIZEs below the limits, not SIZE(0). *)
Definition usual (lo hi : option Z) : Prop :=
  (forall l, lo = Some l -> 0 <= l < 16384) /\ (forall h, hi = Some h -> 1 <= h < 65536) /\
  (forall l h, lo = Some l -> hi = Some h -> l <= h).

Lemma range_regular e lo hi : regularb (CRange e lo hi) = true.
Proof. unfold regularb. cbn [cext unmarked]. now destruct e. Qed.

Lemma usual_sizes e lo hi : usual lo hi -> sizes (CRange e lo hi).
Proof. intros (A & _) l E. cbn [clo] in E. specialize (A l E). lia. Qed.

Lemma zlen_repeat {A} (x : A) n : 0 <= n -> zlen (repeat x (Z.to_nat n)) = n.
Proof. intros N. unfold zlen. rewrite repeat_length. lia. Qed.

Theorem C68_bits_exact : forall e lo hi, usual lo hi ->
  let t := TBits (CRange e lo hi) in safe t = true <-> no_message_lost t.
Proof.
  intros e lo hi Us t. split; [intros Sf v; now apply C68_safe|]. intros N. set (c := CRange e lo hi) in *.
  assert (X : forall s, sat c (zlen s) -> short c (zlen s) -> bits_exact c s).
  { intros s S Md. apply C03_exact; [apply regular_check, range_regular|now apply usual_sizes|now apply ctest_sat|].
    apply simple_back; [reflexivity|exact S|]. apply N; [exact S|exact Md]. }
  unfold t. cbn [safe_by]. unfold safe_bits. rewrite (range_regular e lo hi : regularb c = true). cbn [c cext clo chi andb].
  destruct Us as (A & B & Or).
  assert (E0 : sat c 0 -> False).
  { intros S. destruct (X [] S) as (_ & Y); [left; unfold zlen; cbn; lia|]. cbn [c chi] in Y. specialize (B 0 Y). lia. }
  destruct e; [exfalso; apply E0; now left|]. cbn [negb andb].
  assert (L1 : exists l, lo = Some l /\ 1 <= l).
  { destruct lo as [l|].
    - exists l. split; [reflexivity|]. specialize (A l eq_refl). destruct (Z.le_gt_cases 1 l) as [|C]; [assumption|]. exfalso.
      apply E0. right. split; intros ? E; [injection E as <-; lia|]. specialize (B _ E). lia.
    - exfalso. apply E0. right. split; intros ? E; [discriminate|]. specialize (B _ E). lia. }
  destruct L1 as (l & -> & L1). destruct hi as [h|]; [|lia]. specialize (B h eq_refl). specialize (Or l h eq_refl eq_refl). lia.
Qed.

Theorem C68_octets_exact : forall e lo hi, usual lo hi ->
  let t := TOcts (CRange e lo hi) in safe t = true <-> no_message_lost t.
Proof.
  intros e lo hi Us t. split; [intros Sf v; now apply C68_safe|]. intros N. set (c := CRange e lo hi) in *.
  assert (X : forall n, 0 <= n -> sat c n -> short c n -> octs_exact c (repeat 1 (Z.to_nat n))).
  { intros n N0 S Md. assert (Z1 := zlen_repeat 1 n N0). rewrite <- Z1 in S, Md.
    assert (FO : Forall (fun b => 0 <= b < 256) (repeat 1 (Z.to_nat n))).
    { apply Forall_forall. intros x Hx. apply repeat_spec in Hx. subst x. lia. }
    apply C04_exact; [apply regular_check, range_regular|now apply usual_sizes|exact FO|now apply ctest_sat|].
    apply simple_back; [reflexivity|split; [exact S|exact FO]|]. apply N; [split; [exact S|exact FO]|exact Md]. }
  unfold t. cbn [safe_by]. unfold safe_octs. rewrite (range_regular e lo hi : regularb c = true). cbn [c cext clo chi andb].
  destruct Us as (A & B & Or). unfold octs_exact in X. cbv zeta in X.
  assert (Y : forall n, 0 <= n -> sat c n -> short c n ->
    (rooted c n /\ match chi c with
       | None => 1 <= n < 16384
       | Some h => h = 0 \/ exists l, clo c = Some l /\
           ((l = h /\ n < 65536) \/ (l <> h /\ h - l < 65536 /\ digits_kept (repeat 1 (Z.to_nat n))))
       end) \/ (outside c n /\ n < 16384)).
  { intros n N0 S Md. specialize (X n N0 S Md). rewrite zlen_repeat in X by exact N0. exact X. }
  clear X. unfold rooted, outside in Y. unfold short, inside in Y. cbn [c clo chi cext] in Y.
  destruct lo as [l|].
  - specialize (A l eq_refl). destruct hi as [h|].
    + specialize (B h eq_refl). specialize (Or l h eq_refl eq_refl).
      destruct (Z.eqb_spec l h) as [->|D]; [lia|]. exfalso.
      destruct (Y (Z.max l 1)) as [(_ & [Y0|(l' & E & [(Y1 & _)|(_ & _ & K0)])])|((_ & l' & E & [Y0|(h' & E2 & Y0)]) & _)].
      * lia.
      * right. split; intros ? E; injection E as <-; lia.
      * right. split; [lia|]. intros h' E. injection E as <-. lia.
      * lia.
      * injection E as <-. lia.
      * destruct (Z.to_nat (Z.max l 1)) as [|k] eqn:Ek; [lia|]. destruct k; cbn [repeat digits_kept] in K0; lia.
      * injection E as <-. lia.
      * injection E2 as <-. lia.
    + destruct e; cbn [negb andb].
      * exfalso. destruct (Y l) as [([Y0|(l' & h & _ & E & _)] & _)|((_ & l' & E & [Y0|(h' & E2 & Y0)]) & _)]; try discriminate; try lia.
        -- now left.
        -- injection E as <-. lia.
      * destruct (Z.leb_spec 1 l) as [|C]; [reflexivity|]. exfalso.
        destruct (Y l) as [(_ & Y0)|((Y0 & _) & _)]; try discriminate; try lia. right.
        split; intros ? E; [injection E as <-; lia|discriminate].
  - exfalso. destruct (Y 0) as [(_ & Y0)|((_ & l' & E & _) & _)]; [lia| |left; lia| |discriminate].
    + right. split; intros ? E; [discriminate|]. specialize (B _ E). lia.
    + destruct hi as [h|]; [|lia]. specialize (B h eq_refl). destruct Y0 as [Y0|(l' & E & _)]; [lia|discriminate].
Qed.

Theorem C68_list_exact : forall c, usual (clo c) (chi c) ->
  let t := TSeqOf c TBool in safe t = true <-> no_message_lost t.
Proof.
  intros c Us t. split; [intros Sf v; now apply C68_safe|]. intros N. destruct Us as (A & B & Or).
  assert (X : forall n, 0 <= n -> allowed c n -> short c n -> count_exact c n).
  { intros n N0 Al Md. assert (Z1 := zlen_repeat (VBool true) n N0). set (vs := repeat (VBool true) (Z.to_nat n)) in *.
    assert (EV : forall v, In v vs -> v = VBool true) by (intros v I0; now apply repeat_spec in I0).
    assert (M : message t (VSeqOf vs)).
    { cbn [message t]. rewrite Z1. split; [exact Al|]. apply all_of_forall, Forall_forall. intros v I0.
      specialize (EV v I0). subst v. exact Logic.I. }
    assert (Md2 : modest t (VSeqOf vs)).
    { cbn [modest_by t]. rewrite Z1. split; [exact Md|]. apply all_of_forall, Forall_forall. intros v I0.
      specialize (EV v I0). subst v. exact Logic.I. }
    destruct (N _ M Md2) as (bs & v' & E & Dd & Rd). cbn [reading t] in Rd.
    rewrite <- Z1. apply (C05_exact c TBool vs).
    - intros l E'. specialize (A l E'). lia.
    - exact Or.
    - intros v I0. rewrite (EV v I0). split; exact Logic.I.
    - destruct v' as [| | | | | | |vs'|]; cbn [reading] in Rd; try discriminate. exists bs, vs'.
      split; [exact E|]. split; [exact Dd|]. injection Rd as Rd. exact Rd. }
  unfold t. cbn [safe_by]. rewrite andb_true_r. unfold safe_count. unfold count_exact, allowed, short, inside, outside in X.
  destruct (clo c) as [l|].
  - specialize (A l eq_refl). destruct (chi c) as [h|].
    + specialize (B h eq_refl). specialize (Or l h eq_refl eq_refl). destruct (Z.ltb_spec l h) as [|C]; [lia|].
      assert (l = h) as -> by lia. destruct (cext c); [|lia]. exfalso.
      destruct (X h) as [(l' & h' & E & E2 & _ & _ & Y)|((_ & l' & E & [Y|(h' & E2 & Y)]) & _)].
      * lia.
      * now left.
      * right. split; [lia|]. intros ? E. injection E as <-. lia.
      * injection E as <-. injection E2 as <-. lia.
      * injection E as <-. lia.
      * injection E2 as <-. lia.
    + destruct (cext c); cbn [negb andb]; [|lia]. exfalso.
      destruct (X l) as [(l' & h' & _ & E & _)|((_ & l' & E & [Y|(h' & E2 & Y)]) & _)]; try discriminate; try lia.
      * injection E as <-. lia.
  - exfalso. destruct (cext c).
    + destruct (X 0) as [(l' & h' & E & _)|((_ & l' & E & _) & _)]; try discriminate; lia || auto.
    + destruct (X 0) as (l' & E & _); try discriminate; try lia.
      right. split; intros ? E; [discriminate|]. specialize (B _ E). lia.
Qed.

(** * Nothing that is set reads as absent *)

Lemma root_read c s : safe_root c = true -> msg_root (c, message (cty c)) s ->
  (exists x, read_root (c, reading (cty c)) s = Some x) <-> has c s = true.
Proof.
  intros S M. unfold safe_root in S. apply andb_true_iff in S as (_ & So). unfold read_root, msg_root in *. cbn [fst snd] in *.
  cbv zeta. unfold has, is_defaulted. unfold is_mandatory in So. destruct (cpres c) as [| |d] eqn:P.
  - destruct s; [split; eauto|congruence].
  - cbn [orb] in So. destruct s as [v|]; cbn [slot_get].
    + rewrite (proj2 (solid_message _ So v M)). split; eauto.
    + rewrite P. unfold present. rewrite (solid_fresh _ So). cbn [andb]. split; [intros (x & Ex)|intros Ex]; discriminate.
  - destruct s; split; eauto.
Qed.

Lemma add_read c s : safe_add c = true -> msg_add (c, message (cty c)) s ->
  (exists x, read_ext (c, reading (cty c)) s = Some x) <-> has c s = true.
Proof.
  intros S M. destruct (add_present c s S M) as (P & _). unfold read_ext. cbn [fst snd]. cbv zeta. rewrite P.
  destruct (has c s); split; eauto; [intros (x & Ex)|intros Ex]; discriminate.
Qed.

Lemma zipw_get {A B C} (f : A -> B -> C) l m i a b :
  nth_error l i = Some a -> nth_error m i = Some b -> nth_error (zipw f l m) i = Some (f a b).
Proof.
  revert m i. induction l as [|x l IH]; intros [|y m] [|i] E1 E2; cbn [nth_error zipw] in *; try discriminate; [congruence|].
  now apply IH.
Qed.

Lemma zipw_len_short {A B C} (f : A -> B -> C) l m : (List.length l <= List.length m)%nat -> List.length (zipw f l m) = List.length l.
Proof. revert m. induction l as [|x l IH]; intros [|y m] L; cbn [zipw List.length] in *; auto; [lia|]. f_equal. apply IH. lia. Qed.

Lemma groups_read gs : forall ss i c s, Forall (Forall (fun c => safe_add c = true)) gs ->
  List.length ss = List.length (List.concat gs) -> msg_groups (map (att message) gs) ss ->
  nth_error (List.concat gs) i = Some c -> nth_error ss i = Some s ->
  exists o, nth_error (read_groups (map (att reading) gs) ss) i = Some o /\ ((exists x, o = Some x) <-> has c s = true).
Proof.
  induction gs as [|g gs IH]; intros ss i c s S L M Ci Si; [destruct i; discriminate|].
  inversion S; subst. cbn [map msg_groups read_groups List.concat] in *. rewrite !att_length in *.
  rewrite app_length in L. destruct M as ((M1 & MR) & M2). rewrite map_fst_att in MR. unfold read_group.
  rewrite !map_fst_att, (group_has g ss) by assumption.
  assert (Lg : List.length (if any_has g ss then zipw read_root (att reading g) ss else map (fun _ => None) (att reading g))
    = List.length g).
  { destruct (any_has g ss); [rewrite zipw_len_short; rewrite att_length; [reflexivity|lia]|]. now rewrite map_length, att_length. }
  destruct (Nat.lt_ge_cases i (List.length g)) as [B|B].
  - rewrite nth_error_app1 in Ci by lia. rewrite nth_error_app1 by lia. destruct (any_has g ss) eqn:AH.
    + exists (read_root (c, reading (cty c)) s). split; [apply zipw_get; [now apply att_nth|exact Si]|].
      apply root_read.
      * apply add_root. rewrite Forall_forall in H1. exact (H1 c (nth_error_In _ _ Ci)).
      * specialize (MR eq_refl). rewrite zipw_all in MR. exact (MR i c s Ci Si).
    + exists None. split.
      * unfold att. now rewrite map_map, nth_error_map, Ci.
      * assert (Hs : has c s = false); [|rewrite Hs; split; [intros (x & Ex)|intros Ex]; discriminate].
        destruct (has c s) eqn:Hs; [|reflexivity]. unfold any_has in AH.
        assert (E : existsb (fun b : bool => b) (zipw has g ss) = true); [|congruence]. apply existsb_exists. exists true.
        split; [|reflexivity]. rewrite <- Hs. exact (zipw_at has g ss i c s Ci Si).
  - rewrite nth_error_app2 in Ci by lia. rewrite nth_error_app2 by lia. rewrite Lg. apply IH; auto.
    + rewrite skipn_length. lia.
    + rewrite nth_skip. now replace (List.length g + (i - List.length g))%nat with i by lia.
Qed.

Lemma nothing_hidden rule e r a g slots :
  safe_by rule (TSeq e r a g) = true -> message (TSeq e r a g) (VSeq slots) ->
  exists l, reading (TSeq e r a g) (VSeq slots) = ASeq l /\
  forall i c, nth_error (all_comps r a g) i = Some c ->
    ((exists x, nth_error l i = Some (Some x)) <-> has c (slot_at slots i) = true).
Proof.
  intros Sf M. cbn [safe_by] in Sf. repeat (apply andb_true_iff in Sf as (Sf & ?)).
  repeat match goal with X : forallb (forallb _) _ = true |- _ => apply forallb_Forall2 in X end.
  repeat match goal with X : forallb _ _ = true |- _ => apply forallb_Forall in X end.
  match goal with X : Forall _ r |- _ => rename X into SR0 end. match goal with X : Forall _ a |- _ => rename X into SA0 end.
  rewrite Forall_forall in SR0, SA0.
  cbn [message reading] in M |- *. cbv zeta in M |- *. destruct M as (L & M1 & M2 & M3 & _).
  eexists. split; [reflexivity|]. intros i c Ci.
  set (ss := slots_list (ncomps r a g) slots) in *.
  assert (Bi : (i < ncomps r a g)%nat) by (apply nth_error_Some; congruence).
  assert (Si : nth_error ss i = Some (slot_at slots i)).
  { unfold ss, slot_at in *. destruct slots as [l|]; cbn [slots_list] in *.
    - apply nth_error_nth'. lia.
    - now apply nth_error_repeat. }
  unfold ncomps, all_comps in L, Bi. rewrite !app_length in L, Bi.
  assert (L1 : List.length (zipw read_root (att reading r) ss) = List.length r).
  { rewrite zipw_len_short; rewrite att_length; [reflexivity|lia]. }
  assert (L2 : List.length (zipw read_ext (att reading a) (skipn (List.length r) ss)) = List.length a).
  { rewrite zipw_len_short; rewrite att_length; [reflexivity|rewrite skipn_length; lia]. }
  unfold all_comps in Ci. destruct (Nat.lt_ge_cases i (List.length r)) as [B1|B1].
  - rewrite nth_error_app1 in Ci by lia. rewrite nth_error_app1 by lia.
    rewrite (zipw_get read_root _ _ i (c, reading (cty c)) _ (att_nth reading r i c Ci) Si).
    rewrite <- (root_read c (slot_at slots i)).
    + split; intros (x & Ex); exists x; congruence.
    + exact (SR0 c (nth_error_In _ _ Ci)).
    + rewrite zipw_all in M1. exact (M1 i c _ Ci Si).
  - rewrite nth_error_app2 in Ci by lia. rewrite nth_error_app2 by lia. rewrite L1.
    destruct (Nat.lt_ge_cases (i - List.length r) (List.length a)) as [B2|B2].
    + rewrite nth_error_app1 in Ci by lia. rewrite nth_error_app1 by lia.
      assert (Sj : nth_error (skipn (List.length r) ss) (i - List.length r) = Some (slot_at slots i)).
      { rewrite nth_skip. now replace (List.length r + (i - List.length r))%nat with i by lia. }
      rewrite (zipw_get read_ext _ _ _ (c, reading (cty c)) _ (att_nth reading a _ c Ci) Sj).
      rewrite <- (add_read c (slot_at slots i)).
      * split; intros (x & Ex); exists x; congruence.
      * exact (SA0 c (nth_error_In _ _ Ci)).
      * rewrite zipw_all in M2. exact (M2 _ c _ Ci Sj).
    + rewrite nth_error_app2 in Ci by lia. rewrite nth_error_app2 by lia. rewrite L2.
      destruct (groups_read g (skipn (List.length r + List.length a) ss) (i - List.length r - List.length a) c (slot_at slots i))
        as (o & Eo & Ho); auto.
      * rewrite skipn_length. lia.
      * rewrite nth_skip. now replace (List.length r + List.length a + (i - List.length r - List.length a))%nat with i by lia.
      * rewrite Eo, <- Ho. split; intros (x & Ex); exists x; congruence.
Qed.

(** The components that read as present, before and after the wire, are those
    that were set or have a DEFAULT. *)
Theorem C68_nothing_hidden : forall e r a g slots,
  safe (TSeq e r a g) = true -> message (TSeq e r a g) (VSeq slots) ->
  exists l, reading (TSeq e r a g) (VSeq slots) = ASeq l /\
  forall i c, nth_error (all_comps r a g) i = Some c ->
    ((exists x, nth_error l i = Some (Some x)) <-> has c (slot_at slots i) = true).
Proof. apply nothing_hidden. Qed.

(** * Cases *)

Ltac concrete :=
  match goal with
  | |- _ /\ _ => split; concrete
  | |- all_of _ => let p := fresh in let J := fresh in intros p J; cbn [zipw att map In skipn List.length app fst snd] in J;
      repeat (destruct J as [<-|J]; [concrete|]); contradiction
  | |- open_small _ _ => let bs := fresh in let E := fresh in intros bs E; vm_compute in E; injection E as <-; reflexivity
  | |- _ -> _ => let J := fresh in intros J; concrete
  | |- Forall _ _ => repeat constructor; lia
  | |- True => exact Logic.I
  | |- _ = _ => reflexivity
  | |- _ <> _ => discriminate
  | |- _ < _ => reflexivity
  | |- sat _ _ => apply ctest_sat; reflexivity
  | |- allowed _ _ => first [left; reflexivity | right; split; intros ? J; cbn [clo chi] in J; injection J as <-; vm_compute; discriminate]
  | |- In _ _ => cbn; tauto
  | |- short _ _ => left; reflexivity
  | |- plain_size _ _ => left; reflexivity
  | |- _ \/ _ => first [left; solve [concrete] | right; solve [concrete]]
  | |- msg_group _ _ => unfold msg_group; concrete
  | |- mod_add _ _ => unfold mod_add; concrete
  | |- _ => progress cbn [message modest_by msg_root msg_add msg_group msg_groups mod_add mod_groups has_flag has_flags any_has has
      no_gap att map fst snd zipw skipn firstn slots_list ncomps all_comps List.length List.concat app Nat.add nth_error
      existsb orb is_optional is_defaulted cpres cname cty slot_get]; concrete
  end.

(** SEQUENCE { id INTEGER (0..255), key OCTET STRING (SIZE (4)), flags BIT STRING
    (SIZE (1..8)) OPTIONAL, level ENUMERATED { low, high, ..., top } DEFAULT low,
    votes SEQUENCE (SIZE (0..4)) OF BOOLEAN, ..., port INTEGER (0..65535) OPTIONAL,
    [[ who CHOICE { me BOOLEAN, you INTEGER (1..4) }, where INTEGER (0..7) OPTIONAL ]] } *)
Definition packet : ty :=
  TSeq true
    [Comp "id" Mand (TInt (CRange false (Some 0) (Some 255)));
     Comp "key" Mand (TOcts (CRange false (Some 4) (Some 4)));
     Comp "flags" Opt (TBits (CRange false (Some 1) (Some 8)));
     Comp "level" (Dflt (VEnum 0)) (TEnum true [0; 1] [2]);
     Comp "votes" Mand (TSeqOf (CSeqSize false (Some 0) (Some 4)) TBool)]
    [Comp "port" Opt (TInt (CRange false (Some 0) (Some 65535)))]
    [[Comp "who" Mand (TChoice false [Comp "me" Mand TBool; Comp "you" Mand (TInt (CRange false (Some 1) (Some 4)))] [] []);
      Comp "where" Opt (TInt (CRange false (Some 0) (Some 7)))]].

Definition packet_value : val :=
  VSeq (Some [Some (VInt 200); Some (VOcts [0; 1; 2; 3]); Some (VBits [true; false]); Some (VEnum 2);
    Some (VSeqOf []); None; Some (VChoice (Some (1%nat, VInt 3))); None]).

Example C68_case : safe packet = true /\ limited packet = true /\ message packet packet_value /\
  encode packet packet_value = Ok [224; 200; 0; 1; 2; 3; 32; 160; 0; 20; 1; 96].
Proof.
  split; [reflexivity|]. split; [vm_compute; reflexivity|]. split; [unfold packet, packet_value; concrete|]. vm_compute; reflexivity.
Qed.

(** Without the rules of the check messages are lost: a type that fails only in
    one of them, and a message of it that does not come back. *)
Definition defaults_only : ty := TSeq false [Comp "b" (Dflt (VBool true)) TBool] [] [].

Definition losers : list (ty * val) := [
  (* OPTIONAL, and all its components are at their DEFAULT *)
  (TSeq false [Comp "a" Opt defaults_only] [] [], VSeq (Some [Some (VSeq (Some [Some (VBool true)]))]));
  (* the same in an addition *)
  (TSeq true [Comp "a" Mand TBool] [Comp "b" Opt defaults_only] [],
   VSeq (Some [Some (VBool true); Some (VSeq (Some [Some (VBool true)]))]));
  (* DEFAULT on a constructed type *)
  (TSeq false [Comp "a" (Dflt (VSeq (Some [Some (VBool true)]))) (TSeq false [Comp "b" Mand TBool] [] [])] [] [],
   VSeq (Some [Some (VSeq (Some [Some (VBool false)]))]));
  (* DEFAULT on a BIT STRING of several sizes *)
  (TSeq false [Comp "a" (Dflt (VBits [false])) (TBits (CRange false (Some 1) (Some 4)))] [] [],
   VSeq (Some [Some (VBits [false; false])]));
  (* additions without a marker *)
  (TSeq false [Comp "a" Mand TBool] [Comp "b" Mand TBool] [], VSeq (Some [Some (VBool true); Some (VBool true)]));
  (TChoice false [Comp "a" Mand TBool] [Comp "b" Mand TBool] [], VChoice (Some (1%nat, VBool true)));
  (* two components of one name *)
  (TSeq false [Comp "a" Mand TBool; Comp "a" Mand TBool] [] [], VSeq (Some [Some (VBool true); Some (VBool false)]));
  (TChoice false [Comp "a" Mand TBool; Comp "a" Mand TBool] [] [], VChoice (Some (1%nat, VBool true)));
  (* items numbered otherwise than 0, 1, 2 ... *)
  (TEnum false [0; 2] [], VEnum 2)].

Lemma lost_not_surviving t v : (match encode t v with
  | Ok bs => match decode bs t with Ok v' => reading t v' <> reading t v | Err _ => True end
  | Err _ => True
  end) -> ~ survives_reading t v.
Proof. intros L (bs & v' & E & Dd & Rd). rewrite E, Dd in L. auto. Qed.

Theorem C68_rules_needed : Forall (fun p => safe (fst p) = false /\ message (fst p) (snd p) /\ modest (fst p) (snd p) /\
  ~ survives_reading (fst p) (snd p)) losers.
Proof.
  unfold losers, defaults_only.
  repeat (apply Forall_cons; [cbn [fst snd]; split; [vm_compute; reflexivity|]; split;
    [cbn [repeat map seq]; concrete|split; [cbn [repeat map seq]; concrete|
     apply lost_not_surviving; vm_compute; exact Logic.I || discriminate]]|]). constructor.
Qed.

(** An empty list that is set in an OPTIONAL place is sent as absent. *)
Theorem C68_hidden_without_check : exists r slots, message (TSeq false r [] []) (VSeq slots) /\
  exists c, nth_error r 0 = Some c /\ has c (slot_at slots 0) = true /\
  reading (TSeq false r [] []) (VSeq slots) = ASeq [None] /\ safe (TSeq false r [] []) = false.
Proof.
  exists [Comp "a" Opt (TSeqOf (CSeqSize false (Some 0) (Some 3)) TBool)], (Some [Some (VSeqOf [])]).
  split; [concrete|]. eexists. split; [reflexivity|]. repeat split.
Qed.
