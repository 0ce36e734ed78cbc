(** C34-C35: constraints as sets of numbers, and the end points the codec
    computes from them. *)
From Coq Require Import ZArith List String Bool Lia ZifyBool ZifyNat ZifyN.
Import ListNotations.
From Verif Require Import PyBase Schema Encoder Decoder BitFacts Stream Prims Spec SimpleTypes.
Open Scope string_scope.
Open Scope list_scope.
Open Scope Z_scope.

(** Induction on constraints, through the lists of parts. *)
Definition constr_ind' (P : constr -> Prop)
  (HN : P CNone) (HX : forall e, P (CExt e)) (HS : forall e l h, P (CSeqSize e l h))
  (HR : forall e l h, P (CRange e l h)) (HV : forall e vs, P (CSingle e vs))
  (HO : forall e cs, Forall P cs -> P (COr e cs)) (HA : forall e cs, Forall P cs -> P (CAnd e cs)) :
  forall c, P c :=
  fix go c : P c :=
    let all := fix all (cs : list constr) : Forall P cs :=
      match cs with [] => Forall_nil _ | c :: r => Forall_cons _ (go c) (all r) end in
    match c with
    | CNone => HN
    | CExt e => HX e
    | CSeqSize e l h => HS e l h
    | CRange e l h => HR e l h
    | CSingle e vs => HV e vs
    | COr e cs => HO e cs (all cs)
    | CAnd e cs => HA e cs (all cs)
    end.

(** The values a constraint admits.  [CRange] bounds a value or a size;
    an extensible constraint admits everything. *)
Definition above (lo : option Z) (z : Z) : Prop := forall l, lo = Some l -> l <= z.
Definition below (z : Z) (hi : option Z) : Prop := forall h, hi = Some h -> z <= h.

Fixpoint sat (c : constr) (z : Z) : Prop :=
  match c with
  | CNone | CExt _ | CSeqSize _ _ _ => True
  | CRange e lo hi => e = true \/ (above lo z /\ below z hi)
  | CSingle e vs => e = true \/ In z vs
  | COr e cs => e = true \/ some_of (map (fun c' => sat c' z) cs)
  | CAnd e cs => e = true \/ all_of (map (fun c' => sat c' z) cs)
  end.

Lemma above_le lo z : le_opt_l lo z = true <-> above lo z.
Proof.
  unfold above, le_opt_l. destruct lo as [l|]; [|split; [discriminate|auto]].
  rewrite Z.leb_le. split; [intros H m [= <-]; auto|intros H; now apply H].
Qed.

Lemma below_le z hi : le_opt_r z hi = true <-> below z hi.
Proof.
  unfold below, le_opt_r. destruct hi as [l|]; [|split; [discriminate|auto]].
  rewrite Z.leb_le. split; [intros H m [= <-]; auto|intros H; now apply H].
Qed.

Theorem ctest_sat c z : ctest c z = true <-> sat c z.
Proof.
  induction c using constr_ind'; cbn [ctest sat]; try (split; auto; fail).
  - rewrite orb_true_iff, andb_true_iff, above_le, below_le. tauto.
  - rewrite orb_true_iff, existsb_exists. split; (intros [A|A]; [auto|right]).
    + destruct A as (x & I & E). apply Z.eqb_eq in E. now subst.
    + exists z. now rewrite Z.eqb_refl.
  - rewrite orb_true_iff, existsb_exists, Forall_forall in *. unfold some_of. split; (intros [A|A]; [auto|right]).
    + destruct A as (x & I & E). exists (sat x z). split; [now apply in_map with (f := fun c' => sat c' z)|].
      now apply H.
    + destruct A as (p & I & E). apply in_map_iff in I as (x & <- & I). exists x. split; auto. now apply H.
  - rewrite orb_true_iff, forallb_forall, Forall_forall in *. unfold all_of. split; (intros [A|A]; [auto|right]).
    + intros p I. apply in_map_iff in I as (x & <- & I). apply H; auto.
    + intros x I. apply H; auto. apply A. now apply in_map with (f := fun c' => sat c' z).
Qed.

(** * C34 *)

(** No extension marker anywhere, and no SEQUENCE OF size (which restrains the
    number of elements, not a value). *)
Fixpoint plain (c : constr) : Prop :=
  match c with
  | CNone => True
  | CExt e | CRange e _ _ | CSingle e _ => e = false
  | CSeqSize _ _ _ => False
  | COr e cs | CAnd e cs => e = false /\ all_of (map plain cs)
  end.

Lemma opt_fold_min l m : opt_fold Z.min l = Some m -> forall x, In x l -> exists y, x = Some y /\ m <= y.
Proof.
  revert m. induction l as [|a l IH]; intros m E x I; [contradiction|].
  destruct l as [|b l].
  - cbn [opt_fold] in E. destruct I as [<-|[]]. exists m. split; [auto|lia].
  - change (opt_fold Z.min (a :: b :: l)) with
      (match a, opt_fold Z.min (b :: l) with Some a, Some b => Some (Z.min a b) | _, _ => None end) in E.
    destruct a as [a|]; [|discriminate]. destruct (opt_fold Z.min (b :: l)) as [r|] eqn:R; [|discriminate].
    injection E as <-. destruct I as [<-|I].
    + exists a. split; auto. lia.
    + destruct (IH r eq_refl x I) as (y & -> & L). exists y. split; auto. lia.
Qed.

Lemma opt_fold_max l m : opt_fold Z.max l = Some m -> forall x, In x l -> exists y, x = Some y /\ y <= m.
Proof.
  revert m. induction l as [|a l IH]; intros m E x I; [contradiction|].
  destruct l as [|b l].
  - cbn [opt_fold] in E. destruct I as [<-|[]]. exists m. split; [auto|lia].
  - change (opt_fold Z.max (a :: b :: l)) with
      (match a, opt_fold Z.max (b :: l) with Some a, Some b => Some (Z.max a b) | _, _ => None end) in E.
    destruct a as [a|]; [|discriminate]. destruct (opt_fold Z.max (b :: l)) as [r|] eqn:R; [|discriminate].
    injection E as <-. destruct I as [<-|I].
    + exists a. split; auto. lia.
    + destruct (IH r eq_refl x I) as (y & -> & L). exists y. split; auto. lia.
Qed.

(** Missing: constraints with an extensible part inside a non-extensible union or
    intersection (refuted below). *)
Theorem C34_end_points_partial : forall c z, plain c -> sat c z -> above (clo c) z /\ below z (chi c).
Proof.
  intros c z. induction c using constr_ind'; intros P S; cbn [clo chi]; cbn [plain sat] in P, S.
  - split; intros x [=].
  - split; intros x [=].
  - contradiction.
  - destruct S as [S|S]; [congruence|exact S].
  - destruct S as [S|S]; [congruence|]. split; intros m E.
    + destruct (opt_fold_min _ _ E (Some z)) as (y & [= <-] & L); [now apply in_map|exact L].
    + destruct (opt_fold_max _ _ E (Some z)) as (y & [= <-] & L); [now apply in_map|exact L].
  - destruct P as (-> & P). destruct S as [S|(p & I & S)]; [discriminate|].
    apply in_map_iff in I as (x & <- & I). rewrite Forall_forall in H.
    assert (PX : plain x) by (apply P; now apply in_map).
    destruct (H x I PX S) as (A & B). split; intros m E.
    + destruct (opt_fold_min _ _ E (clo x)) as (y & Y & L); [now apply in_map|]. specialize (A y Y). lia.
    + destruct (opt_fold_max _ _ E (chi x)) as (y & Y & L); [now apply in_map|]. specialize (B y Y). lia.
  - destruct P as (-> & P). destruct S as [S|S]; [discriminate|]. rewrite Forall_forall in H.
    split; intros m E.
    + destruct cs as [|x cs]; [discriminate|]. assert (I : In x (x :: cs)) by now left.
      destruct (opt_fold_min _ _ E (clo x)) as (y & Y & L); [now apply in_map|].
      assert (PX : plain x) by (apply P; now apply in_map).
      assert (SX : sat x z) by (apply S; now apply in_map with (f := fun c' => sat c' z)).
      destruct (H x I PX SX) as (A & _). specialize (A y Y). lia.
    + destruct cs as [|x cs]; [discriminate|]. assert (I : In x (x :: cs)) by now left.
      destruct (opt_fold_max _ _ E (chi x)) as (y & Y & L); [now apply in_map|].
      assert (PX : plain x) by (apply P; now apply in_map).
      assert (SX : sat x z) by (apply S; now apply in_map with (f := fun c' => sat c' z)).
      destruct (H x I PX SX) as (_ & B). specialize (B y Y). lia.
Qed.

Lemma plain_ext c : plain c -> cext c = false.
Proof. destruct c; cbn [plain cext]; auto; tauto. Qed.

(** So an INTEGER object of such a type is always encoded: a number below its
    field never reaches the encoder (up to the length the length octets can
    say). *)
Theorem C34_object_encoded_partial : forall c z l h,
  plain c -> sat c z -> clo c = Some l -> chi c = Some h ->
  exists fs, encode_integer c z = Ok fs.
Proof.
  intros c z l h P S L H. destruct (C34_end_points_partial c z P S) as (A & B).
  specialize (A l L). specialize (B h H). unfold encode_integer. rewrite (plain_ext c P), L, H.
  eexists. apply cwn_fields_ok. lia.
Qed.

(** INTEGER (0..3) extended inside a union: 100 is accepted by the non-extensible
    union, its end points are 0 and 7, and no encoding exists that fits. *)
Theorem C34_end_points_refuted : exists c z,
  cext c = false /\ sat c z /\ ~ below z (chi c) /\ chi c = Some 7.
Proof.
  exists (COr false [CRange true (Some 0) (Some 3); CRange false (Some 4) (Some 7)]), 100.
  split; [reflexivity|]. split; [|split; [|reflexivity]].
  - cbn [sat]. right. eexists. split; [left; reflexivity|]. left. reflexivity.
  - intros H. specialize (H 7 eq_refl). lia.
Qed.

(** The number is sent in more bits than the field has, and comes back as
    another number. *)
Theorem C34_misencoded_refuted : exists c z bs z',
  cext c = false /\ sat c z /\ encode (TInt c) (VInt z) = Ok bs /\
  decode bs (TInt c) = Ok (VInt z') /\ z' <> z.
Proof.
  exists (COr false [CRange true (Some 0) (Some 3); CRange false (Some 4) (Some 7)]), 100, [200], 6.
  split; [reflexivity|]. split.
  { cbn [sat]. right. eexists. split; [left; reflexivity|]. left. reflexivity. }
  split; [vm_compute; reflexivity|]. split; [vm_compute; reflexivity|discriminate].
Qed.

Example C34_case :
  let c := CAnd false [CRange false (Some 0) (Some 100);
                       COr false [CRange false (Some (-5)) (Some 10); CSingle false [50; 60]]] in
  plain c /\ sat c 60 /\ clo c = Some (-5) /\ chi c = Some 100.
Proof.
  cbv zeta. split; [|split; [|split; reflexivity]].
  - cbn [plain]. split; auto. intros p [<-|[<-|[]]]; [reflexivity|]. split; auto.
    intros q [<-|[<-|[]]]; reflexivity.
  - apply ctest_sat. reflexivity.
Qed.

(** * C35 *)

(** [l] and [h] are the least and the greatest number admitted. *)
Definition effective (c : constr) (l h : Z) : Prop :=
  sat c l /\ sat c h /\ forall z, sat c z -> l <= z <= h.

(** Unions of ranges and single values, without an intersection of two. *)
Fixpoint union_like (c : constr) : Prop :=
  match c with
  | CRange e (Some l) (Some h) => e = false /\ l <= h
  | CSingle e vs => e = false /\ vs <> []
  | COr e cs => e = false /\ cs <> [] /\ all_of (map union_like cs)
  | CAnd e [c'] => e = false /\ union_like c'
  | _ => False
  end.

Lemma union_plain c : union_like c -> plain c.
Proof.
  induction c using constr_ind'; cbn [union_like plain]; try tauto.
  - destruct l, h; tauto.
  - intros (-> & N & A). split; auto. intros p I. apply in_map_iff in I as (x & <- & I).
    rewrite Forall_forall in H. apply H; auto. apply A. now apply in_map.
  - destruct cs as [|x [|y cs]]; try tauto. intros (-> & U). split; auto. intros p [<-|[]].
    inversion H; auto.
Qed.

Lemma opt_fold_min_some l : l <> [] -> (forall x, In x l -> exists y, x = Some y) ->
  exists m, opt_fold Z.min l = Some m /\ In (Some m) l.
Proof.
  induction l as [|a l IH]; [congruence|]. intros _ H. destruct (H a (or_introl eq_refl)) as (y & ->).
  destruct l as [|b l].
  - exists y. split; [reflexivity|now left].
  - destruct IH as (m & E & I); [discriminate|intros x Hx; apply H; now right|].
    exists (Z.min y m). split.
    + change (opt_fold Z.min (Some y :: b :: l)) with
        (match opt_fold Z.min (b :: l) with Some b => Some (Z.min y b) | _ => None end). now rewrite E.
    + destruct (Z.min_spec y m) as [(_ & ->)|(_ & ->)]; [now left|now right].
Qed.

Lemma opt_fold_max_some l : l <> [] -> (forall x, In x l -> exists y, x = Some y) ->
  exists m, opt_fold Z.max l = Some m /\ In (Some m) l.
Proof.
  induction l as [|a l IH]; [congruence|]. intros _ H. destruct (H a (or_introl eq_refl)) as (y & ->).
  destruct l as [|b l].
  - exists y. split; [reflexivity|now left].
  - destruct IH as (m & E & I); [discriminate|intros x Hx; apply H; now right|].
    exists (Z.max y m). split.
    + change (opt_fold Z.max (Some y :: b :: l)) with
        (match opt_fold Z.max (b :: l) with Some b => Some (Z.max y b) | _ => None end). now rewrite E.
    + destruct (Z.max_spec y m) as [(_ & ->)|(_ & ->)]; [now right|now left].
Qed.

Lemma map_nonempty {A B} (f : A -> B) l : l <> [] -> map f l <> [].
Proof. destruct l; [congruence|discriminate]. Qed.

(** Missing: intersections of two or more constraints (refuted below). *)
Theorem C35_effective_partial : forall c, union_like c ->
  exists l h, clo c = Some l /\ chi c = Some h /\ effective c l h.
Proof.
  intros c U. 
  assert (E : exists l h, clo c = Some l /\ chi c = Some h /\ sat c l /\ sat c h).
  { revert U. induction c using constr_ind'; cbn [union_like]; try contradiction.
    - destruct l as [l|], h as [h|]; try contradiction. intros (-> & L). exists l, h.
      split; [reflexivity|]. split; [reflexivity|]. cbn [sat]. unfold above, below.
      split; right; split; intros x [= <-]; lia.
    - intros (-> & N). cbn [clo chi sat].
      destruct (opt_fold_min_some (map Some vs)) as (m & E & I); [now apply map_nonempty| |].
      { intros x Hx. apply in_map_iff in Hx as (y & <- & _). eauto. }
      destruct (opt_fold_max_some (map Some vs)) as (m' & E' & I'); [now apply map_nonempty| |].
      { intros x Hx. apply in_map_iff in Hx as (y & <- & _). eauto. }
      exists m, m'. rewrite E, E'. repeat split; right.
      + apply in_map_iff in I as (y & [= ->] & I). exact I.
      + apply in_map_iff in I' as (y & [= ->] & I'). exact I'.
    - intros (-> & N & A). cbn [clo chi sat]. rewrite Forall_forall in H.
      assert (K : forall x, In x cs -> exists l h, clo x = Some l /\ chi x = Some h /\ sat x l /\ sat x h).
      { intros x I. apply H; auto. apply A. now apply in_map. }
      destruct (opt_fold_min_some (map clo cs)) as (m & E & I); [now apply map_nonempty| |].
      { intros x Hx. apply in_map_iff in Hx as (y & <- & Hy). destruct (K y Hy) as (l & h & -> & _). eauto. }
      destruct (opt_fold_max_some (map chi cs)) as (m' & E' & I'); [now apply map_nonempty| |].
      { intros x Hx. apply in_map_iff in Hx as (y & <- & Hy). destruct (K y Hy) as (l & h & _ & -> & _). eauto. }
      exists m, m'. rewrite E, E'. repeat split; right.
      + apply in_map_iff in I as (y & Ey & I). destruct (K y I) as (l & h & X & _ & S & _).
        exists (sat y m). split; [now apply in_map with (f := fun c' => sat c' m)|congruence].
      + apply in_map_iff in I' as (y & Ey & I'). destruct (K y I') as (l & h & _ & X & _ & S).
        exists (sat y m'). split; [now apply in_map with (f := fun c' => sat c' m')|congruence].
    - destruct cs as [|x [|y cs]]; try contradiction. intros (-> & Ux). inversion H as [|? ? Hx _]; subst.
      destruct (Hx Ux) as (l & h & A & B & C & D). exists l, h. cbn [clo chi map opt_fold sat].
      repeat split; auto; right; intros p [<-|[]]; auto. }
  destruct E as (l & h & A & B & C & D). exists l, h. repeat split; auto;
    destruct (C34_end_points_partial c z (union_plain c U) H) as (X & Y); auto.
Qed.

(** (0..10)(5..20) admits 5..10 but is encoded in the range 0..20. *)
Theorem C35_effective_refuted : exists c l h,
  clo c = Some 0 /\ chi c = Some 20 /\ effective c l h /\ l = 5 /\ h = 10 /\
  (* 5 bits instead of 3 *)
  enc (TInt c) (VInt 5) = Ok [F false [false; false; true; false; true]].
Proof.
  exists (CAnd false [CRange false (Some 0) (Some 10); CRange false (Some 5) (Some 20)]), 5, 10.
  split; [reflexivity|]. split; [reflexivity|]. split; [|repeat split].
  split; [apply ctest_sat; reflexivity|]. split; [apply ctest_sat; reflexivity|].
  intros z S. apply ctest_sat in S. cbn in S. lia.
Qed.

Example C35_case : union_like (COr false [CRange false (Some 3) (Some 7); CSingle false [-1; 20]]) /\
  clo (COr false [CRange false (Some 3) (Some 7); CSingle false [-1; 20]]) = Some (-1) /\
  chi (COr false [CRange false (Some 3) (Some 7); CSingle false [-1; 20]]) = Some 20.
Proof.
  split; [|split; reflexivity]. cbn [union_like]. split; auto. split; [discriminate|].
  intros p [<-|[<-|[]]]; cbn [union_like]; split; auto; [lia|discriminate].
Qed.
