(** What any other implementation may send is understood.

    The values here are those of ASN.1, not objects of the library: [valid] says
    which values a type has.  For a schema that passes the checks every value of a
    type is that of a message, so that all octets X.691 allows for the type decode
    to the value they stand for. *)
From Coq Require Import ZArith List String Bool Lia ZifyBool ZifyNat ZifyN.
Import ListNotations.
From Verif Require Import PyBase Schema Encoder Decoder BitFacts Stream Prims Spec SimpleTypes RoundTrip Reading
  Totality PropsRoundTrip Objects X691 Constraints Valid Exact Faults Extent Conform Safe Standard.
Open Scope Z_scope.
Ltac Zify.zify_post_hook ::= Z.div_mod_to_equations.

(** * The values of a type *)

Definition given {A} (o : option A) : bool := match o with Some _ => true | None => false end.

Definition any_given {A} (l : list (option A)) : bool := existsb given l.

Definition val_add (ca : comp ty * (aval -> Prop)) (o : option aval) : Prop :=
  match o with Some a => snd ca a | None => True end.

(** In the root only what is OPTIONAL may be absent; a DEFAULT component has a value. *)
Definition val_root (ca : comp ty * (aval -> Prop)) (o : option aval) : Prop :=
  match o with Some a => snd ca a | None => cpres (fst ca) = Opt end.

(** An addition group is absent or complete. *)
Fixpoint val_groups (gs : list (list (comp ty * (aval -> Prop)))) (os : list (option aval)) : Prop :=
  match gs with
  | [] => True
  | g :: gs' =>
      (any_given (firstn (List.length g) os) = true -> all_of (zipw val_root g os)) /\
      val_groups gs' (skipn (List.length g) os)
  end.

(** May be absent though later ones are there, and is there. *)
Definition add_flag (c : comp ty) (o : option aval) : bool * bool := (is_optional c || given o, given o).

Fixpoint add_flags (gs : list (list (comp ty))) (os : list (option aval)) : list (bool * bool) :=
  match gs with
  | [] => []
  | g :: gs' =>
      let b := any_given (firstn (List.length g) os) in
      (existsb is_optional g || b, b) :: add_flags gs' (skipn (List.length g) os)
  end.

(** The values of a type in any of its versions: an addition that must be there is
    absent only with all later ones. *)
Fixpoint valid (t : ty) (a : aval) {struct t} : Prop :=
  match t, a with
  | TBool, ABool _ => True
  | TInt c, AInt z => sat c z
  | TEnum _ root adds, AEnum z => In z (root ++ adds)
  | TBits c, ABits s => sat c (zlen s)
  | TOcts c, AOcts bs => sat c (zlen bs) /\ Forall (fun b => 0 <= b < 256) bs
  | TSeqOf c t', ASeqOf l => allowed c (zlen l) /\ all_of (map (valid t') l)
  | TChoice _ root adds groups, AChoice (Some (i, a')) =>
      match nth_error (att valid root ++ att valid adds ++ List.concat (map (att valid) groups)) i with
      | Some ca => snd ca a'
      | None => False
      end
  | TSeq _ root adds groups, ASeq l =>
      let l2 := skipn (List.length root) l in
      let l3 := skipn (List.length root + List.length adds) l in
      List.length l = ncomps root adds groups /\
      all_of (zipw val_root (att valid root) l) /\
      all_of (zipw val_add (att valid adds) l2) /\
      val_groups (map (att valid) groups) l3 /\
      no_gap (zipw add_flag adds l2) /\ no_gap (add_flags groups l3)
  | _, _ => False
  end.

(** No DEFAULT after a marker. *)
Fixpoint bare (t : ty) : bool :=
  match t with
  | TSeq _ root adds groups =>
      forallb (fun c => negb (is_defaulted c)) adds && forallb (forallb (fun c => negb (is_defaulted c))) groups &&
      (forallb (fun c => bare (cty c)) root && forallb (fun c => bare (cty c)) adds &&
       forallb (forallb (fun c => bare (cty c))) groups)
  | TChoice _ root adds groups =>
      forallb (fun c => bare (cty c)) root && forallb (fun c => bare (cty c)) adds &&
      forallb (forallb (fun c => bare (cty c))) groups
  | TSeqOf _ t' => bare t'
  | _ => true
  end.

(** * The object with a value *)

Definition put (ca : comp ty * (aval -> val)) (o : option aval) : option val := option_map (snd ca) o.

Fixpoint unread (t : ty) (a : aval) {struct t} : val :=
  match t, a with
  | TSeq _ root adds groups, ASeq l =>
      VSeq (Some (zipw put (att unread root ++ att unread adds ++ List.concat (map (att unread) groups)) l))
  | TSeqOf _ t', ASeqOf l => VSeqOf (map (unread t') l)
  | TChoice _ root adds groups, AChoice (Some (i, a')) =>
      match nth_error (att unread root ++ att unread adds ++ List.concat (map (att unread) groups)) i with
      | Some ca => VChoice (Some (i, snd ca a'))
      | None => VChoice None
      end
  | _, ABool b => VBool b
  | _, AInt z => VInt z
  | _, AEnum z => VEnum z
  | _, ABits s => VBits s
  | _, AOcts bs => VOcts bs
  | _, _ => VUnset
  end.

Section Values.
Context {rule : constr -> bool}.
Local Notation safe := (safe_by rule).

Definition told (t : ty) : Prop := safe t = true -> bare t = true ->
  forall a, valid t a -> message t (unread t a) /\ reading t (unread t a) = a.

Definition puts (cs : list (comp ty)) (os : list (option aval)) : list (option val) := zipw put (att unread cs) os.

Lemma puts_app cs ds os : (List.length cs <= List.length os)%nat ->
  puts (cs ++ ds) os = puts cs os ++ puts ds (skipn (List.length cs) os).
Proof.
  unfold puts. revert os. induction cs as [|c cs IH]; intros os L; [reflexivity|]. destruct os as [|o os]; [cbn in L; lia|].
  cbn [app att map zipw List.length skipn]. f_equal. apply IH. cbn in L. lia.
Qed.

Lemma puts_length cs os : (List.length cs <= List.length os)%nat -> List.length (puts cs os) = List.length cs.
Proof. intros L. unfold puts. rewrite zipw_len_short; rewrite att_length; auto. Qed.

Lemma skip_app {A} (l m : list A) n : List.length l = n -> skipn n (l ++ m) = m.
Proof. intros <-. now rewrite skipn_app, skipn_all, Nat.sub_diag. Qed.

Lemma roots_told cs : forall os rest, Forall (fun c => told (cty c)) cs -> Forall (fun c => safe (cty c) = true) cs ->
  Forall (fun c => bare (cty c) = true) cs -> Forall (fun c => safe_root c = true) cs ->
  (List.length cs <= List.length os)%nat -> all_of (zipw val_root (att valid cs) os) ->
  all_of (zipw msg_root (att message cs) (puts cs os ++ rest)) /\
  zipw read_root (att reading cs) (puts cs os ++ rest) = firstn (List.length cs) os.
Proof.
  induction cs as [|c cs IH]; intros os rest T Sf Ba S L V; [split; [apply all_of_nil|reflexivity]|].
  destruct os as [|o os]; [cbn in L; lia|]. inversion T; inversion Sf; inversion Ba; inversion S; subst.
  cbn [att map zipw] in V. apply all_of_cons in V as (V & Vs).
  destruct (IH os rest) as (M & E); auto; [cbn in L; lia|]. unfold puts, att in *. cbn [map zipw app List.length firstn].
  rewrite all_of_cons. unfold safe_root in *.
  match goal with X : safe_default c && _ = true |- _ => apply andb_true_iff in X as (_ & So) end.
  unfold val_root in V. cbn [fst snd] in V. unfold put at 1 3. cbn [snd]. destruct o as [a|]; cbn [option_map].
  - match goal with X : told (cty c) |- _ => destruct (X ltac:(assumption) ltac:(assumption) a V) as (Ma & Ra) end.
    split; [split; [exact Ma|exact M]|]. f_equal; [|exact E]. unfold read_root. cbn [fst snd slot_get]. cbv zeta. rewrite Ra.
    unfold is_mandatory in So. destruct (cpres c); auto. cbn [orb] in So. now rewrite (proj2 (solid_message _ So _ Ma)).
  - split; [split; [|exact M]|].
    + unfold msg_root. cbn [fst]. congruence.
    + f_equal; [|exact E]. unfold read_root. cbn [fst snd slot_get]. cbv zeta. unfold is_mandatory in So.
      rewrite V in *. cbn [orb] in So. unfold present. now rewrite (solid_fresh _ So).
Qed.

Lemma adds_told cs : forall os rest, Forall (fun c => told (cty c)) cs -> Forall (fun c => safe (cty c) = true) cs ->
  Forall (fun c => bare (cty c) = true) cs -> Forall (fun c => safe_add c = true) cs ->
  Forall (fun c => negb (is_defaulted c) = true) cs ->
  (List.length cs <= List.length os)%nat -> all_of (zipw val_add (att valid cs) os) ->
  all_of (zipw msg_add (att message cs) (puts cs os ++ rest)) /\
  zipw read_ext (att reading cs) (puts cs os ++ rest) = firstn (List.length cs) os /\
  zipw has_flag cs (puts cs os ++ rest) = zipw add_flag cs os /\
  zipw has cs (puts cs os ++ rest) = map given (firstn (List.length cs) os).
Proof.
  induction cs as [|c cs IH]; intros os rest T Sf Ba S ND L V; [repeat split; apply all_of_nil|].
  destruct os as [|o os]; [cbn in L; lia|]. inversion T; inversion Sf; inversion Ba; inversion S; inversion ND; subst.
  cbn [att map zipw] in V. apply all_of_cons in V as (V & Vs).
  destruct (IH os rest) as (M & E & F & Hh); auto; [cbn in L; lia|]. unfold puts, att in *. cbn [map zipw app List.length firstn].
  rewrite all_of_cons, E, F, Hh.
  assert (Gv : has c (put (c, unread (cty c)) o) = given o).
  { unfold put, has. destruct o; [reflexivity|]. cbn [option_map given]. now apply negb_true_iff. }
  assert (Ms : msg_add (c, message (cty c)) (put (c, unread (cty c)) o)).
  { unfold val_add in V. unfold msg_add, put. cbn [fst snd] in *. destruct o as [a|]; [|exact Logic.I]. cbn [option_map].
    match goal with X : told (cty c) |- _ => now destruct (X ltac:(assumption) ltac:(assumption) a V) as (Ma & Ra) end. }
  split; [split; [exact Ms|exact M]|]. unfold has_flag, add_flag. rewrite Gv. split; [|split; reflexivity]. f_equal.
  match goal with X : safe_add c = true |- _ => destruct (add_present c _ X Ms) as (P & _ & _) end.
  unfold read_ext. cbn [fst snd]. cbv zeta. rewrite P, Gv. unfold put. cbn [snd]. unfold val_add in V. cbn [snd] in V.
  destruct o as [a|]; cbn [given option_map slot_get]; [|reflexivity]. f_equal.
  match goal with X : told (cty c) |- _ => now destruct (X ltac:(assumption) ltac:(assumption) a V) as (Ma & Ra) end.
Qed.

Lemma root_val_add cs os : all_of (zipw val_root (att valid cs) os) -> all_of (zipw val_add (att valid cs) os).
Proof.
  revert os. induction cs as [|c cs IH]; intros [|o os] V; [apply all_of_nil..|]. cbn [att map zipw] in *.
  apply all_of_cons in V as (V & Vs). rewrite all_of_cons. split; [|apply IH; exact Vs]. unfold val_root, val_add in *. destruct o; auto.
Qed.

Lemma none_val_add cs os : any_given (firstn (List.length cs) os) = false -> all_of (zipw val_add (att valid cs) os).
Proof.
  revert os. induction cs as [|c cs IH]; intros [|o os] N; [apply all_of_nil..|]. cbn [att map zipw List.length firstn] in *.
  unfold any_given in N. cbn [existsb] in N. apply orb_false_iff in N as (N & Ns). rewrite all_of_cons. split; [|now apply IH].
  destruct o; [discriminate|exact Logic.I].
Qed.

Lemma none_firstn {A B C} (cs : list B) (f : B -> C) (os : list (option A)) : (List.length cs <= List.length os)%nat ->
  any_given (firstn (List.length cs) os) = false -> firstn (List.length cs) os = map (fun _ => None) cs.
Proof.
  revert os. induction cs as [|c cs IH]; intros [|o os] L N; try reflexivity; [cbn in L; lia|]. cbn [List.length firstn map] in *.
  unfold any_given in N. cbn [existsb] in N. apply orb_false_iff in N as (N & Ns). f_equal; [now destruct o|].
  apply IH; [lia|exact Ns].
Qed.

Lemma existsb_map {A} (f : A -> bool) l : existsb (fun b => b) (map f l) = existsb f l.
Proof. induction l as [|x l IH]; [reflexivity|]. cbn [map existsb]. now rewrite IH. Qed.

Lemma groups_told gs : forall os, Forall (Forall (fun c => told (cty c))) gs ->
  Forall (Forall (fun c => safe (cty c) = true)) gs -> Forall (Forall (fun c => bare (cty c) = true)) gs ->
  Forall (Forall (fun c => safe_add c = true)) gs -> Forall (Forall (fun c => negb (is_defaulted c) = true)) gs ->
  List.length os = List.length (List.concat gs) -> val_groups (map (att valid) gs) os ->
  msg_groups (map (att message) gs) (puts (List.concat gs) os) /\
  read_groups (map (att reading) gs) (puts (List.concat gs) os) = os /\
  has_flags gs (puts (List.concat gs) os) = add_flags gs os.
Proof.
  induction gs as [|g gs IH]; intros os T Sf Ba S ND L V.
  { destruct os; [|discriminate]. repeat split. }
  inversion T; inversion Sf; inversion Ba; inversion S; inversion ND; subst.
  cbn [map val_groups msg_groups read_groups has_flags add_flags List.concat] in *. rewrite !att_length in *.
  rewrite app_length in L. destruct V as (V & Vs). rewrite puts_app by lia.
  rewrite skip_app by (apply puts_length; lia).
  destruct (IH (skipn (List.length g) os)) as (M & E & F); auto; [rewrite skipn_length; lia|]. rewrite E, F.
  set (rest := puts (List.concat gs) (skipn (List.length g) os)) in *.
  assert (VA : all_of (zipw val_add (att valid g) os)).
  { destruct (any_given (firstn (List.length g) os)) eqn:AG; [now apply root_val_add, V|now apply none_val_add]. }
  destruct (adds_told g os rest) as (MA & _ & _ & Hh); auto; [lia|].
  assert (AH : any_has g (puts g os ++ rest) = any_given (firstn (List.length g) os)).
  { unfold any_has. rewrite Hh. apply existsb_map. }
  assert (SR : Forall (fun c => safe_root c = true) g).
  { match goal with X : Forall (fun c => safe_add c = true) g |- _ => eapply Forall_impl; [|exact X] end.
    intros c. apply add_root. }
  unfold msg_group, read_group. rewrite !map_fst_att, (group_has g), AH by assumption. split; [|split; [|reflexivity]].
  - split; [|exact M]. split; [exact MA|]. intros AG. apply roots_told; auto. lia.
  - transitivity (firstn (List.length g) os ++ skipn (List.length g) os); [|apply firstn_skipn]. f_equal.
    destruct (any_given (firstn (List.length g) os)) eqn:AG.
    + apply roots_told; auto. lia.
    + unfold att. rewrite map_map. symmetry. apply (none_firstn g (fun x => x)); [lia|exact AG].
Qed.

Theorem values_told t : told t.
Proof.
  induction t using ty_rect'; intros Sf Ba x V; try (destruct x; try contradiction; split; [exact V|reflexivity]).
  - cbn [safe_by] in Sf. repeat (apply andb_true_iff in Sf as (Sf & ?)).
    cbn [bare] in Ba. repeat (apply andb_true_iff in Ba as (Ba & ?)).
    repeat match goal with X : _ && _ = true |- _ => apply andb_true_iff in X as (X & ?) end.
    destruct x as [| | | | | |l| |]; try contradiction. cbn [valid] in V. cbv zeta in V.
    destruct V as (L & V1 & V2 & V3 & N1 & N2).
    repeat match goal with X : forallb (forallb _) _ = true |- _ => apply forallb_Forall2 in X end.
    repeat match goal with X : forallb _ _ = true |- _ => apply forallb_Forall in X end.
    cbn [unread message reading slots_list]. cbv zeta. rewrite all_att. fold (puts (all_comps r a g) l).
    assert (Lp : List.length (puts (all_comps r a g) l) = ncomps r a g) by (apply puts_length; unfold ncomps in L; lia).
    unfold ncomps, all_comps in L. rewrite !app_length in L.
    rewrite Lp. unfold all_comps. rewrite (puts_app r) by lia. rewrite (puts_app a) by (rewrite skipn_length; lia).
    set (l2 := skipn (List.length r) l) in *. set (l3 := skipn (List.length a) l2) in *.
    assert (E3 : skipn (List.length r + List.length a) l = l3) by (unfold l3, l2; now rewrite skip_skip).
    rewrite E3 in *. assert (L2 : List.length l2 = (List.length a + List.length (List.concat g))%nat) by (unfold l2; rewrite skipn_length; lia).
    assert (L3 : List.length l3 = List.length (List.concat g)) by (unfold l3; rewrite skipn_length; lia).
    assert (P1 : List.length (puts r l) = List.length r) by (apply puts_length; lia).
    assert (P2 : List.length (puts a l2) = List.length a) by (apply puts_length; lia).
    rewrite <- (skip_skip _ (List.length a) (List.length r)), (skip_app (puts r l) _ _ P1), (skip_app (puts a l2) _ _ P2).
    destruct (roots_told r l (puts a l2 ++ puts (List.concat g) l3)) as (M1 & R1); auto; [lia|].
    destruct (adds_told a l2 (puts (List.concat g) l3)) as (M2 & R2 & F2 & _); auto; [lia|].
    destruct (groups_told g l3) as (M3 & R3 & F3); auto.
    rewrite R1, R2, R3, F2, F3. split; [auto 10|]. f_equal. unfold l3, l2. now rewrite !firstn_skipn.
  - destruct x as [| | | | | | |l|]; try contradiction. cbn [safe_by bare valid unread message reading] in *.
    apply andb_true_iff in Sf as (_ & Sf). destruct V as (A & V). rewrite all_of_forall, Forall_forall in V. split.
    + split; [unfold zlen; rewrite map_length; exact A|]. apply all_of_forall, Forall_forall. intros v I0.
      apply in_map_iff in I0 as (y & <- & Iy). now apply IHt; auto.
    + f_equal. rewrite map_map. rewrite <- (map_id l) at 2. apply map_ext_in. intros y Iy. now apply IHt; auto.
  - cbn [safe_by] in Sf. apply andb_true_iff in Sf as (Sf & S3). apply three_all in S3. cbn [bare] in Ba. apply three_all in Ba.
    pose proof (all_three _ r a g H H0 H1) as HA. rewrite Forall_forall in S3, Ba, HA.
    cbn [valid] in V. destruct x as [| | | | | | | |[(i & w)|]]; try contradiction. rewrite all_att in V.
    destruct (nth_error (att valid (all_comps r a g)) i) as [ca|] eqn:Ci; [|contradiction].
    apply nth_att in Ci as (c & Ci & ->). cbn [snd] in V. pose proof (nth_error_In _ _ Ci) as Ic.
    destruct (HA c Ic (S3 c Ic) (Ba c Ic) w V) as (M & E).
    cbn [unread]. rewrite all_att, (att_nth unread _ i c Ci). cbn [snd message reading].
    rewrite !all_att, (att_nth message _ i c Ci), (att_nth reading _ i c Ci). cbn [snd]. rewrite E. auto.
Qed.

End Values.

(** * Every value can be sent, and whatever X.691 sends is understood *)

(** The checks of the schema. *)
Definition trusted (t : ty) : bool := safe t && standard t && limited t && bare t.

(** Every value of the type is that of an object, which is encoded as X.691 says. *)
Theorem C70_every_value : forall t a, trusted t = true -> valid t a ->
  exists v bs, reading t v = a /\ encode t v = Ok bs /\ forall bs', PER t a bs' <-> bs' = bs.
Proof.
  unfold trusted. intros t a T V. repeat (apply andb_true_iff in T as (T & ?)).
  destruct (values_told t T ltac:(assumption) a V) as (M & E).
  destruct (C69_limited t (unread t a)) as (bs & v' & En & P & _); auto. rewrite E in P. eauto.
Qed.

(** Whatever octets X.691 has for a value, they are read as that value. *)
Theorem C70_any_sender : forall t a bs, trusted t = true -> valid t a -> PER t a bs ->
  exists v, decode bs t = Ok v /\ reading t v = a.
Proof.
  unfold trusted. intros t a bs T V P. repeat (apply andb_true_iff in T as (T & ?)).
  destruct (values_told t T ltac:(assumption) a V) as (M & E).
  destruct (C69_limited t (unread t a)) as (bs0 & v' & En & Q & Dd & Rd); auto. rewrite E in Q, Rd.
  apply Q in P. subst bs0. eauto.
Qed.

(** No two values of the type have the same octets. *)
Theorem C70_no_confusion : forall t a b bs, trusted t = true -> valid t a -> valid t b -> PER t a bs -> PER t b bs -> a = b.
Proof.
  intros t a b bs T Va Vb Pa Pb. destruct (C70_any_sender t a bs T Va Pa) as (v & Dv & Rv).
  destruct (C70_any_sender t b bs T Vb Pb) as (w & Dw & Rw). congruence.
Qed.

(** * Every message has one of these values *)

Section Honest.
Context {rule : constr -> bool}.
Local Notation safe := (safe_by rule).

Definition honest (t : ty) : Prop := safe t = true -> forall v, message t v -> valid t (reading t v).

Lemma roots_honest cs : forall ss rest, Forall (fun c => honest (cty c)) cs -> Forall (fun c => safe (cty c) = true) cs ->
  Forall (fun c => safe_root c = true) cs -> (List.length cs <= List.length ss)%nat ->
  all_of (zipw msg_root (att message cs) ss) ->
  all_of (zipw val_root (att valid cs) (zipw read_root (att reading cs) ss ++ rest)) /\
  map given (zipw read_root (att reading cs) ss) = zipw has cs ss.
Proof.
  induction cs as [|c cs IH]; intros ss rest T Sf S L M; [split; [apply all_of_nil|reflexivity]|].
  destruct ss as [|s ss]; [cbn in L; lia|]. inversion T; inversion Sf; inversion S; subst. unfold att in *. cbn [map zipw app] in *.
  rewrite all_of_cons in *. destruct M as (M & Ms). destruct (IH ss rest) as (V & G0); auto; [cbn in L; lia|]. split; [split; [|exact V]|].
  - unfold safe_root in *. match goal with X : safe_default c && _ = true |- _ => apply andb_true_iff in X as (Sd & So) end.
    unfold val_root, read_root, msg_root in *. cbn [fst snd] in *. cbv zeta. destruct s as [v|]; cbn [slot_get].
    + match goal with X : honest (cty c) |- _ => pose proof (X ltac:(assumption) v M) as Vv end.
      destruct (cpres c); auto. destruct (present (cty c) v); auto.
    + destruct (cpres c) as [| |d] eqn:P; [congruence| |].
      * unfold is_mandatory in So. rewrite P in So. cbn [orb] in So. unfold present. now rewrite (solid_fresh _ So).
      * unfold safe_default in Sd. rewrite P in Sd. apply andb_true_iff in Sd as (F & _). apply fits_message in F as (_ & F).
        match goal with X : honest (cty c) |- _ => exact (X ltac:(assumption) d F) end.
  - f_equal; [|exact G0]. match goal with X : safe_root c = true |- _ => pose proof (root_read c s X M) as RR end.
    destruct (read_root _ s) as [x|]; cbn [given]; destruct (has c s); auto.
    + destruct (proj1 RR); [eauto|reflexivity].
    + destruct (proj2 RR eq_refl) as (x & Ex). discriminate.
Qed.

Lemma adds_honest cs : forall ss rest, Forall (fun c => honest (cty c)) cs -> Forall (fun c => safe (cty c) = true) cs ->
  Forall (fun c => safe_add c = true) cs -> (List.length cs <= List.length ss)%nat ->
  all_of (zipw msg_add (att message cs) ss) ->
  all_of (zipw val_add (att valid cs) (zipw read_ext (att reading cs) ss ++ rest)) /\
  zipw add_flag cs (zipw read_ext (att reading cs) ss ++ rest) = zipw has_flag cs ss.
Proof.
  induction cs as [|c cs IH]; intros ss rest T Sf S L M; [split; [apply all_of_nil|reflexivity]|].
  destruct ss as [|s ss]; [cbn in L; lia|]. inversion T; inversion Sf; inversion S; subst. unfold att in *. cbn [map zipw app] in *.
  rewrite all_of_cons in *. destruct M as (M & Ms). destruct (IH ss rest) as (V & G0); auto; [cbn in L; lia|].
  match goal with X : safe_add c = true |- _ => destruct (add_present c s X M) as (P & _ & W) end.
  split; [split; [|exact V]|].
  - unfold val_add, read_ext. cbn [fst snd]. cbv zeta. rewrite P. destruct (has c s) eqn:Hs; [|exact Logic.I].
    match goal with X : honest (cty c) |- _ => exact (X ltac:(assumption) _ (proj1 (W eq_refl))) end.
  - rewrite G0. f_equal. unfold add_flag, has_flag, read_ext. cbn [fst snd]. cbv zeta. rewrite P. now destruct (has c s).
Qed.

Lemma groups_honest gs : forall ss, Forall (Forall (fun c => honest (cty c))) gs ->
  Forall (Forall (fun c => safe (cty c) = true)) gs -> Forall (Forall (fun c => safe_add c = true)) gs ->
  (List.length (List.concat gs) <= List.length ss)%nat -> msg_groups (map (att message) gs) ss ->
  val_groups (map (att valid) gs) (read_groups (map (att reading) gs) ss) /\
  add_flags gs (read_groups (map (att reading) gs) ss) = has_flags gs ss /\
  List.length (read_groups (map (att reading) gs) ss) = List.length (List.concat gs).
Proof.
  induction gs as [|g gs IH]; intros ss T Sf S L M; [repeat split|].
  inversion T; inversion Sf; inversion S; subst.
  cbn [map val_groups msg_groups read_groups has_flags add_flags List.concat] in *. rewrite !att_length in *.
  rewrite app_length in *. destruct M as ((MA & MR) & M). rewrite map_fst_att in MR.
  destruct (IH (skipn (List.length g) ss)) as (V & F & Le); auto; [rewrite skipn_length; lia|].
  set (rest := read_groups (map (att reading) gs) (skipn (List.length g) ss)) in *.
  assert (SR : Forall (fun c => safe_root c = true) g).
  { match goal with X : Forall (fun c => safe_add c = true) g |- _ => eapply Forall_impl; [|exact X] end. intros c. apply add_root. }
  unfold read_group. rewrite !map_fst_att, (group_has g) by assumption.
  set (mine := if any_has g ss then zipw read_root (att reading g) ss else map (fun _ => None) (att reading g)).
  assert (Lg : List.length mine = List.length g).
  { unfold mine. destruct (any_has g ss); [rewrite zipw_len_short; rewrite att_length; [reflexivity|lia]|]. now rewrite map_length, att_length. }
  assert (Fg : firstn (List.length g) (mine ++ rest) = mine).
  { rewrite <- Lg, firstn_app, Nat.sub_diag, firstn_all. cbn [firstn]. now rewrite app_nil_r. }
  rewrite (skip_app mine rest _ Lg), Fg, F, app_length, Lg, Le.
  assert (AG : any_given mine = any_has g ss /\ (any_has g ss = true -> all_of (zipw val_root (att valid g) (mine ++ rest)))).
  { unfold mine. destruct (any_has g ss) eqn:AH.
    - destruct (roots_honest g ss rest) as (VR & GR); auto; [lia|]. split; [|auto].
      unfold any_given. rewrite <- existsb_map, GR. exact AH.
    - split; [|discriminate]. unfold any_given. clear. induction (att reading g); auto. }
  destruct AG as (AG & VR). rewrite AG. split; [split; [exact VR|exact V]|split; reflexivity].
Qed.

Lemma messages_honest t : honest t.
Proof.
  induction t using ty_rect'; intros Sf v M; try (destruct v; try contradiction; exact M).
  - cbn [safe_by] in Sf. repeat (apply andb_true_iff in Sf as (Sf & ?)).
    repeat match goal with X : _ && _ = true |- _ => apply andb_true_iff in X as (X & ?) end.
    destruct v as [| | | | | |slots| |]; try contradiction. cbn [message] in M. cbv zeta in M.
    destruct M as (L & M1 & M2 & M3 & N1 & N2).
    repeat match goal with X : forallb (forallb _) _ = true |- _ => apply forallb_Forall2 in X end.
    repeat match goal with X : forallb _ _ = true |- _ => apply forallb_Forall in X end.
    cbn [reading valid]. cbv zeta. set (ss := slots_list (ncomps r a g) slots) in *.
    unfold ncomps, all_comps in L |- *. rewrite !app_length in L |- *.
    set (s2 := skipn (List.length r) ss) in *.
    assert (L2 : List.length s2 = (List.length a + List.length (List.concat g))%nat) by (unfold s2; rewrite skipn_length; lia).
    rewrite <- (skip_skip ss (List.length a) (List.length r)) in *. fold s2 in M3, N2 |- *. set (s3 := skipn (List.length a) s2) in *.
    assert (L3 : List.length s3 = List.length (List.concat g)) by (unfold s3; rewrite skipn_length; lia).
    assert (P1 : List.length (zipw read_root (att reading r) ss) = List.length r).
    { rewrite zipw_len_short; rewrite att_length; [reflexivity|lia]. }
    assert (P2 : List.length (zipw read_ext (att reading a) s2) = List.length a).
    { rewrite zipw_len_short; rewrite att_length; [reflexivity|lia]. }
    destruct (groups_honest g s3) as (V3 & F3 & P3); auto; [lia|].
    destruct (adds_honest a s2 (read_groups (map (att reading) g) s3)) as (V2 & F2); auto; [lia|].
    destruct (roots_honest r ss (zipw read_ext (att reading a) s2 ++ read_groups (map (att reading) g) s3)) as (V1 & _); auto; [lia|].
    rewrite <- (skip_skip _ (List.length a) (List.length r)), (skip_app _ _ _ P1), (skip_app _ _ _ P2), F2, F3.
    split; [rewrite P1, P2, P3, !app_length; reflexivity|]. auto.
  - destruct v as [| | | | | | |vs|]; try contradiction. cbn [safe_by message reading valid] in *.
    apply andb_true_iff in Sf as (_ & Sf). destruct M as (A & M). rewrite all_of_forall, Forall_forall in M.
    split; [unfold zlen; rewrite map_length; exact A|]. apply all_of_forall, Forall_forall. intros y Iy.
    apply in_map_iff in Iy as (w & <- & Iw). now apply IHt; auto.
  - cbn [safe_by] in Sf. apply andb_true_iff in Sf as (Sf & S3). apply three_all in S3.
    pose proof (all_three _ r a g H H0 H1) as HA. rewrite Forall_forall in S3, HA.
    cbn [message] in M. destruct v as [| | | | | | | |[(i & w)|]]; try contradiction. rewrite all_att in M.
    destruct (nth_error (att message (all_comps r a g)) i) as [ca|] eqn:Ci; [|contradiction].
    apply nth_att in Ci as (c & Ci & ->). cbn [snd] in M. pose proof (nth_error_In _ _ Ci) as Ic.
    cbn [reading]. rewrite all_att, (att_nth reading _ i c Ci). cbn [valid snd]. rewrite all_att, (att_nth valid _ i c Ci).
    exact (HA c Ic (S3 c Ic) w M).
Qed.

End Honest.

Theorem C70_messages_valid : forall t v, safe t = true -> message t v -> valid t (reading t v).
Proof. intros t v Sf. exact (messages_honest t Sf v). Qed.

(** ** A case *)

Definition packet_reading : aval :=
  ASeq [Some (AInt 200); Some (AOcts [0; 1; 2; 3]); Some (ABits [true; false]); Some (AEnum 2);
    Some (ASeqOf []); None; Some (AChoice (Some (1%nat, AInt 3))); None].

Example C70_case : trusted packet = true /\ valid packet packet_reading /\
  PER packet packet_reading [224; 200; 0; 1; 2; 3; 32; 160; 0; 20; 1; 96].
Proof.
  assert (T : trusted packet = true) by (vm_compute; reflexivity). destruct C69_case as (Sf & Li & St & M).
  assert (V := C70_messages_valid packet packet_value Sf M). change (reading packet packet_value) with packet_reading in V.
  split; [exact T|]. split; [exact V|].
  destruct (C69_limited packet packet_value Sf Li St M) as (bs & v' & E & P & _). apply P.
  rewrite (proj2 (proj2 (proj2 C68_case))) in E. injection E as <-. reflexivity.
Qed.

(** ** The rule is needed *)

(** With a DEFAULT in an addition group, what an older sender says is misread, and
    what was read cannot be sent on. *)
Definition newer : ty :=
  TSeq true [Comp "a" Mand TBool] []
    [[Comp "b" (Dflt (VInt 5)) (TInt (CRange false (Some 0) (Some 7))); Comp "c" Mand TBool]].

Theorem C70_bare_needed : safe newer && standard newer && limited newer = true /\
  exists a bs v, valid newer a /\ PER newer a bs /\ decode bs newer = Ok v /\ reading newer v <> a /\
  encode newer v = Err PyAsn1Error.
Proof.
  split; [vm_compute; reflexivity|].
  exists (ASeq [Some (ABool true); None; None]), [64], (VSeq (Some [Some (VBool true); None; None])).
  split; [|split; [|split; [vm_compute; reflexivity|split; [vm_compute; discriminate|vm_compute; reflexivity]]]].
  - unfold newer. cbn [valid]. cbv zeta. split; [reflexivity|]. split; [intros p [<-|[]]; exact Logic.I|].
    split; [intros p []|]. split; [split; [discriminate|exact Logic.I]|]. split; [exact Logic.I|].
    split; [intros (x & [] & _)|exact Logic.I].
  - exists [false; true]. split.
    + exists [Some (ABool true)], ([None; None] ++ []). split; [reflexivity|]. left. exists [false], [true].
      split; [|split; [intros [X|[]]; discriminate|split; [reflexivity|]]].
      * apply a_group_absent; [reflexivity| |constructor]. repeat constructor.
      * exists [], [true]. split; [reflexivity|]. change [true] with ([true] ++ [] : bits).
        apply r_mand; [reflexivity|reflexivity|]. apply r_nil.
    + apply (complete_some _ 6); [discriminate|lia|repeat constructor; lia|reflexivity].
Qed.
