(** Which exceptions encode and decode raise (property C59). *)
From Coq Require Import ZArith List String Bool Lia.
From Coq Require Import ZifyBool ZifyNat.
Import ListNotations.
From Verif Require Import PyBase Schema Encoder Decoder BitFacts Prims Stream Spec SimpleTypes RoundTrip Constraints Valid Exact Inflation.
Open Scope Z_scope.

(** * What is documented *)

(** The exceptions encoder.py declares (13-30) and pyasn1's own. *)
Definition documented (e : exn) : bool :=
  match e with
  | MandatoryExtensionFieldNotPresent _ | MandatoryFieldNotPresentInExtensionGroup _
  | SizeConstrainViolated | InvalidComponentIndexIntoStructuredType | PyAsn1Error => true
  | _ => false
  end.

(** * Types a module can hold and objects a program can build *)

Definition ordered (c : constr) : Prop := forall l h, clo c = Some l -> chi c = Some h -> l <= h.

(** Objects of a type, set or unset, complete or not: what assignments through
    pyasn1 give. *)
Inductive made : ty -> val -> Prop :=
| made_unset t : is_simple t = true -> made t VUnset
| made_bool b : made TBool (VBool b)
| made_int c z : sat c z -> made (TInt c) (VInt z)
| made_enum ext root adds z : In z (root ++ adds) -> made (TEnum ext root adds) (VEnum z)
| made_bits c s : sat c (zlen s) -> made (TBits c) (VBits s)
| made_octs c bs : sat c (zlen bs) -> Forall octet bs -> made (TOcts c) (VOcts bs)
| made_seq_new ext root adds groups : made (TSeq ext root adds groups) (VSeq None)
| made_seq ext root adds groups ss :
    List.length ss = List.length (root ++ adds ++ List.concat groups) ->
    (forall i c v, nth_error (root ++ adds ++ List.concat groups) i = Some c ->
       nth_error ss i = Some (Some v) -> made (cty c) v) ->
    made (TSeq ext root adds groups) (VSeq (Some ss))
| made_seqof c t vs : (forall v, In v vs -> made t v) -> made (TSeqOf c t) (VSeqOf vs)
| made_choice_new ext root adds groups : made (TChoice ext root adds groups) (VChoice None)
| made_choice ext root adds groups i c v :
    nth_error (root ++ adds ++ List.concat groups) i = Some c -> made (cty c) v ->
    made (TChoice ext root adds groups) (VChoice (Some (i, v))).

(** A DEFAULT value is an object of the component's type. *)
Definition default_made (c : comp ty) : Prop :=
  match cpres c with Dflt d => made (cty c) d | _ => True end.

(** Constraints with one marker for the whole or none, end points in order,
    items and alternatives in the root, distinct names, groups with components. *)
Fixpoint sane (t : ty) : Prop :=
  match t with
  | TBool => True
  | TInt c | TBits c | TOcts c => regular c /\ ordered c
  | TEnum _ root adds => root <> [] /\ Forall (fun z => 0 <= z) (root ++ adds)
  | TSeqOf c t' => ordered c /\ sane t'
  | TSeq _ r a g =>
      NoDup (map cname (r ++ a ++ List.concat g)) /\ Forall (fun x => x <> []) g /\
      Forall default_made (r ++ a ++ List.concat g) /\
      all_of (map (fun c => sane (cty c)) r) /\
      all_of (map (fun c => sane (cty c)) a) /\
      all_of (List.concat (map (map (fun c => sane (cty c))) g))
  | TChoice _ r a g =>
      r <> [] /\ NoDup (map cname (r ++ a ++ List.concat g)) /\
      all_of (map (fun c => sane (cty c)) r) /\
      all_of (map (fun c => sane (cty c)) a) /\
      all_of (List.concat (map (map (fun c => sane (cty c))) g))
  end.

(** DEFAULT is used on simple types only. *)
Definition default_simple (c : comp ty) : Prop :=
  match cpres c with Dflt _ => is_simple (cty c) = true | _ => True end.

(** Where an end point is compared it is a number. *)
Definition ends (c : constr) : Prop := cext c = true -> clo c <> None /\ chi c <> None.

Fixpoint strict (t : ty) : Prop :=
  match t with
  | TBool | TEnum _ _ _ => True
  | TInt c => ends c
  | TBits c | TOcts c => ends c /\ (chi c <> None -> clo c <> None)
  | TSeqOf c t' => ends c /\ clo c <> None /\ strict t'
  | TSeq _ r a g =>
      Forall default_simple (r ++ a ++ List.concat g) /\
      all_of (map (fun c => strict (cty c)) r) /\
      all_of (map (fun c => strict (cty c)) a) /\
      all_of (List.concat (map (map (fun c => strict (cty c))) g))
  | TChoice _ r a g =>
      all_of (map (fun c => strict (cty c)) r) /\
      all_of (map (fun c => strict (cty c)) a) /\
      all_of (List.concat (map (map (fun c => strict (cty c))) g))
  end.

(** What encode raises; [b]: also on types that are not strict. *)
Definition encode_fault (b : bool) (e : exn) : bool :=
  documented e ||
  match e with
  | RaiseNotImplemented => true
  | PyTypeError | PyAttributeError => b
  | _ => false
  end.

(** What decode raises. *)
Definition decode_fault (e : exn) : bool :=
  match e with
  | PyAsn1Error | RaiseNotImplemented | PyTypeError | PyValueError | PyIndexError => true
  | _ => false
  end.

(** * Encoding *)

Section Encoding.
Variable b : bool.

Definition may {A} (r : res A) : Prop := forall e, r = Err e -> encode_fault b e = true.

Lemma may_ok {A} (a : A) : may (Ok a).
Proof. intros e [=]. Qed.

Lemma may_err {A} e : encode_fault b e = true -> may (@Err A e).
Proof. intros H e' [= <-]. exact H. Qed.

Lemma may_bind {A B} (r : res A) (k : A -> res B) : may r -> (forall a, r = Ok a -> may (k a)) -> may (bind r k).
Proof. intros M N. destruct r as [a|e]; cbn [bind]; [now apply N|]. intros e' [= <-]. now apply M. Qed.

Lemma may_bind' {A B} (r : res A) (k : A -> res B) : may r -> (forall a, may (k a)) -> may (bind r k).
Proof. intros M N. apply may_bind; auto. Qed.

Lemma may_need o : (b = false -> o <> None) -> may (need o).
Proof.
  intros N. destruct o; [apply may_ok|]. apply may_err. unfold encode_fault. cbn [documented orb].
  destruct b; [reflexivity|]. now destruct N.
Qed.

Lemma bin_some z : 0 <= z -> exists s, py_bin z = Ok s.
Proof. intros Hz. rewrite py_bin_ok by exact Hz. eauto. Qed.

Lemma sized_some z sz : 0 <= z -> exists s, encode_non_negative_sized z sz = Ok s.
Proof.
  intros Hz. unfold encode_non_negative_sized, py_format_b. destruct (bin_some z Hz) as (s & ->). cbn [bind]. eauto.
Qed.

Lemma cwn_some n l u : l <= u -> l <= n -> exists f, encode_constrained_whole_number n l u = Ok f /\
  (65536 < u - l + 1 -> 1 <= octets_of (fbits f)).
Proof.
  intros LU LN. unfold encode_constrained_whole_number. cbv zeta.
  destruct (bit_field_size_ok (u - l + 1)) as (sz & ->); [lia|]. cbn [bind].
  destruct (Z.eqb_spec (u - l + 1) 1); [eexists; split; [reflexivity|lia]|].
  destruct (sized_some (n - l) sz ltac:(lia)) as (s & ->). cbn [bind].
  destruct (Z.leb_spec (u - l + 1) 255); [eexists; split; [reflexivity|lia]|].
  destruct (Z.eqb_spec (u - l + 1) 256); [eexists; split; [reflexivity|lia]|].
  destruct ((257 <=? u - l + 1) && (u - l + 1 <=? 65536)) eqn:E; [eexists; split; [reflexivity|lia]|].
  rewrite min_octets_ok by lia. cbn [bind]. eexists. split; [reflexivity|]. intros _. cbn [fbits].
  unfold octets_of. rewrite to_bits_length. pose proof (noct_pos (n - l)).
  replace (8 * noct (n - l))%nat with (noct (n - l) * 8)%nat by lia. rewrite Nat.div_mul by lia. lia.
Qed.

Lemma cfl_some n l u : l <= u -> l <= n ->
  exists fs, create_field_list_for_constrained_whole_number n (Some l) (Some u) = Ok fs.
Proof.
  intros LU LN. unfold create_field_list_for_constrained_whole_number. cbn [need bind].
  destruct (cwn_some n l u LU LN) as (f & -> & F). cbn [bind].
  destruct (Z.leb_spec (integer_range l u) 65536) as [|G]; [eauto|]. unfold integer_range in G.
  rewrite range_octet_ok by lia. cbn [bind]. unfold length_constrained. cbn [need bind].
  destruct (cwn_some (octets_of (fbits f)) 1 (Z.of_nat (Nat.max 3 (noct (u - l))))) as (d & -> & _);
    [lia|now apply F|]. cbn [bind]. eauto.
Qed.

Lemma may_some {A} (r : res A) : (exists a, r = Ok a) -> may r.
Proof. intros (a & ->). apply may_ok. Qed.

Lemma may_ni {A} : may (@Err A RaiseNotImplemented).
Proof. now apply may_err. Qed.

Lemma may_lu n : 0 <= n -> may (length_unconstrained n).
Proof.
  intros N. unfold length_unconstrained. destruct (n <=? 127); [|destruct ((127 <? n) && (n <=? 16384)); [|apply may_ni]].
  - destruct (sized_some n (0, 7)%nat N) as (s & ->). apply may_ok.
  - destruct (sized_some n (1, 6)%nat N) as (s & ->). apply may_ok.
Qed.

Lemma may_ns n : 0 <= n -> may (encode_normally_small n 0).
Proof.
  intros N. unfold encode_normally_small. destruct (n <=? 63).
  - destruct (sized_some n (0, 6)%nat N) as (s & ->). apply may_ok.
  - unfold encode_semi_constrained_whole_number. rewrite min_octets_ok by lia. cbn [bind].
    apply may_bind'; [apply may_lu; unfold octets_of; lia|]. intros d. apply may_ok.
Qed.

Lemma may_lc n lo hi : (b = false -> lo <> None /\ hi <> None) ->
  (forall l h, lo = Some l -> hi = Some h -> l <= h /\ l <= n) -> may (length_constrained n lo hi).
Proof.
  intros N O. unfold length_constrained. apply may_bind; [apply may_need, N|]. intros u U.
  apply may_bind; [apply may_need, N|]. intros l L. destruct hi as [h|]; [|discriminate]. destruct lo as [k|]; [|discriminate].
  injection U as <-. injection L as <-. destruct (O k h eq_refl eq_refl).
  destruct (cwn_some n k h) as (f & -> & _); auto. apply may_ok.
Qed.

Lemma unc_some z : exists fs, create_field_list_for_unconstrained_whole_number z = Ok fs.
Proof.
  unfold create_field_list_for_unconstrained_whole_number. rewrite twos_octet_ok. cbn [bind].
  rewrite twos_ok by (try apply toct_le; auto using toct_pos). cbn [bind]. unfold py_format_b.
  destruct (bin_some (Z.of_nat (toct z)) ltac:(lia)) as (s & ->). cbn [bind]. eauto.
Qed.

Lemma chain_true lo n hi : chain_le lo n hi = Ok true -> exists l h, lo = Some l /\ hi = Some h /\ l <= n <= h.
Proof.
  unfold chain_le. destruct lo as [l|]; [|discriminate]. cbn [need bind].
  destruct (Z.leb_spec l n); [|discriminate]. destruct hi as [h|]; [|discriminate]. cbn [need bind].
  intros [= E]. exists l, h. repeat split; auto. lia.
Qed.

Lemma may_chain lo n hi : (b = false -> lo <> None /\ hi <> None) -> may (chain_le lo n hi).
Proof.
  intros N. unfold chain_le. apply may_bind'; [apply may_need, N|]. intros l. destruct (l <=? n); [|apply may_ok].
  apply may_bind'; [apply may_need, N|]. intros h. apply may_ok.
Qed.

Lemma may_integer c z : regular c -> ordered c -> (b = false -> ends c) -> sat c z -> may (encode_integer c z).
Proof.
  intros RC OC EC SZ. unfold encode_integer. destruct (cext c) eqn:X.
  - apply may_bind; [apply may_chain; intros E; now apply (EC E)|]. intros r Er. destruct r.
    + apply chain_true in Er as (l & h & -> & -> & V). destruct (cfl_some z l h) as (fs & ->); [lia|lia|]. apply may_ok.
    + destruct (unc_some z) as (fs & ->). apply may_ok.
  - apply ctest_sat in SZ. destruct (regular_ends c z RC SZ X) as (A & B). unfold ordered in OC.
    destruct (clo c) as [l|]; [destruct (chi c) as [h|]|].
    + cbn [Exact.above Exact.below] in *. apply may_some, cfl_some; auto.
    + cbn [Exact.above] in A. unfold encode_semi_constrained_whole_number. rewrite min_octets_ok by lia. cbn [bind].
      apply may_bind'; [apply may_lu; unfold octets_of; lia|]. intros d. apply may_ok.
    + apply may_some, unc_some.
Qed.

Lemma zindex_some z l : In z l -> exists n, zindex z l = Ok n /\ 0 <= n.
Proof.
  induction l as [|x l IH]; intros I; [destruct I|]. cbn [zindex].
  destruct (Z.eqb_spec x z) as [|N]; [exists 0; split; [reflexivity|lia]|].
  destruct I as [->|I]; [contradiction|]. destruct (IH I) as (n & -> & P). cbn [bind]. exists (n + 1). split; [reflexivity|lia].
Qed.

Lemma zlen_pos {A} (l : list A) : l <> [] -> 1 <= zlen l.
Proof. destruct l; [contradiction|]. intros _. unfold zlen. cbn [List.length]. lia. Qed.

Lemma may_enumerated ext root adds z : root <> [] -> Forall (fun z => 0 <= z) (root ++ adds) -> In z (root ++ adds) ->
  may (encode_enumerated ext root adds z).
Proof.
  intros NE FA I. assert (P : 0 <= z) by (rewrite Forall_forall in FA; now apply FA).
  unfold encode_enumerated. destruct ext; cbn [negb].
  - destruct (existsb (Z.eqb z) root) eqn:X.
    + pose proof (zlen_pos root NE). destruct (cfl_some z 0 (zlen root - 1)) as (fs & ->); [lia|lia|]. apply may_ok.
    + assert (J : In z adds).
      { apply in_app_iff in I as [I|I]; [|exact I]. exfalso. rewrite (proj2 (existsb_exists (Z.eqb z) root)) in X; [discriminate|].
        exists z. split; [exact I|lia]. }
      destruct (zindex_some z adds J) as (n & -> & N). cbn [bind]. apply may_bind'; [now apply may_ns|]. intros fs. apply may_ok.
  - assert (NA : root ++ adds <> []) by (destruct root; [contradiction|discriminate]).
    pose proof (zlen_pos _ NA). apply may_some, cfl_some; lia.
Qed.

Lemma some_eq_inv lo hi : some_eq lo hi = true -> exists l, lo = Some l /\ hi = Some l.
Proof. destruct lo as [l|], hi as [h|]; try discriminate. cbn [some_eq]. intros E. exists l. split; [reflexivity|f_equal; lia]. Qed.

Lemma truthy_some o : truthy o = true -> o <> None.
Proof. destruct o; discriminate. Qed.

Lemma as_binary_length s : zlen s <= zlen (as_binary s).
Proof. destruct s; unfold zlen; cbn; lia. Qed.

Lemma may_bits c s : regular c -> ordered c -> (b = false -> ends c /\ (chi c <> None -> clo c <> None)) ->
  sat c (zlen s) -> may (encode_bitstring c s).
Proof.
  intros RC OC EC SZ. unfold encode_bitstring. cbv zeta. set (n := zlen (as_binary s)).
  assert (N : 0 <= n) by (unfold n, zlen; lia).
  assert (AF : forall e, (forall l h, clo c = Some l -> chi c = Some h -> l <= n) ->
    may (if opt_is (chi c) 0 then Ok None
         else if some_eq (clo c) (chi c) then
           if n <=? 16 then Ok (Some (opt_field e ++ [F false (as_binary s)]))
           else if (16 <? n) && (n <? 65536) then Ok (Some (opt_field e ++ [F true (as_binary s)]))
           else Err RaiseNotImplemented
         else if truthy (chi c) && lt65536 (chi c) then
           let* det := length_constrained n (clo c) (chi c) in
           Ok (Some (opt_field e ++ det ++ [F true (as_binary s)]))
         else
           let* det := length_unconstrained n in
           Ok (Some (opt_field e ++ det ++ [F true (as_binary s)])))).
  { intros e LN. destruct (opt_is (chi c) 0); [apply may_ok|]. destruct (some_eq (clo c) (chi c)).
    { destruct (n <=? 16); [apply may_ok|]. destruct ((16 <? n) && (n <? 65536)); [apply may_ok|apply may_ni]. }
    destruct (truthy (chi c)) eqn:T; cbn [andb].
    - destruct (lt65536 (chi c)).
      + apply may_bind'; [|intros d; apply may_ok]. apply may_lc.
        * intros E. apply truthy_some in T. split; [now apply (EC E)|exact T].
        * intros l h L U. split; [now apply OC|now apply (LN l h)].
      + apply may_bind'; [now apply may_lu|]. intros d. apply may_ok.
    - apply may_bind'; [now apply may_lu|]. intros d. apply may_ok. }
  destruct (cext c) eqn:X.
  - apply may_bind; [apply may_chain; intros E; now apply (EC E)|]. intros r Er. destruct r.
    + apply AF. apply chain_true in Er as (l & h & L & U & V). intros l' h' L' U'. rewrite L in L'. injection L' as <-. lia.
    + apply may_bind'; [now apply may_lu|]. intros d. apply may_ok.
  - apply AF. intros l h L U. apply ctest_sat in SZ. destruct (regular_ends c _ RC SZ X) as (A & _).
    rewrite L in A. cbn [Exact.above] in A. pose proof (as_binary_length s). unfold n. lia.
Qed.

Lemma may_octs c bs : regular c -> ordered c -> (b = false -> ends c /\ (chi c <> None -> clo c <> None)) ->
  sat c (zlen bs) -> Forall octet bs -> may (encode_octetstring c bs).
Proof.
  intros RC OC EC SZ FO. unfold encode_octetstring. rewrite octets_bits_ok by exact FO. cbn [bind].
  rewrite octets_of_obits. set (n := zlen bs). set (s := obits bs).
  assert (N : 0 <= n) by (unfold n, zlen; lia).
  assert (AF : forall e, (forall l h, clo c = Some l -> chi c = Some h -> l <= n) ->
    may (if opt_is (chi c) 0 then Ok None
         else if some_eq (clo c) (chi c) then
           if n <=? 2 then Ok (Some (opt_field e ++ [F false s]))
           else if (2 <? n) && (n <? 65536) then Ok (Some (opt_field e ++ [F true s]))
           else Err RaiseNotImplemented
         else if truthy (chi c) then
           let* det := length_constrained n (clo c) (chi c) in
           Ok (Some (opt_field e ++ det ++ [F true s]))
         else
           let* det := length_unconstrained n in
           Ok (Some (opt_field e ++ det ++ [F true s])))).
  { intros e LN. destruct (opt_is (chi c) 0); [apply may_ok|]. destruct (some_eq (clo c) (chi c)).
    { destruct (n <=? 2); [apply may_ok|]. destruct ((2 <? n) && (n <? 65536)); [apply may_ok|apply may_ni]. }
    destruct (truthy (chi c)) eqn:T.
    - apply may_bind'; [|intros d; apply may_ok]. apply may_lc.
      * intros E. apply truthy_some in T. split; [now apply (EC E)|exact T].
      * intros l h L U. split; [now apply OC|now apply (LN l h)].
    - apply may_bind'; [now apply may_lu|]. intros d. apply may_ok. }
  destruct (cext c) eqn:X.
  - apply may_bind; [apply may_chain; intros E; now apply (EC E)|]. intros r Er. destruct r.
    + apply AF. apply chain_true in Er as (l & h & L & U & V). intros l' h' L' U'. rewrite L in L'. injection L' as <-. lia.
    + apply may_bind'; [now apply may_lu|]. intros d. apply may_ok.
  - apply AF. intros l h L U. apply ctest_sat in SZ. destruct (regular_ends c _ RC SZ X) as (A & _).
    rewrite L in A. exact A.
Qed.

Lemma may_fill r : may r -> may (fill r).
Proof. intros M. unfold fill. apply may_bind'; [exact M|]. intros o. apply may_ok. Qed.

Lemma may_open fs : may (encode_open_type_field fs).
Proof.
  unfold encode_open_type_field. cbv zeta. apply may_bind'; [apply may_lu; unfold octets_of; lia|]. intros d. apply may_ok.
Qed.

Lemma may_seqof c n body : ordered c -> (b = false -> ends c /\ clo c <> None) -> 0 <= n -> may (encode_sequence_of c n body).
Proof.
  intros OC EC N. unfold encode_sequence_of. destruct (cext c) eqn:X.
  - apply may_bind; [apply may_chain; intros E; now apply (EC E)|]. intros r Er. destruct r.
    + apply may_bind'; [|intros d; apply may_ok]. apply chain_true in Er as (l & h & L & U & V). apply may_lc.
      * intros _. rewrite L, U. split; discriminate.
      * intros l' h' L' U'. rewrite L in L'. rewrite U in U'. injection L' as <-. injection U' as <-. lia.
    + apply may_bind'; [now apply may_lu|]. intros d. apply may_ok.
  - apply may_bind; [apply may_need; intros E; now apply (EC E)|]. intros lo L.
    destruct (clo c) as [l|] eqn:Lc; [|discriminate]. injection L as <-.
    destruct (Z.ltb_spec n l); [now apply may_err|].
    destruct (truthy (chi c) && negb (le_opt_r n (chi c))); [now apply may_err|].
    destruct (opt_is (chi c) l && (l <? 65536)); [apply may_ok|].
    destruct (truthy (chi c)) eqn:T.
    + apply may_bind'; [|intros d; apply may_ok]. apply may_lc.
      * intros _. split; [discriminate|now apply truthy_some].
      * intros l' h' [= <-] U'. split; [now apply OC|lia].
    + apply may_bind'; [now apply may_lu|]. intros d. apply may_ok.
Qed.

Lemma may_raw t d v : made t d -> made t v -> (b = false -> is_simple t = true) -> may (raw_ne d v).
Proof.
  intros MD MV ST.
  assert (T : is_simple t = true -> may (raw_ne d v)).
  { intros T. inversion MD; subst; inversion MV; subst; try discriminate; cbn [raw_ne]; try apply may_ok; now apply may_err. }
  destruct b eqn:B; [|apply T, ST, eq_refl].
  destruct (is_simple t) eqn:X; [now apply T|].
  destruct t; try discriminate; inversion MD; subst; inversion MV; subst; try discriminate; cbn [raw_ne]; apply may_err;
    unfold encode_fault; rewrite B; reflexivity.
Qed.

(** ** SEQUENCE *)

Section Seq.
  Variable e : ty -> val -> res (list field).
  Variable look : string -> res val.

  (** What holds of a component: the object under its name is one of its type and
      objects of its type are encoded without other exceptions. *)
  Definition fine (c : comp ty) : Prop :=
    (exists v, look (cname c) = Ok v /\ made (cty c) v) /\
    (forall v, made (cty c) v -> may (e (cty c) v)) /\
    default_made c /\ (b = false -> default_simple c).

  Lemma may_root cs : Forall fine cs -> may (enc_root e look cs).
  Proof.
    induction 1 as [|c cs Hc H IH]; cbn [enc_root]; [apply may_ok|].
    destruct Hc as ((v & -> & Mv) & Ec & Dc & Sc). cbn [bind].
    apply may_bind'; [|intros bf; apply may_bind'; [exact IH|intros r; apply may_ok]].
    unfold default_made, default_simple in *. destruct (cpres c) as [| |d].
    - apply may_bind'; [now apply Ec|]. intros fs. apply may_ok.
    - destruct (is_value (cty c) v && comp_values_ok v); [|apply may_ok].
      apply may_bind'; [now apply Ec|]. intros fs. apply may_ok.
    - apply may_bind'; [now apply (may_raw (cty c))|]. intros ne. destruct ne; [|apply may_ok].
      apply may_bind'; [now apply Ec|]. intros fs. apply may_ok.
  Qed.

  Lemma may_root_fields r : may (root_fields r).
  Proof.
    unfold root_fields. destruct (fst r); [apply may_ok|]. destruct (_ <? _); [apply may_ok|apply may_ni].
  Qed.

  Lemma may_adds cs : Forall fine cs -> forall prev, may (enc_adds e look prev cs).
  Proof.
    induction 1 as [|c cs Hc H IH]; intros prev; cbn [enc_adds]; [apply may_ok|].
    destruct Hc as ((v & -> & Mv) & Ec & Dc & Sc). cbn [bind].
    apply may_bind'; [|intros bf; apply may_bind'; [apply IH|intros r; apply may_ok]].
    destruct (is_value (cty c) v); [|apply may_ok]. destruct (prev_missing prev); [now apply may_err|].
    destruct (comp_values_ok v); [|apply may_ok]. apply may_bind'; [now apply Ec|]. intros fs.
    apply may_bind'; [apply may_open|]. intros o. apply may_ok.
  Qed.

  Lemma may_scan cs : Forall fine cs -> forall prev, may (group_scan look prev cs).
  Proof.
    induction 1 as [|c cs Hc H IH]; intros prev; cbn [group_scan]; [apply may_ok|].
    destruct Hc as ((v & -> & Mv) & _). cbn [bind].
    apply may_bind'; [|intros h; cbv zeta; apply may_bind'; [apply IH|intros r; apply may_ok]].
    destruct (is_value (cty c) v); [|apply may_ok]. destruct (prev_missing prev); [now apply may_err|apply may_ok].
  Qed.

  Lemma scan_nonempty cs prev ps : cs <> [] -> group_scan look prev cs = Ok ps -> ps <> [].
  Proof.
    destruct cs as [|c cs]; [contradiction|]. intros _. cbn [group_scan]. destruct (look (cname c)) as [v|]; [|discriminate].
    cbn [bind]. match goal with |- bind ?x _ = _ -> _ => destruct x as [h|] end; [|discriminate]. cbn [bind]. cbv zeta.
    destruct (group_scan look _ cs) as [r|]; [|discriminate]. cbn [bind]. intros [= <-]. discriminate.
  Qed.

  Lemma may_groups gs : Forall (Forall fine) gs -> Forall (fun g => g <> []) gs ->
    forall prev, (forall pps, prev = Some pps -> pps <> []) -> may (enc_groups e look prev gs).
  Proof.
    induction 1 as [|g gs Hg H IH]; intros NE prev NP; cbn [enc_groups]; [apply may_ok|]. inversion NE; subst.
    apply may_bind; [now apply may_scan|]. intros ps Ep. pose proof (scan_nonempty _ _ _ H2 Ep) as Np.
    apply may_bind'.
    - destruct (existsb ppresent ps); [|apply may_ok]. apply may_bind'.
      + destruct prev as [pps|]; [|apply may_ok]. destruct (existsb _ pps); [apply may_ok|].
        destruct pps as [|p pps]; [now destruct (NP [] eq_refl)|now apply may_err].
      + intros _. apply may_bind'; [now apply may_root|]. intros r. apply may_bind'; [apply may_root_fields|]. intros fs.
        apply may_bind'; [apply may_open|]. intros o. apply may_ok.
    - intros bf. apply may_bind'; [|intros r; apply may_ok]. apply IH; auto. intros pps [= <-]. exact Np.
  Qed.
End Seq.

Lemma made_look r a g ext slots c : NoDup (map cname (r ++ a ++ List.concat g)) ->
  Forall default_made (r ++ a ++ List.concat g) ->
  made (TSeq ext r a g) (VSeq slots) -> In c (r ++ a ++ List.concat g) ->
  exists v, get_by_name (all_comps r a g) slots (cname c) = Ok v /\ made (cty c) v.
Proof.
  intros N DM M I. unfold all_comps. set (cs := r ++ a ++ List.concat g) in *.
  pose proof I as J. apply In_nth_error in J as (i & Ci). unfold get_by_name. rewrite (index_of_nth cs i c N Ci), Ci.
  eexists. split; [reflexivity|].
  assert (F : made (cty c) (slot_get c None)).
  { cbn [slot_get]. rewrite Forall_forall in DM. specialize (DM c I). unfold default_made in DM.
    assert (made (cty c) (fresh (cty c))).
    { destruct (cty c); cbn [fresh]; now constructor. }
    destruct (cpres c); auto. }
  unfold slot_at. inversion M as [| | | | | | |? ? ? ? ss L S| | |]; subst; [exact F|].
  fold cs in L, S. destruct (nth i ss None) as [v|] eqn:E; [|exact F]. cbn [slot_get].
  apply (S i c v Ci). rewrite <- E. apply nth_error_nth'. rewrite L. apply nth_error_Some. congruence.
Qed.

Lemma all_of_forall {A} (f : A -> Prop) l : all_of (map f l) <-> Forall f l.
Proof.
  unfold all_of. rewrite Forall_forall. split.
  - intros H x I. apply H. now apply in_map.
  - intros H p I. apply in_map_iff in I as (x & <- & I). now apply H.
Qed.

Lemma all_of_groups {A} (f : A -> Prop) gs : all_of (List.concat (map (map f) gs)) <-> Forall f (List.concat gs).
Proof. rewrite <- concat_map. apply all_of_forall. Qed.

Lemma forall_concat {A} (f : A -> Prop) gs : Forall f (List.concat gs) <-> Forall (Forall f) gs.
Proof.
  induction gs as [|g gs IH]; cbn [List.concat]; [split; constructor|]. rewrite Forall_app, IH. split.
  - intros (X & Y). now constructor.
  - intros X. inversion X; subst. auto.
Qed.

Theorem enc_may t : sane t -> (b = false -> strict t) -> forall v, made t v -> may (enc t v).
Proof.
  assert (UN : forall A, may (@Err A PyAsn1Error)) by (intros A; now apply may_err).
  induction t using ty_rect'; intros SA ST v M; cbn [enc].
  - inversion M; subst; [apply UN|apply may_ok].
  - cbn [sane strict] in *. inversion M; subst; [apply UN|]. now apply may_integer.
  - cbn [sane strict] in *. inversion M; subst; [apply UN|]. now apply may_enumerated.
  - cbn [sane strict] in *. inversion M; subst; [apply UN|]. now apply may_fill, may_bits.
  - cbn [sane strict] in *. inversion M; subst; [apply UN|]. now apply may_fill, may_octs.
  - cbn [sane strict] in *. destruct SA as (N & NG & DM & SR & SA & SG).
    assert (SS : b = false -> Forall default_simple (r ++ a ++ List.concat g) /\
      Forall (fun c => strict (cty c)) (r ++ a ++ List.concat g)).
    { intros E. destruct (ST E) as (X & Y1 & Y2 & Y3). split; [exact X|].
      rewrite all_of_forall in Y1, Y2. rewrite all_of_groups in Y3. rewrite !Forall_app. auto. }
    rewrite all_of_forall in SR, SA. rewrite all_of_groups in SG.
    assert (exists slots, v = VSeq slots) as (slots & ->) by (inversion M; subst; [discriminate|eauto|eauto]).
    unfold encode_sequence. cbv zeta. set (look := get_by_name (all_comps r a g) slots).
    assert (FI : Forall (fine enc look) (r ++ a ++ List.concat g)).
    { assert (HH : Forall (fun c => sane (cty c) -> (b = false -> strict (cty c)) -> forall v, made (cty c) v -> may (enc (cty c) v))
        (r ++ a ++ List.concat g)) by (rewrite !Forall_app, forall_concat; auto).
      assert (SN : Forall (fun c => sane (cty c)) (r ++ a ++ List.concat g)) by (rewrite !Forall_app; auto).
      apply Forall_forall. intros c I. rewrite Forall_forall in HH, SN. split; [|split; [|split]].
      - now apply (made_look r a g e).
      - apply HH; auto. intros E. destruct (SS E) as (_ & Y). rewrite Forall_forall in Y. now apply Y.
      - rewrite Forall_forall in DM. now apply DM.
      - intros E. destruct (SS E) as (X & _). rewrite Forall_forall in X. now apply X. }
    rewrite !Forall_app, forall_concat in FI. destruct FI as (FR & FA & FG).
    apply may_bind'; [now apply may_root|]. intros x. apply may_bind'; [apply may_root_fields|]. intros rf.
    destruct e; [|apply may_ok]. destruct (isnil a && isnil g); [apply may_ok|].
    apply may_bind'; [now apply may_adds|]. intros y.
    apply may_bind'; [apply may_groups; auto; discriminate|]. intros z.
    destruct (Z.ltb_spec 0 (bval (fst y ++ fst z))) as [P|]; [|apply may_ok].
    apply may_bind'; [|intros d; apply may_ok]. unfold length_normally_small.
    destruct (_ <=? 64); [|apply may_ni].
    destruct (sized_some (zlen (fst y ++ fst z) - 1) (0, 6)%nat) as (s & ->); [|apply may_ok].
    assert (fst y ++ fst z <> []) by (intros E; rewrite E in P; now apply (Z.lt_irrefl 0)).
    pose proof (zlen_pos _ H2). lia.
  - cbn [sane strict] in *. destruct SA as (OC & SA). inversion M; subst; [discriminate|].
    apply may_bind'.
    + assert (X : forall v, In v vs -> may (enc t v)).
      { intros v I. apply IHt; auto. intros E. now apply (ST E). }
      clear - X. induction vs as [|v vs IH]; cbn [enc_list]; [apply may_ok|].
      apply may_bind'; [apply X; now left|]. intros x. apply may_bind'; [apply IH; intros w I; apply X; now right|].
      intros y. apply may_ok.
    + intros body. apply may_seqof; [exact OC| |unfold zlen; lia]. intros E. destruct (ST E) as (X & Y & _). auto.
  - cbn [sane strict] in *. destruct SA as (NR & N & SR & SA & SG).
    rewrite all_of_forall in SR, SA. rewrite all_of_groups in SG.
    inversion M as [| | | | | | | | | |? ? ? ? i c w C Mw]; subst; [discriminate|apply UN|].
    rewrite choice_comps, <- map_app, nth_error_map, C. cbn [option_map].
    apply may_bind'.
    { assert (HH : Forall (fun c => sane (cty c) -> (b = false -> strict (cty c)) -> forall v, made (cty c) v -> may (enc (cty c) v))
        (r ++ a ++ List.concat g)) by (rewrite !Forall_app, forall_concat; auto).
      assert (SN : Forall (fun c => sane (cty c)) (r ++ a ++ List.concat g)) by (rewrite !Forall_app; auto).
      rewrite Forall_forall in HH, SN. apply nth_error_In in C. apply HH; auto.
      intros E. destruct (ST E) as (Y1 & Y2 & Y3). rewrite all_of_forall in Y1, Y2. rewrite all_of_groups in Y3.
      assert (Y : Forall (fun c => strict (cty c)) (r ++ a ++ List.concat g)) by (rewrite !Forall_app; auto).
      rewrite Forall_forall in Y. now apply Y. }
    intros body. apply may_fill. unfold encode_choice. cbv zeta.
    pose proof (zlen_pos r NR) as LP.
    assert (IX : forall i, may (create_field_list_for_constrained_whole_number (Z.of_nat i) (Some 0) (Some (zlen r - 1)))).
    { intros k. apply may_some, cfl_some; lia. }
    destruct e; cbn [negb].
    + destruct (index_of (cname c) r) as [k|] eqn:K.
      * destruct (Nat.eqb _ 1); [apply may_ok|]. apply may_bind'; [apply IX|]. intros x. apply may_ok.
      * destruct (isnil a && isnil g) eqn:X.
        { exfalso. assert (i < List.length r)%nat.
          { apply andb_prop in X as (X1 & X2). destruct a; [|discriminate]. destruct g; [|discriminate].
            cbn [List.concat app] in C. rewrite app_nil_r in C. apply nth_error_Some. congruence. }
          rewrite nth_error_app1 in C by assumption. rewrite map_app in N. apply NoDup_app_l in N.
          rewrite (index_of_nth r i c N C) in K. discriminate. }
        destruct (index_of (cname c) (a ++ List.concat g)) as [k|]; [|apply may_ok].
        apply may_bind'; [apply may_ns; lia|]. intros x. apply may_bind'; [apply may_open|]. intros o. apply may_ok.
    + destruct (Nat.eqb _ 1); [apply may_ok|]. destruct (index_of (cname c) r) as [k|]; [|apply may_ok].
      apply may_bind'; [apply IX|]. intros x. apply may_ok.
Qed.

End Encoding.

(** * Decoding *)

Definition rmay {A} (r : res A) : Prop := forall e, r = Err e -> decode_fault e = true.
Definition dmay {A} (d : D A) : Prop := forall p, rmay (d p).

Lemma dm_ret {A} (a : A) : dmay (ret a).
Proof. intros p e [=]. Qed.
Lemma dm_fail {A} e : decode_fault e = true -> dmay (@fail A e).
Proof. intros H p e' [= <-]. exact H. Qed.
Lemma dm_lift {A} (r : res A) : rmay r -> dmay (lift r).
Proof. intros H p e E. unfold lift in E. destruct r as [a|x]; [discriminate|]. injection E as <-. now apply H. Qed.
Lemma dm_post {A B} (d : D A) (k : A -> D B) (Q : A -> Prop) : dmay d -> post d Q -> (forall a, Q a -> dmay (k a)) ->
  dmay (dbind d k).
Proof.
  intros M P N p e E. unfold dbind in E. destruct (d p) as [[a q]|x] eqn:Ed; [apply (N a (P _ _ _ Ed) q e E)|].
  injection E as <-. now apply (M p).
Qed.
Lemma dm_bind {A B} (d : D A) (k : A -> D B) : dmay d -> (forall a, dmay (k a)) -> dmay (dbind d k).
Proof. intros M N. apply (dm_post d k (fun _ => True)); auto using post_any. Qed.

Lemma dm_per sz al : dmay (per_next sz al).
Proof.
  intros p e E. unfold per_next in E. cbv zeta in E. unfold py_int2 in E. destruct (per_slice _ _ _); [|discriminate].
  injection E as <-. reflexivity.
Qed.

Lemma dm_next {B} sz al (k : Z -> D B) : (forall z, 0 <= z -> dmay (k z)) -> dmay (dbind (per_next sz al) k).
Proof. intros N. eapply dm_post; [apply dm_per|apply post_next_nonneg|exact N]. Qed.

Lemma dm_some {A B} (r : res A) (k : A -> D B) : (exists a, r = Ok a /\ dmay (k a)) -> dmay (dbind (lift r) k).
Proof. intros (a & -> & N) p e E. apply (N p e E). Qed.

Ltac dnext := first [apply dm_next; intros ?z ?Hz | unfold next_bits, next_octets, align; apply dm_next; intros ?z ?Hz].

Lemma dm_nonneg sz al : dmay (decode_non_negative (Some sz) al).
Proof.
  unfold decode_non_negative. dnext. destruct al; [|apply dm_ret]. dnext. apply dm_ret.
Qed.

Lemma dm_cwn l u : l <= u -> dmay (decode_constrained_whole_number l u).
Proof.
  intros LU. unfold decode_constrained_whole_number. cbv zeta. unfold integer_range.
  destruct (bit_field_size_ok (u - l + 1)) as (sz & E); [lia|]. apply dm_some. exists (Some sz). split; [exact E|].
  destruct (_ =? 1); [apply dm_ret|]. destruct (_ <=? 255); [apply dm_bind; [apply dm_nonneg|intros z; apply dm_ret]|].
  destruct (_ =? 256); [dnext; apply dm_bind; [apply dm_nonneg|intros y; apply dm_ret]|].
  destruct (_ && _); [dnext; apply dm_bind; [apply dm_nonneg|intros y; apply dm_ret]|]. now apply dm_fail.
Qed.

Lemma dm_need o : dmay (lift (need o)).
Proof. apply dm_lift. destruct o; intros e [= <-]. reflexivity. Qed.

Lemma post_need o : post (lift (need o)) (fun z => o = Some z).
Proof. apply post_lift. intros z E. destruct o; [|discriminate]. now injection E as ->. Qed.

Lemma dm_lc lo hi : (forall l h, lo = Some l -> hi = Some h -> l <= h) -> dmay (dec_length_constrained lo hi).
Proof.
  intros O. unfold dec_length_constrained. eapply dm_post; [apply dm_need|apply post_need|]. intros u ->.
  eapply dm_post; [apply dm_need|apply post_need|]. intros l ->. apply dm_cwn. now apply O.
Qed.

Lemma dm_lns : dmay dec_length_normally_small.
Proof.
  unfold dec_length_normally_small. dnext. destruct (z =? 0); [|now apply dm_fail].
  apply dm_bind; [apply dm_nonneg|]. intros y. apply dm_ret.
Qed.

Lemma dm_lu : dmay dec_length_unconstrained.
Proof.
  unfold dec_length_unconstrained. dnext. dnext. destruct (_ =? 0); [apply dm_nonneg|].
  dnext. destruct (_ =? 0); [apply dm_nonneg|now apply dm_fail].
Qed.

Lemma dm_cfl lo hi : (forall l h, lo = Some l -> hi = Some h -> l <= h) -> dmay (decode_constrained_from_field_list lo hi).
Proof.
  intros O. unfold decode_constrained_from_field_list. eapply dm_post; [apply dm_need|apply post_need|]. intros u ->.
  eapply dm_post; [apply dm_need|apply post_need|]. intros l ->. specialize (O l u eq_refl eq_refl).
  destruct (_ <=? _); [now apply dm_cwn|]. apply dm_some. rewrite range_octet_ok by lia. eexists. split; [reflexivity|].
  apply dm_bind; [apply dm_lc; intros x y X Y; assert (x = 1) by congruence; assert (y = Z.of_nat (Nat.max 3 (noct (u - l)))) by congruence; lia|]. intros n. dnext. apply dm_ret.
Qed.

Lemma dm_semi l : dmay (decode_semi_constrained l).
Proof. unfold decode_semi_constrained. apply dm_bind; [apply dm_lu|]. intros n. dnext. apply dm_ret. Qed.

Lemma dm_ns l : dmay (decode_normally_small l).
Proof.
  unfold decode_normally_small. dnext. destruct (_ =? 0); [apply dm_nonneg|]. dnext. apply dm_semi.
Qed.

Lemma dm_unc : dmay decode_unconstrained_whole_number.
Proof.
  unfold decode_unconstrained_whole_number. dnext. dnext. apply dm_lift. unfold twos_comp.
  destruct (_ =? 0); [intros e [= <-]; reflexivity|]. destruct (negb _); intros e [=].
Qed.

Lemma dm_mk_int c z : dmay (lift (mk_int c z)).
Proof. apply dm_lift. unfold mk_int. destruct (ctest c z); intros e [= <-]. reflexivity. Qed.
Lemma dm_mk_bits c s : dmay (lift (mk_bits c s)).
Proof. apply dm_lift. unfold mk_bits. destruct (ctest c _); intros e [= <-]. reflexivity. Qed.
Lemma dm_mk_octs c h : dmay (lift (mk_octs c h)).
Proof. apply dm_lift. unfold mk_octs. cbv zeta. destruct (ctest c _); intros e [= <-]. reflexivity. Qed.
Lemma dm_mk_enum r a z : dmay (lift (mk_enum r a z)).
Proof. apply dm_lift. unfold mk_enum. destruct (existsb _ _); intros e [= <-]. reflexivity. Qed.

Lemma dm_integer c : ordered c -> dmay (decode_integer c).
Proof.
  intros O. unfold decode_integer. destruct (cext c).
  - dnext. destruct (negb _).
    + apply dm_bind; [apply dm_unc|]. intros y. apply dm_mk_int.
    + apply dm_bind; [now apply dm_cfl|]. intros y. apply dm_mk_int.
  - unfold ordered in O. destruct (clo c) as [l|]; [destruct (chi c) as [h|]|].
    + destruct (l =? h); [apply dm_mk_int|]. apply dm_bind; [now apply dm_cfl|]. intros y. apply dm_mk_int.
    + apply dm_bind; [apply dm_semi|]. intros y. apply dm_mk_int.
    + apply dm_bind; [apply dm_unc|]. intros y. apply dm_mk_int.
Qed.

Lemma dm_enumerated ext r a : r <> [] -> dmay (decode_enumerated ext r a).
Proof.
  intros NE. unfold decode_enumerated. pose proof (zlen_pos r NE). destruct ext; cbn [negb].
  - dnext. destruct (_ =? 0).
    + apply dm_bind; [apply dm_cwn; lia|]. intros y. apply dm_mk_enum.
    + apply dm_bind; [apply dm_ns|]. intros y. apply dm_mk_enum.
  - apply dm_bind; [apply dm_cwn|]. 2: { intros y. apply dm_mk_enum. }
    unfold zlen in *. rewrite app_length. lia.
Qed.

Lemma dm_bits_tail c v n : 0 <= v -> dmay (do s <- lift (bin_zfill v n); lift (mk_bits c s)).
Proof.
  intros V. apply dm_some. unfold bin_zfill. destruct (bin_some v V) as (s & ->). cbn [bind]. eexists. split; [reflexivity|].
  apply dm_mk_bits.
Qed.

Lemma dm_bits_tail' c v n k : 0 <= v -> dmay (do s <- lift (bin_zfill v n); lift (mk_bits c (firstn k s))).
Proof.
  intros V. apply dm_some. unfold bin_zfill. destruct (bin_some v V) as (s & ->). cbn [bind]. eexists. split; [reflexivity|].
  apply dm_mk_bits.
Qed.

Lemma dm_octs_tail c v n : 0 <= v -> dmay (do s <- lift (hex_zfill v n); lift (mk_octs c s)).
Proof.
  intros V. apply dm_some. unfold hex_zfill. destruct (py_hex_spec v V) as (h & -> & _). cbn [bind]. eexists. split; [reflexivity|].
  apply dm_mk_octs.
Qed.

Lemma dm_octs_raw c v : 0 <= v -> dmay (do s <- lift (py_hex v); lift (mk_octs c s)).
Proof.
  intros V. apply dm_some. destruct (py_hex_spec v V) as (h & E & _). exists h. split; [exact E|]. apply dm_mk_octs.
Qed.

Lemma dm_bitstring c : ordered c -> dmay (decode_bitstring c).
Proof.
  intros O. unfold decode_bitstring. cbv zeta.
  match goal with |- dmay (if _ then dbind _ (fun z => if _ then ?x else _) else _) => assert (AF : dmay x) end.
  { destruct (opt_is (chi c) 0); [apply dm_ret|]. destruct (some_eq (clo c) (chi c)).
    - apply dm_bind; [apply dm_need|]. intros l. destruct (l <=? 16); [dnext; now apply dm_bits_tail|].
      destruct (_ && _); [|now apply dm_fail]. dnext. dnext. now apply dm_bits_tail'.
    - destruct (_ && _).
      + apply dm_bind; [now apply dm_lc|]. intros n. dnext. now apply dm_bits_tail.
      + apply dm_bind; [apply dm_lu|]. intros n. dnext. now apply dm_bits_tail. }
  destruct (cext c); [|exact AF]. dnext. destruct (_ =? 0); [exact AF|]. dnext. apply dm_bind; [apply dm_lu|]. intros n.
  dnext. dnext. now apply dm_bits_tail.
Qed.

Lemma dm_octetstring c : ordered c -> dmay (decode_octetstring c).
Proof.
  intros O. unfold decode_octetstring. cbv zeta.
  match goal with |- dmay (if _ then dbind _ (fun z => if _ then ?x else _) else _) => assert (AF : dmay x) end.
  { destruct (opt_is (chi c) 0); [apply dm_ret|]. destruct (some_eq (clo c) (chi c)).
    - apply dm_bind; [apply dm_need|]. intros l. destruct (l <=? 2); [dnext; now apply dm_octs_tail|].
      destruct (_ && _); [|now apply dm_fail]. dnext. dnext. now apply dm_octs_tail.
    - destruct (truthy _).
      + apply dm_bind; [now apply dm_lc|]. intros n. destruct (n =? 0); [apply dm_mk_octs|]. dnext. now apply dm_octs_raw.
      + dnext. apply dm_bind; [apply dm_lu|]. intros n. dnext. now apply dm_octs_tail. }
  destruct (cext c); [|exact AF]. dnext. destruct (_ =? 0); [exact AF|]. dnext. apply dm_bind; [apply dm_lu|]. intros n.
  destruct (n =? 0); [apply dm_mk_octs|]. dnext. now apply dm_octs_tail.
Qed.

(** Only strings are decoded to ''. *)
Definition typed (t : ty) (d : dval) : Prop :=
  match d with
  | DEmpty => match t with TBits _ | TOcts _ => True | _ => False end
  | DVal v => made t v
  end.

Lemma rm_cast t d : typed t d -> rmay (cast t d).
Proof.
  intros T. destruct d as [v|]; [intros e [=]|]. destruct t; try contradiction; cbn [cast];
    destruct (ctest _ 0); intros e [= <-]; reflexivity.
Qed.

Lemma cast_made t d v : typed t d -> cast t d = Ok v -> made t v.
Proof.
  intros T E. destruct d as [w|]; [injection E as <-; exact T|]. destruct t as [| | |c|c| | |]; try contradiction; cbn [cast] in E;
    destruct (ctest c 0) eqn:C; try discriminate; injection E as <-; constructor; [|..].
  - now apply ctest_sat.
  - now apply ctest_sat.
  - constructor.
Qed.

Lemma typed_mk_int c z : post (lift (mk_int c z)) (typed (TInt c)).
Proof.
  apply post_lift. intros d E. unfold mk_int in E. destruct (ctest c z) eqn:C; [|discriminate]. injection E as <-.
  constructor. now apply ctest_sat.
Qed.
Lemma typed_mk_bits c s : post (lift (mk_bits c s)) (typed (TBits c)).
Proof.
  apply post_lift. intros d E. unfold mk_bits in E. destruct (ctest c _) eqn:C; [|discriminate]. injection E as <-.
  constructor. now apply ctest_sat.
Qed.

Lemma from_hex_octets h : Forall hexdigit h -> Forall octet (from_hex_string h).
Proof.
  assert (K : forall n h, (List.length h <= n)%nat -> Forall hexdigit h -> Forall octet (from_hex_string h)).
  { unfold hexdigit, octet. induction n; intros [|x [|y r]] L F; cbn [from_hex_string List.length] in *; try lia; try constructor.
    - inversion F; subst. lia.
    - constructor.
    - inversion F as [|? ? Hx F']; subst. inversion F' as [|? ? Hy F'']; subst. lia.
    - inversion F as [|? ? Hx F']; subst. inversion F' as [|? ? Hy F'']; subst. apply IHn; [lia|exact F'']. }
  intros F. now apply (K (List.length h) h).
Qed.

Lemma typed_mk_octs c h : Forall hexdigit h -> post (lift (mk_octs c h)) (typed (TOcts c)).
Proof.
  intros F. apply post_lift. intros d E. unfold mk_octs in E. cbv zeta in E. destruct (ctest c _) eqn:C; [|discriminate].
  injection E as <-. constructor; [now apply ctest_sat|now apply from_hex_octets].
Qed.
Lemma typed_mk_enum ext r a z : post (lift (mk_enum r a z)) (typed (TEnum ext r a)).
Proof.
  apply post_lift. intros d E. unfold mk_enum in E. destruct (existsb _ _) eqn:C; [|discriminate]. injection E as <-.
  constructor. apply existsb_exists in C as (x & I & X). apply Z.eqb_eq in X. now subst.
Qed.

Ltac pnext := eapply post_bind; [apply post_next_nonneg|]; intros ?v ?Hv; cbv beta in *.

Lemma typed_tail c v n : 0 <= v -> post (do s <- lift (hex_zfill v n); lift (mk_octs c s)) (typed (TOcts c)).
Proof.
  intros V. eapply post_bind; [apply post_lift; intros h E; exact (hex_zfill_digits v n h V E)|].
  intros h F. now apply typed_mk_octs.
Qed.

Lemma typed_raw c v : 0 <= v -> post (do s <- lift (py_hex v); lift (mk_octs c s)) (typed (TOcts c)).
Proof.
  intros V. destruct (py_hex_spec v V) as (h & E & F & _). rewrite E.
  eapply post_bind with (Q := fun x => Forall hexdigit x); [apply post_lift; intros x [= <-]; exact F|].
  intros x X. now apply typed_mk_octs.
Qed.

Lemma typed_octs c : post (decode_octetstring c) (typed (TOcts c)).
Proof.
  assert (NX : forall n al, post (per_next (n, 0%nat) al) (fun z => 0 <= z)) by (intros; apply post_next_nonneg).
  unfold decode_octetstring. cbv zeta.
  match goal with |- post (if _ then dbind _ (fun z => if _ then ?x else _) else _) _ => assert (AF : post x (typed (TOcts c))) end.
  { destruct (opt_is (chi c) 0); [now apply post_ret|]. destruct (some_eq (clo c) (chi c)).
    - apply post_bind'. intros l. destruct (l <=? 2); [pnext; now apply typed_tail|].
      destruct (_ && _); [|now apply post_fail]. apply post_bind'. intros _. pnext. now apply typed_tail.
    - destruct (truthy _).
      + apply post_bind'. intros n. destruct (n =? 0); [now apply typed_mk_octs|]. pnext. now apply typed_raw.
      + apply post_bind'. intros _. apply post_bind'. intros n. pnext. now apply typed_tail. }
  destruct (cext c); [|exact AF]. apply post_bind'. intros z. destruct (z =? 0); [exact AF|].
  apply post_bind'. intros _. apply post_bind'. intros n.
  destruct (n =? 0); [now apply typed_mk_octs|]. pnext. now apply typed_tail.
Qed.

Lemma typed_bits c : post (decode_bitstring c) (typed (TBits c)).
Proof.
  unfold decode_bitstring. cbv zeta.
  pst; try apply typed_mk_bits; now apply post_ret.
Qed.

Lemma typed_integer c : post (decode_integer c) (typed (TInt c)).
Proof. unfold decode_integer. pst; apply typed_mk_int. Qed.

Lemma typed_enum e r a : post (decode_enumerated e r a) (typed (TEnum e r a)).
Proof. unfold decode_enumerated. pst; apply typed_mk_enum. Qed.

Lemma rm_init h : Forall hexdigit h -> rmay (per_init h).
Proof.
  intros F e E. unfold per_init, py_int16 in E. destruct h as [|x h]; [injection E as <-; reflexivity|].
  pose proof (hval_range _ F) as V. cbn [bind] in E. rewrite py_bin_ok in E by lia. discriminate.
Qed.

Lemma dm_open {A} (d : D A) : dmay d -> dmay (decode_open_type_field d).
Proof.
  intros M. unfold decode_open_type_field. apply dm_bind; [apply dm_lu|]. intros n. dnext.
  apply dm_some. unfold hex_zfill. destruct (py_hex_spec z Hz) as (h & -> & F & _). cbn [bind]. eexists. split; [reflexivity|].
  apply dm_bind; [apply dm_lift, rm_init; now apply hzfill_spec|]. intros p q e E.
  destruct (d p) as [[x y]|x] eqn:Ed; [discriminate|]. injection E as <-. now apply (M p).
Qed.

(** Decoding objects of a type: the exceptions listed, or an object of it. *)
Definition works (d : D dval) (t : ty) : Prop := dmay d /\ post d (typed t).

Definition froms (cs : list (comp ty)) (l : list assign) : Prop :=
  forall nm v, In (nm, v) l -> exists c, In c cs /\ cname c = nm /\ made (cty c) v.

Lemma froms_nil cs : froms cs [].
Proof. intros nm v []. Qed.
Lemma froms_app cs l m : froms cs l -> froms cs m -> froms cs (l ++ m).
Proof. intros X Y nm v I. apply in_app_iff in I as [I|I]; auto. Qed.
Lemma froms_incl cs cs' l : (forall c, In c cs -> In c cs') -> froms cs l -> froms cs' l.
Proof. intros N X nm v I. destruct (X nm v I) as (c & Hc & Y). exists c. auto. Qed.

Lemma take_works (d : D dval) (c : comp ty) : works d (cty c) ->
  dmay (do x <- d; do v <- lift (cast (cty c) x); ret [(cname c, v)]) /\
  post (do x <- d; do v <- lift (cast (cty c) x); ret [(cname c, v)]) (froms [c]).
Proof.
  intros (M & P). split.
  - eapply dm_post; [exact M|exact P|]. intros x T. apply dm_bind; [now apply dm_lift, rm_cast|]. intros v. apply dm_ret.
  - eapply post_bind; [exact P|]. intros x T. eapply post_bind; [apply post_lift; intros v E; exact (cast_made _ _ _ T E)|].
    intros v V. apply post_ret. intros nm w [[= <- <-]|[]]. exists c. split; [now left|auto].
Qed.

Lemma open_works d t : works d t -> works (decode_open_type_field d) t.
Proof. intros (M & P). split; [now apply dm_open|now apply post_open]. Qed.

Section Dec.
  Variable dec : ty -> D dval.
  Definition doing (c : comp ty) : Prop := works (dec (cty c)) (cty c).

  Lemma root_works cs : Forall doing cs -> forall bm, dmay (dec_root dec cs bm) /\ post (dec_root dec cs bm) (froms cs).
  Proof.
    induction 1 as [|c cs Hc H IH]; intros bm; cbn [dec_root].
    { split; [apply dm_ret|apply post_ret, froms_nil]. }
    destruct (take_works (dec (cty c)) c Hc) as (T1 & T2).
    assert (J : forall x y, froms [c] x -> froms cs y -> froms (c :: cs) (x ++ y)).
    { intros x y X Y. apply froms_app; [eapply froms_incl; [|exact X]|eapply froms_incl; [|exact Y]]; intros k Hk; cbn in *; tauto. }
    destruct (is_mandatory c).
    - split.
      + apply dm_bind; [exact T1|]. intros x. apply dm_bind; [apply IH|]. intros y. apply dm_ret.
      + eapply post_bind; [exact T2|]. intros x X. eapply post_bind; [apply IH|]. intros y Y. apply post_ret. now apply J.
    - destruct bm as [|k bm]; [split; [now apply dm_fail|apply post_fail]|]. split.
      + apply dm_bind; [destruct k; [exact T1|apply dm_ret]|]. intros x. apply dm_bind; [apply IH|]. intros y. apply dm_ret.
      + apply post_bind with (Q := froms [c]); [destruct k; [exact T2|apply post_ret, froms_nil]|].
        intros x X. eapply post_bind; [apply IH|]. intros y Y. apply post_ret. now apply J.
  Qed.

  Lemma root_part_works cs : Forall doing cs -> dmay (dec_root_part dec cs) /\ post (dec_root_part dec cs) (froms cs).
  Proof.
    intros F. unfold dec_root_part. cbv zeta. destruct (Nat.eqb _ 0); [now apply root_works|].
    destruct (_ <? 65536); [|split; [now apply dm_fail|apply post_fail]]. split.
    - dnext. apply dm_some. unfold bin_zfill. destruct (bin_some z Hz) as (s & ->). cbn [bind].
      eexists. split; [reflexivity|]. now apply root_works.
    - do 2 (apply post_bind'; intros ?). now apply root_works.
  Qed.

  Lemma adds_works cs : Forall doing cs -> forall bm, dmay (dec_adds dec cs bm) /\ post (dec_adds dec cs bm) (froms cs).
  Proof.
    induction 1 as [|c cs Hc H IH]; intros [|k bm]; cbn [dec_adds]; try (split; [apply dm_ret|apply post_ret, froms_nil]).
    destruct (take_works _ c (open_works _ _ Hc)) as (T1 & T2). split.
    - apply dm_bind; [destruct k; [exact T1|apply dm_ret]|]. intros x. apply dm_bind; [apply IH|]. intros y. apply dm_ret.
    - apply post_bind with (Q := froms [c]); [destruct k; [exact T2|apply post_ret, froms_nil]|].
      intros x X. eapply post_bind; [apply IH|]. intros y Y. apply post_ret.
      apply froms_app; [eapply froms_incl; [|exact X]|eapply froms_incl; [|exact Y]]; intros j Hj; cbn in *; tauto.
  Qed.

  Lemma groups_works gs : Forall (Forall doing) gs ->
    forall bm, dmay (dec_groups dec gs bm) /\ post (dec_groups dec gs bm) (froms (List.concat gs)).
  Proof.
    induction 1 as [|g gs Hg H IH]; intros [|k bm]; cbn [dec_groups List.concat];
      try (split; [apply dm_ret|apply post_ret, froms_nil]).
    destruct (root_part_works g Hg) as (T1 & T2). split.
    - apply dm_bind; [destruct k; [now apply dm_open|apply dm_ret]|]. intros x. apply dm_bind; [apply IH|]. intros y. apply dm_ret.
    - apply post_bind with (Q := froms g); [destruct k; [now apply post_open|apply post_ret, froms_nil]|].
      intros x X. eapply post_bind; [apply IH|]. intros y Y. apply post_ret.
      apply froms_app; [eapply froms_incl; [|exact X]|eapply froms_incl; [|exact Y]]; intros j Hj; apply in_app_iff; auto.
  Qed.
End Dec.

Lemma rm_assign cs l : forall ss, rmay (assign_all cs ss l).
Proof.
  induction l as [|(nm & v) l IH]; intros ss; cbn [assign_all]; [intros e [=]|].
  destruct (index_of nm cs); [apply IH|]. intros e [= <-]. reflexivity.
Qed.

Lemma assign_made ext r a g l slots : NoDup (map cname (r ++ a ++ List.concat g)) -> froms (r ++ a ++ List.concat g) l ->
  assign_all (all_comps r a g) None l = Ok slots -> made (TSeq ext r a g) (VSeq slots).
Proof.
  intros N F E. unfold all_comps in E.
  destruct (assign_all_inv _ l N None slots ltac:(discriminate) E) as [(-> & ->)|(ss & -> & L & P1 & _)]; constructor; [exact L|].
  intros i c v C V. destruct (P1 i c v C V) as [I|(s0 & [=] & _)]. destruct (F _ _ I) as (c' & I' & E1 & V').
  assert (c' = c) as ->; [|exact V']. eapply NoDup_name_eq; eauto. eapply nth_error_In; eauto.
Qed.

Lemma n_works (d : D dval) t n : works d t ->
  dmay (dec_n (do x <- d; lift (cast t x)) n) /\
  post (dec_n (do x <- d; lift (cast t x)) n) (fun vs => forall v, In v vs -> made t v).
Proof.
  intros (M & P). assert (M1 : dmay (do x <- d; lift (cast t x))).
  { eapply dm_post; [exact M|exact P|]. intros x T. now apply dm_lift, rm_cast. }
  assert (P1 : post (do x <- d; lift (cast t x)) (made t)).
  { eapply post_bind; [exact P|]. intros x T. apply post_lift. intros v E. exact (cast_made _ _ _ T E). }
  induction n as [|n (I1 & I2)]; cbn [dec_n]; [split; [apply dm_ret|apply post_ret; intros v []]|]. split.
  - apply dm_bind; [exact M1|]. intros v. apply dm_bind; [exact I1|]. intros vs. apply dm_ret.
  - eapply post_bind; [exact P1|]. intros v V. eapply post_bind; [exact I2|]. intros vs W. apply post_ret.
    intros w [<-|I]; auto.
Qed.

Lemma dm_seqof_len c : ordered c -> dmay (dec_seqof_len c).
Proof.
  intros O. unfold dec_seqof_len. destruct (cext c).
  - dnext. destruct (z =? 0); [now apply dm_lc|]. dnext. apply dm_lu.
  - assert (X : dmay (if truthy (chi c) then dec_length_constrained (clo c) (chi c) else dec_length_unconstrained))
      by (destruct (truthy (chi c)); [now apply dm_lc|apply dm_lu]).
    destruct (clo c), (chi c); try exact X; [|now apply dm_fail].
    destruct (_ && _); [apply dm_ret|exact X].
Qed.

Lemma forall_sub (P : ty -> Prop) (cs : list (comp ty)) : Forall (fun c => sane (cty c) -> P (cty c)) cs ->
  Forall (fun c => sane (cty c)) cs -> Forall (fun c => P (cty c)) cs.
Proof. rewrite !Forall_forall. auto. Qed.

Theorem dec_works t : sane t -> works (dec t) t.
Proof.
  induction t using ty_rect'; intros SA; cbn [dec].
  - split; [unfold decode_boolean; dnext; apply dm_ret|]. unfold decode_boolean. apply post_bind'. intros b. apply post_ret. constructor.
  - split; [apply dm_integer, SA|apply typed_integer].
  - split; [apply dm_enumerated, SA|apply typed_enum].
  - split; [apply dm_bitstring, SA|apply typed_bits].
  - split; [apply dm_octetstring, SA|apply typed_octs].
  - cbn [sane] in SA. destruct SA as (N & _ & _ & SR & SA & SG).
    rewrite all_of_forall in SR, SA. rewrite all_of_groups in SG.
    pose proof (forall_sub (fun t => works (dec t) t) r H SR) as WR.
    pose proof (forall_sub (fun t => works (dec t) t) a H0 SA) as WA.
    rewrite <- forall_concat in H1. pose proof (forall_sub (fun t => works (dec t) t) _ H1 SG) as WG. rewrite forall_concat in WG.
    clear H H0 H1 SR SA SG. unfold decode_sequence.
    destruct (root_part_works dec r WR) as (R1 & R2). split.
    + apply dm_bind; [destruct e; [unfold next_bits; apply dm_per|apply dm_ret]|]. intros x.
      apply dm_bind; [exact R1|]. intros l. apply dm_bind.
      * destruct (negb _); [|apply dm_ret]. apply dm_bind; [apply dm_lns|]. intros n. dnext.
        apply dm_some. unfold bin_zfill. destruct (bin_some z Hz) as (s & ->). cbn [bind].
        eexists. split; [reflexivity|]. dnext. apply dm_bind; [now apply adds_works|]. intros y.
        apply dm_bind; [now apply groups_works|]. intros w. apply dm_ret.
      * intros m. apply dm_bind; [apply dm_lift, rm_assign|]. intros s. apply dm_ret.
    + apply post_bind'. intros x. eapply post_bind; [exact R2|]. intros l L.
      apply post_bind with (Q := froms (a ++ List.concat g)).
      { destruct (negb _); [|apply post_ret, froms_nil]. do 4 (apply post_bind'; intros ?).
        eapply post_bind; [now apply adds_works|]. intros y Y. eapply post_bind; [now apply groups_works|]. intros w W.
        apply post_ret. apply froms_app; [eapply froms_incl; [|exact Y]|eapply froms_incl; [|exact W]];
          intros j Hj; apply in_app_iff; auto. }
      intros m M. apply post_bind with (Q := fun s => made (TSeq e r a g) (VSeq s)).
      * apply post_lift. intros s E. eapply assign_made; [exact N| |exact E].
        apply froms_app; [eapply froms_incl; [|exact L]|eapply froms_incl; [|exact M]]; intros j Hj; apply in_app_iff; auto.
      * intros s S. now apply post_ret.
  - cbn [sane] in SA. destruct SA as (O & SA). destruct (n_works (dec t) t 0 (IHt SA)) as (_ & _).
    unfold decode_sequence_of. split.
    + apply dm_bind; [now apply dm_seqof_len|]. intros n. apply dm_bind; [now apply n_works, IHt|]. intros vs. apply dm_ret.
    + apply post_bind'. intros n. eapply post_bind; [now apply n_works, IHt|]. intros vs V. apply post_ret. now constructor.
  - cbn [sane] in SA. destruct SA as (NR & N & SR & SA & SG).
    rewrite all_of_forall in SR, SA. rewrite all_of_groups in SG.
    pose proof (forall_sub (fun t => works (dec t) t) r H SR) as WR.
    pose proof (forall_sub (fun t => works (dec t) t) a H0 SA) as WA.
    rewrite <- forall_concat in H1. pose proof (forall_sub (fun t => works (dec t) t) _ H1 SG) as WG.
    assert (WX : Forall (fun c => works (dec (cty c)) (cty c)) (a ++ List.concat g)) by (rewrite Forall_app; auto).
    clear H H0 H1 SR SA SG WA WG. unfold decode_choice. cbv zeta. rewrite choice_comps.
    pose proof (zlen_pos r NR) as LP.
    match goal with |- works (if _ then ?x else _) _ => assert (X : works x (TChoice e r a g)) end.
    { split.
      - apply dm_bind.
        + destruct (Nat.eqb _ 1); [apply dm_ret|]. apply dm_cfl. intros l h E1 E2. assert (l = 0) by congruence.
          assert (h = zlen (map (fun c : comp ty => (cty c, dec (cty c))) r) - 1) by congruence.
          subst l h. unfold zlen in *. rewrite map_length. lia.
        + intros i. eapply dm_post; [|apply post_pick|].
          * unfold pick. destruct (nth_error _ _); [apply dm_ret|now apply dm_fail].
          * intros x Px. cbv beta in Px. rewrite nth_error_map in Px. destruct (nth_error r (Z.to_nat i)) as [c|] eqn:C; [|discriminate].
            cbn [option_map] in Px. assert (x = (cty c, dec (cty c))) as -> by congruence. cbn [fst snd].
            rewrite Forall_forall in WR. destruct (WR c (nth_error_In _ _ C)) as (W1 & W2).
            eapply dm_post; [exact W1|exact W2|]. intros d T. apply dm_bind; [now apply dm_lift, rm_cast|]. intros v. apply dm_ret.
      - apply post_bind'. intros i. eapply post_bind; [apply post_pick|]. intros x Px. cbv beta in Px.
        rewrite nth_error_map in Px. destruct (nth_error r (Z.to_nat i)) as [c|] eqn:C; [|discriminate].
        cbn [option_map] in Px. assert (x = (cty c, dec (cty c))) as -> by congruence. cbn [fst snd].
        rewrite Forall_forall in WR. destruct (WR c (nth_error_In _ _ C)) as (W1 & W2).
        eapply post_bind; [exact W2|]. intros d T.
        eapply post_bind; [apply post_lift; intros v E; exact (cast_made _ _ _ T E)|]. intros v V. apply post_ret.
        econstructor; [|exact V]. rewrite nth_error_app1; [exact C|]. apply nth_error_Some. congruence. }
    destruct e; cbn [negb]; [|exact X]. destruct X as (X1 & X2).
    assert (PK : forall i (x : ty * D dval), nth_error (map (fun c : comp ty => (cty c, dec (cty c))) (a ++ List.concat g)) i = Some x ->
      exists c, nth_error (a ++ List.concat g) i = Some c /\ x = (cty c, dec (cty c)) /\ works (dec (cty c)) (cty c)).
    { intros i x Px. rewrite nth_error_map in Px. destruct (nth_error (a ++ List.concat g) i) as [c|] eqn:C; [|discriminate].
      exists c. split; [reflexivity|]. split; [cbn [option_map] in Px; congruence|]. rewrite Forall_forall in WX.
      apply WX. eapply nth_error_In; eauto. }
    split.
    + dnext. destruct (z =? 0); [exact X1|]. apply dm_bind; [apply dm_ns|]. intros i.
      destruct (isnil _ && isnil _); [now apply dm_fail|].
      eapply dm_post; [|apply post_pick|].
      * unfold pick. destruct (nth_error _ _); [apply dm_ret|now apply dm_fail].
      * intros x Px. cbv beta in Px. destruct (PK _ _ Px) as (c & C & -> & W). cbn [fst snd].
        destruct (open_works _ _ W) as (W1 & W2).
        eapply dm_post; [exact W1|exact W2|]. intros d T. apply dm_bind; [now apply dm_lift, rm_cast|]. intros v. apply dm_ret.
    + apply post_bind'. intros z. destruct (z =? 0); [exact X2|]. apply post_bind'. intros i.
      destruct (isnil _ && isnil _); [apply post_fail|]. eapply post_bind; [apply post_pick|]. intros x Px. cbv beta in Px.
      destruct (PK _ _ Px) as (c & C & -> & W). cbn [fst snd]. destruct (open_works _ _ W) as (W1 & W2).
      eapply post_bind; [exact W2|]. intros d T.
      eapply post_bind; [apply post_lift; intros v E; exact (cast_made _ _ _ T E)|]. intros v V. apply post_ret.
      rewrite map_length. econstructor; [|exact V]. rewrite nth_error_app2 by lia.
      replace (_ + _ - _)%nat with (Z.to_nat i) by lia. exact C.
Qed.

(** * C59: the exceptions of encode and decode *)

(** Full claim: encode raises nothing but the exceptions encoder.py declares and
    pyasn1's, decode nothing but pyasn1's.  False as [C59_encode_refuted] and
    [C59_decode_refuted] show; what holds is the following. *)
Theorem C59_encode_partial : forall t v e, sane t -> made t v -> encode t v = Err e ->
  documented e = true \/ e = RaiseNotImplemented \/ e = PyTypeError \/ e = PyAttributeError.
Proof.
  intros t v e SA M E. rewrite encode_spec in E. destruct (enc t v) as [fs|x] eqn:En; [discriminate|]. injection E as <-.
  pose proof (enc_may true t SA ltac:(discriminate) v M x En) as F. unfold encode_fault in F.
  apply orb_prop in F as [F|F]; [now left|]. destruct x; try discriminate; auto.
Qed.

(** Where the end points compared are numbers and DEFAULT is used on simple
    types, [raise NotImplemented] is all that is left. *)
Theorem C59_strict_partial : forall t v e, sane t -> strict t -> made t v -> encode t v = Err e ->
  documented e = true \/ e = RaiseNotImplemented.
Proof.
  intros t v e SA ST M E. rewrite encode_spec in E. destruct (enc t v) as [fs|x] eqn:En; [discriminate|]. injection E as <-.
  pose proof (enc_may false t SA (fun _ => ST) v M x En) as F. unfold encode_fault in F.
  apply orb_prop in F as [F|F]; [now left|]. destruct x; try discriminate; auto.
Qed.

Lemma hexlify_digits bs : Forall octet bs -> Forall hexdigit (hexlify bs).
Proof.
  induction 1 as [|x bs X _ IH]; cbn [hexlify]; constructor; [|constructor; [|exact IH]]; unfold octet, hexdigit in *.
  - pose proof (Z.div_le_upper_bound x 16 15). pose proof (Z.div_pos x 16). lia.
  - apply Z.mod_pos_bound. lia.
Qed.

Theorem C59_decode_partial : forall bs t e, sane t -> Forall octet bs -> decode bs t = Err e ->
  e = PyAsn1Error \/ e = RaiseNotImplemented \/ e = PyTypeError \/ e = PyValueError \/ e = PyIndexError.
Proof.
  intros bs t e SA FO E. assert (F : decode_fault e = true).
  { unfold decode, decode_pos in E. destruct (per_init (hexlify bs)) as [p|x] eqn:Ep; cbn [bind] in E.
    2: { injection E as <-. exact (rm_init _ (hexlify_digits bs FO) x Ep). }
    destruct (dec t p) as [(d & q)|x] eqn:Ed; cbn [bind fst snd] in E.
    2: { injection E as <-. exact (proj1 (dec_works t SA) p x Ed). }
    assert (X : rmay (from_empty t)).
    { destruct t; cbn [from_empty]; try (intros y [= <-]; reflexivity); now apply rm_cast. }
    destruct d as [v|]; [destruct (eq_empty v); [|discriminate]|].
    - destruct (from_empty t) as [w|x]; cbn [bind] in E; [discriminate|]. injection E as <-. now apply X.
    - destruct (from_empty t) as [w|x]; cbn [bind] in E; [discriminate|]. injection E as <-. now apply X. }
  destruct e; try discriminate; auto.
Qed.

(** What decode returns is an object of the type, so that the list for encode
    holds of a program that passes messages on. *)
Theorem C59_decoded_made : forall bs t v, sane t -> decode bs t = Ok v -> made t v.
Proof.
  intros bs t v SA E. unfold decode, decode_pos in E.
  destruct (per_init (hexlify bs)) as [p|x] eqn:Ep; [|discriminate]. cbn [bind] in E.
  destruct (dec t p) as [(d & q)|x] eqn:Ed; [|discriminate]. cbn [bind fst snd] in E.
  pose proof (proj2 (dec_works t SA) p d q Ed) as T.
  assert (X : forall w, from_empty t = Ok w -> made t w).
  { intros w W. destruct t; cbn [from_empty] in W; try discriminate; eapply cast_made; try exact W; exact Logic.I. }
  destruct d as [w|].
  - destruct (eq_empty w).
    + destruct (from_empty t) as [u|]; [|discriminate]. cbn [bind fst] in E. apply ok_inj in E. subst v. now apply X.
    + cbn [bind fst] in E. apply ok_inj in E. subst v. exact T.
  - destruct (from_empty t) as [u|]; [|discriminate]. cbn [bind fst] in E. apply ok_inj in E. subst v. now apply X.
Qed.

Theorem C59_relay_partial : forall bs t v e, sane t -> strict t -> decode bs t = Ok v -> encode t v = Err e ->
  documented e = true \/ e = RaiseNotImplemented.
Proof. intros bs t v e SA ST DV E. eapply C59_strict_partial; eauto. eapply C59_decoded_made; eauto. Qed.

(** The places where the model of the codec stops describing Python are not
    reached. *)
Theorem C59_model_covers : forall t bs v, sane t -> Forall octet bs -> made t v ->
  forall e, In e [BinSign; IllTyped; NotModelled; LoopFuel] -> encode t v <> Err e /\ decode bs t <> Err e.
Proof.
  intros t bs v SA FO M e I. split; intros E.
  - destruct (C59_encode_partial t v e SA M E) as [H|[->|[->| ->]]]; cbn [In] in I; intuition (subst; discriminate).
  - destruct (C59_decode_partial bs t e SA FO E) as [->|[->|[->|[->| ->]]]]; cbn [In] in I; intuition discriminate.
Qed.

(** ** Every exception of the lists is raised *)


Definition additions : ty := TSeq true [] [Comp "a" Mand TBool; Comp "b" Mand TBool]%string [].
Definition grouped : ty := TSeq true [] [] [[Comp "a" Mand TBool; Comp "b" Mand TBool]%string].
Definition few : ty := TSeqOf (CSeqSize false (Some 2) (Some 3)) TBool.
Definition many : ty := TSeqOf (CSeqSize false (Some 0) None) TBool.
Definition open_end : ty := TInt (CRange true None (Some 3)).
Definition inner : ty := TSeq false [Comp "x" Opt TBool]%string [] [].
Definition preset : ty := TSeq false [Comp "a" (Dflt (VSeq None)) inner]%string [] [].

Ltac sanity := cbn [sane strict all_comps app List.concat map];
  repeat match goal with
  | |- _ /\ _ => split
  | |- NoDup _ => constructor
  | |- Forall _ _ => constructor
  | |- all_of _ => let p := fresh "p" in let I := fresh "I" in intros p I; cbn in I;
      repeat (destruct I as [<-|I]); try contradiction
  | |- ordered _ => let l := fresh in let h := fresh in intros l h; cbn; intros [= <-] [= <-]; lia
  | |- ~ In _ _ => cbn; intuition discriminate
  | |- default_made _ => cbn [default_made cpres]
  | |- default_simple _ => cbn [default_simple cpres]
  | |- regular _ => first [left; reflexivity | right; reflexivity]
  | |- ends _ => intros ?; split; discriminate
  | |- True => exact Logic.I
  | |- made _ _ => constructor
  | |- _ <> _ => discriminate
  | |- _ <= _ => lia
  | |- _ => cbn [sane strict all_comps app List.concat map]; progress (cbn [sane strict all_comps app List.concat map])
  end.


Lemma made_repeat n : forall v, In v (repeat (VBool true) n) -> made TBool v.
Proof. intros v I. apply repeat_spec in I. subst v. constructor. Qed.

(** Every exception a strict type allows is raised on one. *)
Theorem C59_strict_raised : forall e,
  In e [MandatoryExtensionFieldNotPresent "a"; MandatoryFieldNotPresentInExtensionGroup "a"; SizeConstrainViolated;
        InvalidComponentIndexIntoStructuredType; PyAsn1Error; RaiseNotImplemented]%string ->
  exists t v, sane t /\ strict t /\ made t v /\ encode t v = Err e.
Proof.
  assert (SL : forall i (c : comp ty) v, nth_error [Comp "a" Mand TBool; Comp "b" Mand TBool]%string i = Some c ->
    nth_error [None; Some (VBool true)] i = Some (Some v) -> made (cty c) v).
  { intros [|[|[|i]]] c v C V; cbn in *; try discriminate. injection C as <-. injection V as <-. constructor. }
  intros e [<-|[<-|[<-|[<-|[<-|[<-|[]]]]]]].
  - exists additions, (VSeq (Some [None; Some (VBool true)])). unfold additions. split; [sanity|]. split; [sanity|].
    split; [now constructor|vm_compute; reflexivity].
  - exists grouped, (VSeq (Some [None; Some (VBool true)])). unfold grouped. split; [sanity|]. split; [sanity|].
    split; [now constructor|vm_compute; reflexivity].
  - exists few, (VSeqOf [VBool true]). unfold few. split; [sanity|]. split; [sanity|].
    split; [constructor; apply (made_repeat 1)|vm_compute; reflexivity].
  - exists few, (VSeqOf (repeat (VBool true) 4)). unfold few. split; [sanity|]. split; [sanity|].
    split; [constructor; apply made_repeat|vm_compute; reflexivity].
  - exists TBool, VUnset. split; [exact Logic.I|]. split; [exact Logic.I|]. split; [now constructor|reflexivity].
  - exists many, (VSeqOf (repeat (VBool true) (Z.to_nat 16385))). unfold many. split; [sanity|]. split; [sanity|].
    split; [constructor; apply made_repeat|vm_compute; reflexivity].
Qed.

(** INTEGER (MIN..3, ...) and a DEFAULT on a SEQUENCE: Python's TypeError and
    AttributeError. *)
Theorem C59_encode_refuted : exists t v t' v',
  sane t /\ made t v /\ encode t v = Err PyTypeError /\
  sane t' /\ made t' v' /\ encode t' v' = Err PyAttributeError /\
  documented PyTypeError = false /\ documented PyAttributeError = false /\ documented RaiseNotImplemented = false.
Proof.
  exists open_end, (VInt 2), preset, (VSeq None). unfold open_end, preset, inner.
  split; [sanity|]. split; [constructor; cbn; auto|]. split; [reflexivity|].
  split; [sanity|]. split; [constructor|]. repeat split; vm_compute; reflexivity.
Qed.

(** What decode raises beside pyasn1's exception, all on strict types: no octets;
    a number that is no item; an alternative that does not exist; additions with
    a long bitmap. *)
Theorem C59_decode_refuted : forall e, In e [PyValueError; PyTypeError; PyIndexError; RaiseNotImplemented; PyAsn1Error] ->
  exists bs t, sane t /\ strict t /\ Forall octet bs /\ decode bs t = Err e.
Proof.
  intros e [<-|[<-|[<-|[<-|[<-|[]]]]]].
  - exists [], TBool. split; [exact Logic.I|]. split; [exact Logic.I|]. split; [constructor|reflexivity].
  - exists [192], (TEnum false [0; 1; 2] []). split; [sanity|]. split; [exact Logic.I|].
    split; [repeat constructor; lia|vm_compute; reflexivity].
  - exists [192], (TChoice false [Comp "a" Mand TBool; Comp "b" Mand TBool; Comp "c" Mand TBool]%string [] []).
    split; [sanity|]. split; [sanity|]. split; [repeat constructor; lia|vm_compute; reflexivity].
  - exists [192], additions. unfold additions. split; [sanity|]. split; [sanity|].
    split; [repeat constructor; lia|vm_compute; reflexivity].
  - exists [192], (TInt (CRange false (Some 0) (Some 2))). split; [sanity|]. split; [sanity|].
    split; [repeat constructor; lia|vm_compute; reflexivity].
Qed.

(** A type with every kind of component; objects of it are encoded or refused by a
    declared exception. *)
Definition record : ty :=
  TSeq true
    [Comp "n" Mand (TInt (CRange false (Some 0) (Some 300)));
     Comp "k" (Dflt (VEnum 1)) (TEnum true [0; 1] [2]);
     Comp "s" Opt (TOcts (CRange true (Some 1) (Some 4)))]%string
    [Comp "l" Mand (TSeqOf (CSeqSize false (Some 1) (Some 9)) (TBits (CRange false (Some 2) (Some 2))))]%string
    [[Comp "c" Mand (TChoice true [Comp "x" Mand TBool]%string [Comp "y" Mand (TInt CNone)]%string [])]]%string.

Definition full (n : nat) : val :=
  VSeq (Some [Some (VInt 7); Some (VEnum 2); Some (VOcts [1; 2]); Some (VSeqOf (repeat (VBits [true; false]) n));
              Some (VChoice (Some (1%nat, VInt 5)))]).

Lemma full_made n : made record (full n).
Proof.
  constructor; [reflexivity|].
  intros [|[|[|[|[|[|i]]]]]] c v C V; cbn in C, V; try discriminate; injection C as <-; injection V as <-; cbn [cty].
  - constructor. apply ctest_sat. reflexivity.
  - constructor. cbn. auto.
  - constructor; [apply ctest_sat; reflexivity|repeat constructor; lia].
  - constructor. intros v I. apply repeat_spec in I. subst v. constructor. apply ctest_sat. reflexivity.
  - econstructor; [reflexivity|]. constructor. apply ctest_sat. reflexivity.
Qed.

Example C59_case :
  sane record /\ strict record /\ made record (full 1) /\
  encode record (full 1) = Ok [224; 0; 7; 128; 32; 1; 2; 3; 128; 1; 8; 4; 128; 2; 1; 5] /\
  encode record (full 10) = Err InvalidComponentIndexIntoStructuredType /\
  decode [192; 0; 7; 144] record = Err PyTypeError.
Proof.
  split; [unfold record; sanity; cbn; auto|].
  split; [unfold record; sanity; try reflexivity; try discriminate; intros; discriminate|].
  split; [apply full_made|]. repeat split; vm_compute; reflexivity.
Qed.
