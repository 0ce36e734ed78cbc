(** Names of ENUMERATED items, from the schema to the receiver (property C65). *)

From Coq Require Import ZArith List String Ascii Bool Arith Lia.
Import ListNotations.
From Verif Require Growth.
From Verif Require Import PyBase Schema Encoder Decoder Spec PropsRoundTrip Generator Generation Emit Exec Meaning Modules FineCheck Generated
  GeneratedFaults Fast Texts Tokens Settled GrammarFaults Leftovers Grammar.
Open Scope string_scope.
Open Scope list_scope.
Open Scope nat_scope.

(** * Model *)

(** The object made from a name is [make] of Exec.v: pyasn1's Enumerated takes a
    text that is no number as a name, and looks it up in namedValues.
    EnumeratedType.to_dict (data/builtin/EnumeratedType.py 21-22) goes back:
    [namedValues[int(self)]]. *)
Definition item_of (attrs : space) (v : val) : res string :=
  match v with
  | VEnum z =>
    let* all := values_attr "namedValues" attrs in
    match find (fun e : string * nat => Z.eqb (Z.of_nat (snd e)) z) all with
    | Some e => Ok (fst e)
    | None => Err PyKeyError
    end
  | VUnset => Err PyAsn1Error
  | _ => Err IllTyped
  end.

(** * Facts *)

Lemma combine_lookup x l : In x l -> forall k, exists i, lookup x (combine l (seq k (List.length l))) = Some (k + i) /\ nth_error l i = Some x.
Proof.
  induction l as [|y l IH]; intros I k; [destruct I|]. cbn [List.length seq combine lookup].
  destruct (String.eqb_spec x y) as [->|N].
  - exists 0. rewrite Nat.add_0_r. auto.
  - destruct I as [->|I]; [now destruct N|]. destruct (IH I (S k)) as (i & L & E). exists (S i). rewrite L. split; [f_equal; lia|exact E].
Qed.
Lemma combine_lookup_none x l : ~ In x l -> forall k, lookup x (combine l (seq k (List.length l))) = None.
Proof.
  induction l as [|y l IH]; intros N k; [reflexivity|]. cbn [List.length seq combine lookup].
  destruct (String.eqb_spec x y) as [->|]; [destruct N; now left|]. apply IH. intros I. apply N. now right.
Qed.
Lemma combine_find l : forall k i x, nth_error l i = Some x ->
  find (fun e : string * nat => Z.eqb (Z.of_nat (snd e)) (Z.of_nat (k + i))) (combine l (seq k (List.length l))) = Some (x, k + i).
Proof.
  induction l as [|y l IH]; intros k i x E; [destruct i; discriminate|]. cbn [List.length seq combine find snd].
  destruct i as [|i].
  - injection E as ->. rewrite Nat.add_0_r, Z.eqb_refl. reflexivity.
  - destruct (Z.eqb_spec (Z.of_nat k) (Z.of_nat (k + S i))) as [X|_]; [lia|].
    replace (k + S i) with (S k + i) by lia. now apply IH.
Qed.

(** What an ENUMERATED means. *)
Definition enum_ty (T : ty) (l : list string) : Prop :=
  exists ext root adds, T = TEnum ext root adds /\ (ext = false -> adds = []) /\
    root ++ adds = map Z.of_nat (seq 0 (List.length l)).

Lemma enum_meaning S t l T : fine_schema S -> enum_of S t l -> means S t T -> enum_ty T l.
Proof.
  intros FS E M. revert T M. induction E as [root adds|n r t l I E IH]; intros T M.
  - inversion M; subst.
    + exists false, (count_from 0 (List.length root)), []. split; [reflexivity|]. split; [reflexivity|].
      cbn [list_of]. rewrite !app_nil_r. reflexivity.
    + eexists true, _, _. split; [reflexivity|]. split; [discriminate|]. cbn [list_of]. rewrite app_length, seq_app, map_app. reflexivity.
  - inversion M as [| | | | | | | | |? t' ? I' M'|? t' ? ? I' M']; subst.
    + apply IH. now rewrite (same_type S FS _ _ _ I I').
    + rewrite (same_type S FS _ _ _ I' I) in M'. destruct (IH _ M') as (? & ? & ? & D & _). discriminate.
Qed.

Lemma item_values T l i x : enum_ty T l -> nth_error l i = Some x -> (Z.of_nat (List.length l) <= 65536)%Z ->
  survives T (VEnum (Z.of_nat i)).
Proof.
  intros (ext & root & adds & -> & X & N) E L. apply C02_enumerated_partial. unfold enum_ok.
  assert (LL : List.length (root ++ adds) = List.length l) by (rewrite N, map_length, seq_length; reflexivity).
  assert (i < List.length l) by (apply nth_error_Some; congruence). repeat split.
  - unfold numbered. now rewrite LL.
  - rewrite N. apply in_map. apply in_seq. lia.
  - unfold zlen. rewrite app_length in LL. lia.
  - exact X.
  - unfold zlen. lia.
  - unfold zlen. rewrite app_length in LL. apply (Z.lt_le_trans _ (2 ^ 17)); [lia|]. apply Z.pow_le_mono_r; lia.
Qed.

(** * The claim *)

(** Every ENUMERATED of a fine and sortable schema, also one that is a reference to
    another: the module can be imported; an object of the class can be set to each
    item by the name the schema gives it; the octets give an object with the same
    item, which shows that name; a word that is no item is refused.  [_partial]: the schemas of
    [fine_schema] and [sortable] (see Generated.v), and at most 65536 items. *)
Theorem C65_names_partial : forall S, fine_schema S -> sortable S ->
  exists out g, emit (map parsed_as S) = Ok out /\ Exec.run out = Ok g /\
    forall n t items, In (TypeA n t) S -> enum_of S t items -> (Z.of_nat (List.length items) <= 65536)%Z ->
    exists k attrs T, lookup (underscore n) g = Some (OClass k attrs) /\ class_ty k attrs = Ok T /\
      (forall x, In x items -> exists v bs, make k attrs T (PStr x) = Ok v /\
         encode T v = Ok bs /\ decode bs T = Ok v /\ item_of attrs v = Ok x) /\
      (forall x, value_word x = true -> ~ In x items -> make k attrs T (PStr x) = Err PyAsn1Error).
Proof.
  intros S FS SS. destruct (module_means S FS SS) as (out & g & E & R & BT & _).
  exists out, g. split; [exact E|]. split; [exact R|]. intros n t l I EO LE.
  destruct (fine_means S FS n t I) as (T & M). destruct (BT n t I T M) as (o & L & k & attrs & -> & CT & NV).
  specialize (NV l EO). pose proof (enum_meaning S t l T FS EO M) as ET. exists k, attrs, T.
  split; [exact L|]. split; [exact CT|]. destruct ET as (ext & root & adds & -> & X).
  assert (enum_ty (TEnum ext root adds) l) as ET by now (eexists _, _, _; split; [reflexivity|]).
  split.
  - intros x IX. destruct (combine_lookup x l IX 0) as (i & LX & NX). cbn [plus] in LX.
    destruct (item_values _ l i x ET NX LE) as (bs & EN & DE). exists (VEnum (Z.of_nat i)), bs.
    unfold make, item_of. rewrite NV. cbn [bind]. rewrite LX. split; [reflexivity|]. split; [exact EN|]. split; [exact DE|].
    pose proof (combine_find l 0 i x NX) as F. cbn [plus] in F. rewrite F. reflexivity.
  - intros x _ NX. unfold make. rewrite NV. cbn [bind]. now rewrite (combine_lookup_none x l NX 0).
Qed.

(** ** Two versions *)

Lemma front_nodup {A} (a b : list A) : NoDup (a ++ b) -> NoDup a.
Proof.
  induction a as [|x a IH]; intros N; [constructor|]. inversion N; subst. constructor; [|auto].
  intros J. apply H1, in_or_app. now left.
Qed.

Lemma made S k attrs t T l : (forall l, enum_of S t l -> values_attr "namedValues" attrs = Ok (combine l (seq 0 (List.length l)))) ->
  enum_of S t l -> enum_ty T l -> forall i x, NoDup l -> nth_error l i = Some x ->
  make k attrs T (PStr x) = Ok (VEnum (Z.of_nat i)) /\ item_of attrs (VEnum (Z.of_nat i)) = Ok x.
Proof.
  intros NV EO (ext & root & adds & -> & _) i x ND NX. specialize (NV l EO).
  destruct (combine_lookup x l (nth_error_In _ _ NX) 0) as (j & LX & NJ). cbn [plus] in LX.
  assert (j = i) as -> by (apply (proj1 (NoDup_nth_error l) ND); [apply nth_error_Some; congruence|congruence]).
  unfold make, item_of. rewrite NV. cbn [bind]. rewrite LX. split; [reflexivity|].
  pose proof (combine_find l 0 i x NX) as F. cbn [plus] in F. rewrite F. reflexivity.
Qed.

(** Items added behind the "..." of the next version of a schema.  An item that is
    in both versions is the same number and the same octets in both, and either
    receiver shows the name the sender has set.  A new item is refused by the
    receiver of the earlier version: it is shown no wrong name.  [_partial] as
    above. *)
Theorem C65_versions_partial : forall S S' n root adds more,
  fine_schema S -> sortable S -> fine_schema S' -> sortable S' ->
  In (TypeA n (AEnumer root (Some adds))) S -> In (TypeA n (AEnumer root (Some (adds ++ more)))) S' ->
  (Z.of_nat (List.length (root ++ adds ++ more)) <= 65536)%Z ->
  exists out g k attrs T out' g' k' attrs' T',
    emit (map parsed_as S) = Ok out /\ Exec.run out = Ok g /\
    emit (map parsed_as S') = Ok out' /\ Exec.run out' = Ok g' /\
    lookup (underscore n) g = Some (OClass k attrs) /\ class_ty k attrs = Ok T /\
    lookup (underscore n) g' = Some (OClass k' attrs') /\ class_ty k' attrs' = Ok T' /\
    (forall x, In x (root ++ adds) -> exists v bs,
       make k attrs T (PStr x) = Ok v /\ make k' attrs' T' (PStr x) = Ok v /\
       encode T v = Ok bs /\ encode T' v = Ok bs /\
       decode bs T = Ok v /\ decode bs T' = Ok v /\
       item_of attrs v = Ok x /\ item_of attrs' v = Ok x) /\
    (forall x, In x more -> make k attrs T (PStr x) = Err PyAsn1Error /\
       exists v bs, make k' attrs' T' (PStr x) = Ok v /\ encode T' v = Ok bs /\ decode bs T' = Ok v /\
         item_of attrs' v = Ok x /\ exists e, decode bs T = Err e).
Proof.
  intros S S' n root adds more FS SS FS' SS' I I' LE.
  destruct (module_means S FS SS) as (out & g & E & R & BT & _). destruct (module_means S' FS' SS') as (out' & g' & E' & R' & BT' & _).
  destruct (BT n _ I _ (mean_enum_ext S root adds)) as (o & L & k & attrs & -> & CT & NV).
  destruct (BT' n _ I' _ (mean_enum_ext S' root (adds ++ more))) as (o' & L' & k' & attrs' & -> & CT' & NV').
  exists out, g, k, attrs. eexists. exists out', g', k', attrs'. eexists.
  repeat (split; [eassumption|]).
  set (T := TEnum true _ _) in *. set (T' := TEnum true _ (count_from _ (List.length (adds ++ more)))) in *.
  pose proof (enum_here S root (Some adds)) as EO. pose proof (enum_here S' root (Some (adds ++ more))) as EO'. cbn [list_of] in EO, EO'.
  pose proof (enum_meaning S _ _ T FS EO (mean_enum_ext S root adds)) as ET.
  pose proof (enum_meaning S' _ _ T' FS' EO' (mean_enum_ext S' root (adds ++ more))) as ET'.
  assert (NoDup (root ++ adds ++ more)) as ND'.
  { destruct (fine_types S' FS' _ _ I') as (_ & _ & FT). inversion FT; subst. assumption. }
  assert (NoDup (root ++ adds)) as ND by (rewrite app_assoc in ND'; exact (front_nodup _ _ ND')).
  assert (Growth.grown T T') as GR.
  { cbn [Growth.grown T T']. split; [reflexivity|]. split; [reflexivity|]. right. split; [reflexivity|].
    exists (count_from (List.length root + List.length adds) (List.length more)).
    unfold count_from. rewrite app_length, seq_app, map_app. reflexivity. }
  split.
  - intros x IX. apply In_nth_error in IX as (i & NX).
    assert (nth_error (root ++ adds ++ more) i = Some x) as NX'.
    { rewrite app_assoc, nth_error_app1; [exact NX|]. apply nth_error_Some. congruence. }
    destruct (made S k attrs _ T _ NV EO ET i x ND NX) as [M1 M2].
    destruct (made S' k' attrs' _ T' _ NV' EO' ET' i x ND' NX') as [M1' M2'].
    rewrite !app_length in LE.
    destruct (item_values T _ i x ET NX) as (bs & EN & DE); [rewrite app_length; lia|].
    exists (VEnum (Z.of_nat i)), bs. split; [exact M1|]. split; [exact M1'|]. split; [exact EN|]. split.
    + rewrite <- (Growth.C56_same_octets T T' _ GR); [exact EN|]. cbn [Growth.known T]. apply existsb_exists. exists (Z.of_nat i). split; [|apply Z.eqb_refl].
      assert (i < List.length (root ++ adds)) by (apply nth_error_Some; congruence). rewrite app_length in *.
      unfold count_from. rewrite <- map_app, <- seq_app. apply in_map, in_seq. lia.
    + split; [exact DE|]. split; [now apply (Growth.C56_new_reads_old T)|]. auto.
  - intros x IX. assert (~ In x (root ++ adds)) as NI.
    { intros J. apply in_split in IX as (m1 & m2 & ->). apply (NoDup_remove_2 (root ++ adds ++ m1) m2 x).
      - now rewrite <- !app_assoc in *.
      - rewrite app_assoc, !in_app_iff. rewrite in_app_iff in J. tauto. }
    split. { unfold make, T. rewrite (NV _ EO). cbn [bind]. now rewrite (combine_lookup_none x _ NI 0). }
    apply In_nth_error in IX as (i & NX).
    assert (nth_error (root ++ adds ++ more) (List.length (root ++ adds) + i) = Some x) as NX'.
    { rewrite app_assoc, nth_error_app2 by lia. now replace (_ + i - _) with i by lia. }
    destruct (made S' k' attrs' _ T' _ NV' EO' ET' _ x ND' NX') as [M1' M2'].
    destruct (item_values T' _ _ x ET' NX' LE) as (bs & EN & DE).
    eexists _, bs. split; [exact M1'|]. split; [exact EN|]. split; [exact DE|]. split; [exact M2'|].
    apply (proj2 (Growth.C56_old_reads_new T T' bs _ GR DE)).
    cbn [Growth.known T]. apply not_true_iff_false. intros X. apply existsb_exists in X as (z & J & EQ). apply Z.eqb_eq in EQ. subst z.
    unfold count_from in J. rewrite in_app_iff, !in_map_iff in J. rewrite app_length in J.
    destruct J as [(m & EQ & J)|(m & EQ & J)]; apply in_seq in J; lia.
Qed.

(** ** Items with numbers *)

(** A module in which a class for an ENUMERATED has an item with a number cannot be
    imported: the name of such an item is the text of a Python dict, quotes and
    all, and the template puts it between quotes. *)
Lemma quoted name number : has_quote (item_text (ENumber name number)) = true.
Proof. reflexivity. Qed.

Theorem C65_number_spoils_module : forall out c b ext root adds name number,
  In (SClass (CEnum c b ext root adds)) out -> In (item_text (ENumber name number)) (map fst (root ++ adds)) ->
  exists e, Exec.run out = Err e.
Proof.
  intros out c b ext root adds name number I J. unfold Exec.run. generalize library as g.
  induction out as [|s out IH]; intros g; [destruct I|]. cbn [exec]. destruct I as [->|I].
  - cbn [exec_stmt exec_class].
    destruct (base_class [] g b) as [[k attrs]|e]; cbn [bind]; [|eauto].
    destruct (marker_own [] g ext) as [own|e]; cbn [bind]; [|eauto].
    destruct (Exec.call [] g "NamedValues") as [?|e]; cbn [bind]; [|eauto].
    assert (existsb has_quote (map fst root) = true \/ existsb has_quote (map fst adds) = true) as Q.
    { rewrite map_app, in_app_iff in J. destruct J as [J|J]; [left|right]; apply existsb_exists; eexists; (split; [exact J|apply quoted]). }
    unfold named_values_obj. destruct (existsb has_quote (map fst root)); cbn [bind]; [eauto|].
    destruct Q as [Q|Q]; [discriminate|].
    destruct (nodupb (map fst root)); cbn [bind]; [|eauto].
    destruct adds as [|ad adds]; [discriminate|]. rewrite Q. cbn [bind]. eauto.
  - destruct (exec_stmt g s); cbn [bind]; [now apply IH|eauto].
Qed.

(** A text with such items: the reader takes it, the generator writes a module,
    the import raises. *)
Definition numbered_text : string := module "Colour ::= ENUMERATED {red(3), green(0)}".
Theorem C65_numbers_refuted : exists st out, parsed Leftovers.fresh numbered_text st out /\ Exec.run out = Err PySyntaxError.
Proof. eexists _, _. split; [read_text|vm_compute; reflexivity]. Qed.

(** * Concrete case *)

Definition C65_old : schema :=
  [TypeA "Shade" (ARef "Colour" None); TypeA "Colour" (AEnumer ["red"; "dark-blue"] (Some ["lime"]))].
Definition C65_new : schema :=
  [TypeA "Colour" (AEnumer ["red"; "dark-blue"] (Some (["lime"] ++ ["pink"]))); TypeA "Size" (AInteger None)].
Example C65_case : fine_schema C65_old /\ sortable C65_old /\ fine_schema C65_new /\ sortable C65_new /\
  enum_of C65_old (ARef "Colour" None) ["red"; "dark-blue"; "lime"].
Proof.
  assert (fine_schema C65_old /\ sortable C65_old) as [? ?] by (apply (checked_fine 20); vm_compute; reflexivity).
  assert (fine_schema C65_new /\ sortable C65_new) as [? ?] by (apply (checked_fine 20); vm_compute; reflexivity).
  repeat (split; [assumption|]). apply (enum_ref _ _ _ (AEnumer ["red"; "dark-blue"] (Some ["lime"]))); [right; now left|].
  apply (enum_here _ ["red"; "dark-blue"] (Some ["lime"])).
Qed.
(** "lime" is octet 80 for both versions; "pink" is octet 81, which the earlier
    version refuses. *)
Example C65_case_octets :
  encode (TEnum true [0%Z; 1%Z] [2%Z]) (VEnum 2) = Ok [128%Z] /\
  encode (TEnum true [0%Z; 1%Z] [2%Z; 3%Z]) (VEnum 2) = Ok [128%Z] /\
  encode (TEnum true [0%Z; 1%Z] [2%Z; 3%Z]) (VEnum 3) = Ok [129%Z].
Proof. vm_compute. auto. Qed.
