(** The protocol of the README, from its text. *)
From Coq Require Import ZArith List String Ascii Bool Arith Lia.
Import ListNotations.
From Verif Require Import PyBase Schema Encoder Decoder Spec RoundTrip Reading Totality PropsRoundTrip Objects Valid Faults Extent X691 Safe Standard Peers Mild Shifted Received Hops Names
  Generator Emit Exec Meaning Modules FineCheck Generated GeneratedFaults GoldenSchemas Grammar Texts Tokens ReadTexts GrammarTests Written WrittenTests
  Agreement Spellings Parties.
Open Scope string_scope.
Open Scope list_scope.
Open Scope nat_scope.

(** What is promised for a class whose checks are those of C71. *)
Definition told_apart (T : ty) : Prop :=
  (forall v, message T v -> Peers.valid T (reading T v) /\
     (exists bs, encode T v = Ok bs /\ forall bs', PER T (reading T v) bs' <-> bs' = bs) /\
     (survives_reading T v <-> shows T (reading T v))) /\
  forall a bs, Peers.valid T a -> PER T a bs -> ((exists v, decode bs T = Ok v /\ reading T v = a) <-> shows T a).

Lemma familiar_told T : familiar T = true -> told_apart T.
Proof.
  intros F. split.
  - intros v M. pose proof F as F0. unfold familiar in F0. apply andb_true_iff in F0 as (F0 & Ba).
    apply andb_true_iff in F0 as (F0 & Li). apply andb_true_iff in F0 as (Mi & St). pose proof Mi as M0.
    unfold mild in M0. apply andb_true_iff in M0 as (Sf & _).
    assert (Md : modest T v) by now apply (limited_calm mild_sane).
    split; [exact (messages_honest T Sf v M)|]. split.
    + apply C71_sent; auto. now apply (limited_brief mild_octs).
    + now apply C71_exact.
  - intros a bs V P. now apply C71_any_sender.
Qed.

(** The class made from the text of a schema.  Missing: the texts outside C50. *)
Lemma texts_told : forall S s t r, strip s t -> plain_lines s -> text_of S t r -> fine_schema S -> sortable S ->
  exists g, a_module s g /\ forall n u, In (TypeA n u) S -> exists T, means S u T /\ binds g (underscore n) T /\
  (familiar T = true -> told_apart T).
Proof.
  intros S s t r ST PL TX FS SS.
  destruct (C50_text_to_module_partial S s t r ST PL TX FS SS) as (q & n0 & objs & out & g & RD & E & X & TY & _).
  exists g. split; [now exists q, n0, objs, out|]. intros n u IN. destruct (TY n u IN) as (T & M & BN).
  exists T. split; [exact M|]. split; [exact BN|]. apply familiar_told.
Qed.

(** * The README *)

(** SimpleMessage, README.md 28-80, as the module made from the text has it. *)
Definition simple_message : ty := Eval vm_compute in
  match imported asn_SimpleProtocol "SimpleMessage" with Ok T => T | Err _ => TBool end.

Definition a_data (n e : Z) (m : option (list bool)) (payload : list (list Z)) : val :=
  VChoice (Some (3, VSeq (Some [Some (VInt n); Some (VEnum e); option_map VBits m; Some (VSeqOf (map VOcts payload))]))).

(** Every message of the README's protocol is sent as X.691 says.  The messages
    of its own and of any other sender are read back exactly when no string of the
    payload starts with a zero digit, a single octet 0 aside. *)
Theorem C71_readme : exists g, a_module text_SimpleProtocol g /\ binds g "SimpleMessage" simple_message /\
  told_apart simple_message.
Proof.
  destruct (is_text_ok true "SimpleProtocol" asn_SimpleProtocol text_SimpleProtocol) as (r & TX); [vm_compute; reflexivity|].
  destruct (checked_fine 20 asn_SimpleProtocol) as [FS SS]; [vm_compute; reflexivity|].
  destruct (texts_told asn_SimpleProtocol text_SimpleProtocol text_SimpleProtocol r) as (g & MG & TY);
    [apply (stripped_ok 2000); vm_compute; reflexivity|vm_compute; reflexivity|exact TX|exact FS|exact SS|].
  destruct (TY "SimpleMessage" _ (or_introl eq_refl)) as (T & M & BN & U). exists g. split; [exact MG|].
  assert (IM : imported asn_SimpleProtocol "SimpleMessage" = Ok simple_message) by (vm_compute; reflexivity).
  destruct (C49_imported asn_SimpleProtocol FS SS "SimpleMessage" _ (or_introl eq_refl)) as (T2 & M2 & IM2).
  assert (T2 = simple_message) as -> by congruence.
  rewrite (C49_one_meaning asn_SimpleProtocol FS SS "SimpleMessage" _ T simple_message (or_introl eq_refl) M M2) in *.
  split; [exact BN|]. apply U. vm_compute. reflexivity.
Qed.

Open Scope Z_scope.

Lemma familiar_simple : familiar simple_message = true.
Proof. vm_compute. reflexivity. Qed.

(** The messages that are lost are data messages, and it is the payload that tells. *)
Theorem C71_readme_exact : forall v, message simple_message v ->
  (survives_reading simple_message v <->
   forall n e m payload, v = a_data n e m payload -> Forall digits_kept payload).
Proof.
  intros v M. rewrite (proj2 (proj2 (proj1 (familiar_told _ familiar_simple) v M))).
  destruct v as [| | | | | | | |[(i & w)|]]; try contradiction.
  assert (Other : forall t, safe t && limited t = true -> message t w -> mild t = true -> shows t (reading t w)).
  { intros t SL Mw Mi. apply andb_true_iff in SL as (Sf & Li). assert (Md : modest t w) by now apply (limited_calm octs_sane).
    apply (C71_exact t w Mi Mw Md). now apply C68_safe. }
  destruct i as [|[|[|[|i]]]].
  1-3: split; [intros _ n e m payload E; discriminate|intros _; apply Other; [vm_compute; reflexivity|exact M|vm_compute; reflexivity]].
  - assert (MD : exists n e m payload, VChoice (Some (3%nat, w)) = a_data n e m payload).
    { destruct w as [| | | | | |slots| |]; try contradiction. destruct M as (L & M1 & _). destruct slots as [ss|].
      2:{ specialize (M1 _ (or_introl eq_refl)). exfalso. apply M1. reflexivity. }
      cbn [slots_list] in L, M1. destruct ss as [|s1 [|s2 [|s3 [|s4 [|]]]]]; try discriminate. clear L.
      pose proof (M1 _ (or_introl eq_refl)) as A1. pose proof (M1 _ (or_intror (or_introl eq_refl))) as A2.
      pose proof (M1 _ (or_intror (or_intror (or_introl eq_refl)))) as A3.
      pose proof (M1 _ (or_intror (or_intror (or_intror (or_introl eq_refl))))) as A4. clear M1.
      unfold msg_root in A1, A2, A3, A4. cbn [fst snd cpres cty] in A1, A2, A3, A4.
      destruct s1 as [v1|]; [|exfalso; now apply A1]. destruct s2 as [v2|]; [|exfalso; now apply A2].
      destruct s4 as [v4|]; [|exfalso; now apply A4]. destruct v1; try contradiction. destruct v2; try contradiction.
      destruct v4 as [| | | | | | |vs|]; try contradiction. destruct A4 as (_ & A4). rewrite all_of_forall in A4.
      assert (P : exists payload, vs = map VOcts payload).
      { clear - A4. induction vs as [|v vs IH]; [now exists []|]. inversion A4; subst. destruct (IH H2) as (p & ->).
        destruct v; try contradiction. now exists (bs :: p). }
      destruct P as (p & ->). destruct s3 as [v3|].
      - destruct v3; try contradiction. now exists z, z0, (Some s), p.
      - now exists z, z0, None, p. }
    destruct MD as (n & e & m & payload & E). rewrite E.
    assert (Q : shows simple_message (reading simple_message (a_data n e m payload)) <-> Forall digits_kept payload).
    { unfold a_data, simple_message. cbn [reading att map app nth_error snd cty List.concat].
      cbn [shows att map app nth_error snd cty List.concat]. cbv zeta. cbn [slots_list zipw app read_groups map].
      unfold read_root, show_slot. cbn [fst snd cpres cty slot_get]. split.
      - intros A. specialize (A _ (or_intror (or_intror (or_intror (or_introl eq_refl))))). cbn [reading shows] in A.
        rewrite map_map, all_of_forall, Forall_map in A. eapply Forall_impl; [|exact A].
        intros bs B. exact (B 1 4 eq_refl eq_refl eq_refl ltac:(lia)).
      - intros F p [<-|[<-|[<-|[<-|[]]]]]; [exact Logic.I|exact Logic.I| |].
        + destruct (present _ _); [|exact Logic.I]. destruct m; exact Logic.I.
        + cbn [reading shows]. rewrite map_map, all_of_forall, Forall_map. eapply Forall_impl; [|exact F].
          intros bs B l h _ _ _ _. exact B. }
    rewrite Q. split.
    + intros F n' e' m' payload' E'. unfold a_data in E'. injection E' as _ _ _ E'.
      assert (payload' = payload) as ->; [|exact F]. clear - E'. revert payload' E'.
      induction payload as [|a p IH]; intros [|b q] E; try discriminate; [reflexivity|]. cbn [map] in E.
      injection E as <- E. f_equal. now apply IH.
    + intros F. now apply (F n e m payload).
  - exfalso. cbn [message simple_message att map app nth_error List.concat] in M. destruct i; exact M.
Qed.

(** What the others arrive as: no data message is refused, and in every string of
    the payload the leading zero digits are gone. *)
Theorem C72_readme : forall n e m payload, message simple_message (a_data n e m payload) ->
  exists bs, encode simple_message (a_data n e m payload) = Ok bs /\
    decode bs simple_message = Ok (a_data n e m (map shifted payload)).
Proof.
  intros n e m payload M.
  assert (Sf : safe_by upward_octs simple_message = true) by (vm_compute; reflexivity).
  assert (Li : limited simple_message = true) by (vm_compute; reflexivity).
  assert (Md : modest simple_message (a_data n e m payload)) by now apply (limited_calm upward_sane).
  destruct (C72_every_message _ _ Sf M Md) as (bs & E & Dv). exists bs. split; [exact E|]. rewrite Dv. f_equal.
  assert (NE : Forall (fun x => x <> []) payload).
  { destruct M as (_ & M1 & _). specialize (M1 _ (or_intror (or_intror (or_intror (or_introl eq_refl))))).
    unfold msg_root in M1. cbn [fst snd cpres cty] in M1. destruct M1 as (_ & M1).
    rewrite map_map, all_of_forall in M1. eapply Forall_impl; [|exact M1].
    intros x (B0 & _) ->. apply Constraints.ctest_sat in B0. discriminate. }
  assert (MP : map (canon_by arrives (TOcts (CRange false (Some 1) (Some 4)))) (map VOcts payload) = map VOcts (map shifted payload)).
  { rewrite !map_map. apply map_ext_in. intros x Ix. rewrite Forall_forall in NE. specialize (NE x Ix).
    destruct x; [congruence|reflexivity]. }
  unfold a_data, simple_message. cbn [canon_by att map app nth_error snd cty List.concat].
  cbv zeta. cbn [slots_list zipw app canon_groups map skipn List.length canon_by].
  unfold canon_root. cbn [fst snd cpres cty slot_get]. rewrite <- MP. destruct m; reflexivity.
Qed.

(** So for any sender that follows X.691. *)
Theorem C72_readme_any_sender : forall a bs, Peers.valid simple_message a -> PER simple_message a bs ->
  exists v, decode bs simple_message = Ok v /\ reading simple_message v = Received.moved arrives simple_message a.
Proof. intros a bs V P. apply (C72_any_sender simple_message a bs); [vm_compute; reflexivity|exact V|exact P]. Qed.

(** So it does behind any number of relays. *)
Theorem C73_readme : forall n a bs, Peers.valid simple_message a -> PER simple_message a bs ->
  exists out v, relays n simple_message bs = Ok out /\ decode out simple_message = Ok v /\
    reading simple_message v = Received.moved arrives simple_message a.
Proof. intros n a bs V P. apply (C73_chain n simple_message a bs); [vm_compute; reflexivity|exact V|exact P]. Qed.

(** Such a message arrives as another one, and nothing is reported. *)
Theorem C71_readme_silent : exists v v' bs, message simple_message v /\ message simple_message v' /\
  encode simple_message v = Ok bs /\ decode bs simple_message = Ok v' /\ v' <> v.
Proof.
  exists (a_data 256 2 None [[1; 2; 3; 4]]), (a_data 256 2 None [[16; 32; 48; 64]]), [96; 1; 0; 67; 1; 2; 3; 4].
  unfold simple_message, a_data; cbn [option_map map].
  split; [concrete|]. split; [concrete|]. split; [vm_compute; reflexivity|]. split; [vm_compute; reflexivity|]. discriminate.
Qed.

(** The data message of the README, 330-381, and its octets. *)
Definition readme_data : val :=
  a_data 55555 1 (Some [true;true;true;true;false;false;false;false;true;true;true;true;false;false;false;false;true;true;true;true]) [[222; 173]; [190; 239]; [254; 237]; [170]; [187; 187; 187; 187]].

Example C71_readme_case : message simple_message readme_data /\ survives_reading simple_message readme_data /\
  encode simple_message readme_data =
    Ok [112; 217; 3; 32; 240; 240; 248; 128; 222; 173; 64; 190; 239; 64; 254; 237; 0; 170; 192; 187; 187; 187; 187].
Proof.
  assert (M : message simple_message readme_data) by (unfold readme_data, simple_message, a_data; cbn [option_map map]; concrete).
  split; [exact M|]. split; [|vm_compute; reflexivity].
  apply (C71_readme_exact _ M). intros n e m payload E. unfold readme_data, a_data in E. injection E as _ _ _ E.
  destruct payload as [|a1 [|a2 [|a3 [|a4 [|a5 [|]]]]]]; cbn [map] in E; try discriminate. injection E as <- <- <- <- <-.
  repeat constructor; cbn [digits_kept]; lia.
Qed.

(** '01020304'H, '0000'H, '0007'H and 'AA'H arrive as '10203040'H, '00'H, '70'H and 'AA'H. *)
Example C72_readme_case : message simple_message (a_data 256 2 None [[1; 2; 3; 4]; [0; 0]; [0; 7]; [170]]) /\
  exists bs, encode simple_message (a_data 256 2 None [[1; 2; 3; 4]; [0; 0]; [0; 7]; [170]]) = Ok bs /\
    decode bs simple_message = Ok (a_data 256 2 None [[16; 32; 48; 64]; [0]; [112]; [170]]).
Proof.
  assert (M : message simple_message (a_data 256 2 None [[1; 2; 3; 4]; [0; 0]; [0; 7]; [170]])).
  { unfold simple_message, a_data; cbn [option_map map]; concrete. }
  split; [exact M|]. exact (C72_readme _ _ _ _ M).
Qed.

Example C72_any_sender_case : upward simple_message = true /\ exists a bs, Peers.valid simple_message a /\
  PER simple_message a bs /\ Received.moved arrives simple_message a <> a.
Proof.
  split; [vm_compute; reflexivity|]. destruct C72_readme_case as (M & _).
  destruct (proj1 (familiar_told _ familiar_simple) _ M) as (V & (bs & _ & P) & _).
  exists (reading simple_message (a_data 256 2 None [[1; 2; 3; 4]; [0; 0]; [0; 7]; [170]])), bs.
  split; [exact V|]. split; [now apply P|]. vm_compute. discriminate.
Qed.
