(** C45, C46: encodings are those of X.691. *)
From Coq Require Import ZArith List String Bool Lia ZifyBool ZifyNat ZifyN.
Import ListNotations.
From Verif Require Import PyBase Schema Encoder Decoder BitFacts Stream Prims Spec SimpleTypes RoundTrip
  Reading Totality PropsRoundTrip Layout Sequences Constraints Objects X691.
Open Scope string_scope.
Open Scope list_scope.
Open Scope Z_scope.
Ltac Zify.zify_post_hook ::= Z.div_mod_to_equations.

(** * The relation leaves no freedom *)

Lemma at_octet_fun pos w x y : at_octet pos w x -> at_octet pos w y -> x = y.
Proof. intros [k K M] [k' K' M']. replace k' with k by lia. reflexivity. Qed.

Ltac funs :=
  repeat match goal with
  | A : least_bits ?n ?w, B : least_bits ?n ?w' |- _ =>
      lazymatch w with w' => fail | _ => idtac end; pose proof (least_bits_fun _ _ _ A B); subst
  | A : least_octets ?n ?w, B : least_octets ?n ?w' |- _ =>
      lazymatch w with w' => fail | _ => idtac end; pose proof (least_octets_fun _ _ _ A B); subst
  | A : unsigned ?s ?w ?n, B : unsigned ?s' ?w ?n |- _ =>
      lazymatch s with s' => fail | _ => idtac end; pose proof (unsigned_fun _ _ _ _ A B); subst
  | A : at_octet ?p ?s ?x, B : at_octet ?p ?s ?y |- _ =>
      lazymatch x with y => fail | _ => idtac end; pose proof (at_octet_fun _ _ _ _ A B); subst
  end.

Lemma whole_small_fun lb ub n pos x y : whole_small lb ub n pos x -> whole_small lb ub n pos y -> x = y.
Proof. intros A B. destruct A; destruct B; try lia; funs; auto. Qed.

Lemma general_length_fun n pos x y : general_length n pos x -> general_length n pos y -> x = y.
Proof. intros A B. destruct A; destruct B; try lia; funs; auto. Qed.

Lemma count_fun lb ub n pos x y : count lb ub n pos x -> count lb ub n pos y -> x = y.
Proof.
  unfold count. destruct ub as [u|]; [destruct (u <? 65536)|];
    eauto using whole_small_fun, general_length_fun.
Qed.

Lemma whole_fun lb ub n pos x y : whole lb ub n pos x -> whole lb ub n pos y -> x = y.
Proof.
  intros A B. destruct A as [w L W|m k d s s' L LM LK C U O]; destruct B as [w' L' W'|m' k' d' t t' L' LM' LK' C' U' O'];
    try lia.
  - eapply whole_small_fun; eauto.
  - pose proof (least_octets_fun _ _ _ LM LM'). pose proof (least_octets_fun _ _ _ LK LK'). subst m' k'.
    rewrite (count_fun _ _ _ _ _ _ C' C) in *. funs. reflexivity.
Qed.

Lemma semi_fun lb n pos x y : semi lb n pos x -> semi lb n pos y -> x = y.
Proof.
  intros [k d s s' L G U O] [k' d' t t' L' G' U' O']. pose proof (least_octets_fun _ _ _ L L'). subst k'.
  rewrite (general_length_fun _ _ _ _ G' G) in *. funs. reflexivity.
Qed.

Lemma signed_inj s t : List.length s = List.length t -> s <> [] -> signed s = signed t -> s = t.
Proof.
  destruct s as [|a s]; [congruence|]. destruct t as [|b t]; [discriminate|]. intros L _ E.
  cbn [List.length] in L. injection L as L. cbn [signed] in E. rewrite L in E.
  pose proof (bval_range s) as R. pose proof (bval_range t) as R'. rewrite L in R.
  destruct a, b; cbn [Z.b2z] in E; try lia; f_equal; apply bval_inj; auto; lia.
Qed.

Lemma shortest_signed_fun s t z : shortest_signed s z -> shortest_signed t z -> s = t.
Proof.
  intros (M & N & E & S) (M' & N' & E' & S'). apply signed_inj; auto; [|congruence].
  apply Nat.le_antisymm; auto.
Qed.

Lemma unbounded_fun z pos x y : unbounded z pos x -> unbounded z pos y -> x = y.
Proof.
  intros [k d s s' L K G O] [k' d' t t' L' K' G' O']. pose proof (shortest_signed_fun _ _ _ L L'). subst t.
  replace k' with k in * by lia. rewrite (general_length_fun _ _ _ _ G' G) in *. funs. reflexivity.
Qed.

Lemma small_number_fun n pos x y : small_number n pos x -> small_number n pos y -> x = y.
Proof. intros A B. destruct A; destruct B; try lia; funs; auto. f_equal. eapply semi_fun; eauto. Qed.

Lemma small_length_fun n pos x y : small_length n pos x -> small_length n pos y -> x = y.
Proof. intros A B. destruct A; destruct B; try lia; funs; auto. f_equal. eapply general_length_fun; eauto. Qed.

Lemma bounds_fun c e lo hi e' lo' hi' : bounds c e lo hi -> bounds c e' lo' hi' ->
  e = e' /\ lo = lo' /\ hi = hi'.
Proof.
  intros A B.
  assert (K : forall c, (exists vs, c = CSingle e vs) \/ (exists cs, c = COr e cs \/ c = CAnd e cs) -> cext c = e).
  { intros x [(vs & ->)|(cs & [X|X])]; subst; reflexivity. }
  destruct A; inversion B; subst; auto;
    try (exfalso;
         match goal with
         | H : (exists vs, _ = _) \/ _ |- _ => destruct H as [(? & H)|(? & [H|H])]; discriminate
         end).
  match goal with H : _ \/ _, H' : _ \/ _ |- _ => apply K in H; rename H' into KK end.
  split; [|split].
  - destruct KK as [(vs & ->)|(cs & [X|X])]; subst; auto.
  - f_equal. apply Z.le_antisymm; auto; match goal with H : forall z, root_sat _ z -> _ |- _ => apply H; auto end.
  - f_equal. apply Z.le_antisymm; auto; match goal with H : forall z, root_sat _ z -> _ |- _ => apply H; auto end.
Qed.

Lemma integer_fun lo hi z pos x y : integer lo hi z pos x -> integer lo hi z pos y -> x = y.
Proof.
  intros A B. destruct A; destruct B; subst; try congruence;
    repeat match goal with H : Some _ = Some _ |- _ => injection H as ? end; subst;
    eauto using whole_fun, semi_fun, unbounded_fun.
Qed.

Lemma per_integer_fun c z pos x y : per_integer c z pos x -> per_integer c z pos y -> x = y.
Proof.
  intros (e & lo & hi & B & A) (e' & lo' & hi' & B' & A').
  destruct (bounds_fun _ _ _ _ _ _ _ B B') as (<- & <- & <-). destruct e.
  - destruct A as [(I & w & -> & W)|(I & w & -> & W)], A' as [(I' & w' & -> & W')|(I' & w' & -> & W')];
      try contradiction; f_equal; eauto using integer_fun, unbounded_fun.
  - eapply integer_fun; [apply A|apply A'].
Qed.

Lemma per_enumerated_fun e r a z pos x y : per_enumerated e r a z pos x -> per_enumerated e r a z pos y -> x = y.
Proof.
  unfold per_enumerated. destruct e.
  - intros [(I & w & -> & W)|(I & J & w & -> & W)] [(I' & w' & -> & W')|(I' & J' & w' & -> & W')];
      try contradiction; f_equal; eauto using whole_fun, small_number_fun.
  - intros (I & W) (_ & W'). eapply whole_fun; eauto.
Qed.

Lemma content_fun pos s x y : content pos s x -> content pos s y -> x = y.
Proof. intros A B. destruct A; inversion B; subst; try congruence. funs. reflexivity. Qed.

Lemma sized_fun short lo hi n s pos x y : 0 <= short < 65536 ->
  sized short lo hi n s pos x -> sized short lo hi n s pos y -> x = y.
Proof.
  intros K A B. destruct A as [Q|k S L H|k s' S L H O|d s' N F C T];
    destruct B as [Q'|k' S' L' H'|k' t' S' L' H' O'|d' t' N' F' C' T'];
    try (specialize (F _ L' H')); try (specialize (F' _ L H)); try reflexivity; try congruence; try lia;
    try (assert (k = k') by congruence; lia); try (assert (k = 0) by congruence; lia);
    try (assert (k' = 0) by congruence; lia).
  - eapply at_octet_fun; eauto.
  - rewrite (count_fun _ _ _ _ _ _ C' C) in *. f_equal. eapply content_fun; eauto.
Qed.

Lemma per_string_fun short c n s pos x y : 0 <= short < 65536 ->
  per_string short c n s pos x -> per_string short c n s pos y -> x = y.
Proof.
  intros K (e & lo & hi & B & A) (e' & lo' & hi' & B' & A').
  destruct (bounds_fun _ _ _ _ _ _ _ B B') as (<- & <- & <-). destruct e.
  - destruct A as [(I & w & -> & W)|(I & d & t & -> & G & T)], A' as [(I' & w' & -> & W')|(I' & d' & t' & -> & G' & T')];
      try contradiction; f_equal.
    + eapply sized_fun; eauto.
    + rewrite (general_length_fun _ _ _ _ G' G) in *. f_equal. eapply content_fun; eauto.
  - eapply sized_fun; [exact K|apply A|apply A'].
Qed.

Definition functional (R : enc_rel) : Prop := forall a pos w w', R a pos w -> R a pos w' -> w = w'.

Lemma elements_fun R l : functional R -> forall pos x y, elements R l pos x -> elements R l pos y -> x = y.
Proof.
  intros F. induction l as [|a l IH]; intros pos x y A B; inversion A; inversion B; subst; auto.
  match goal with H : R a pos ?u, H' : R a pos ?v |- _ => pose proof (F _ _ _ _ H H'); subst v end.
  f_equal. eapply IH; eauto.
Qed.

Lemma elem_count_fun lo hi n pos x y : elem_count lo hi n pos x -> elem_count lo hi n pos y -> x = y.
Proof.
  intros A B. destruct A as [k K L H|d F C]; destruct B as [k' K' L' H'|d' F' C']; auto;
    try (specialize (F _ L' H')); try (specialize (F' _ L H)); try lia. eapply count_fun; eauto.
Qed.

Lemma per_list_fun R c l pos x y : functional R -> per_list R c l pos x -> per_list R c l pos y -> x = y.
Proof.
  intros K (e & lo & hi & B & A) (e' & lo' & hi' & B' & A').
  destruct (bounds_fun _ _ _ _ _ _ _ B B') as (<- & <- & <-). destruct e.
  - destruct A as [(I & d & w & -> & D & W)|(I & d & w & -> & D & W)],
      A' as [(I' & d' & w' & -> & D' & W')|(I' & d' & w' & -> & D' & W')]; try contradiction; f_equal.
    + rewrite (elem_count_fun _ _ _ _ _ _ D' D) in *. f_equal. eapply elements_fun; eauto.
    + rewrite (general_length_fun _ _ _ _ D' D) in *. f_equal. eapply elements_fun; eauto.
  - destruct A as (I & d & w & -> & D & W), A' as (I' & d' & w' & -> & D' & W').
    rewrite (elem_count_fun _ _ _ _ _ _ D' D) in *. f_equal. eapply elements_fun; eauto.
Qed.

Lemma complete_fun w x y : complete w x -> complete w y -> x = y.
Proof.
  intros A B. destruct A as [k bs N K O E|N]; destruct B as [k' bs' N' K' O' E'|N']; auto; try congruence.
  rewrite bytes_bits_obits in *. apply obits_inj; auto. rewrite E, E'. do 2 f_equal.
  apply (f_equal (@List.length _)) in E, E'. rewrite obits_length, app_length, repeat_length in *. lia.
Qed.

Lemma open_type_fun (P : bits -> Prop) pos x y : (forall w w', P w -> P w' -> w = w') ->
  open_type P pos x -> open_type P pos y -> x = y.
Proof.
  intros F [w bs d H C G] [w' bs' d' H' C' G']. rewrite (F _ _ H' H) in *. rewrite (complete_fun _ _ _ C' C) in *.
  f_equal. eapply general_length_fun; eauto.
Qed.

Lemma roots_fun cas : Forall (fun ca => functional (snd ca)) cas -> forall os bm pos w bm' pos' w',
  roots cas os bm pos w -> roots cas os bm' pos' w' -> bm = bm' /\ (pos = pos' -> w = w').
Proof.
  induction cas as [|(c, R) cas IH]; intros F os bm pos w bm' pos' w' A B.
  - inversion A; inversion B; subst; auto.
  - inversion F as [|? ? FR FS]; subst. cbn [snd] in FR. specialize (IH FS).
    inversion A; subst; inversion B; subst; try congruence;
      repeat match goal with
      | H : cpres c = Dflt _, H' : cpres c = Dflt _ |- _ => rewrite H in H'; injection H' as ?; subst
      end; try congruence;
      match goal with H : roots cas _ _ _ _, H' : roots cas _ _ _ _ |- _ => destruct (IH _ _ _ _ _ _ _ H H') as (-> & J) end;
      (split; [reflexivity|]); intros <-; auto;
      match goal with H : R _ _ ?u, H' : R _ _ ?v |- _ => pose proof (FR _ _ _ _ H H'); subst v end;
      f_equal; auto.
Qed.

Lemma plain_sequence_fun cas os : Forall (fun ca => functional (snd ca)) cas -> forall pos w w',
  plain_sequence cas os pos w -> plain_sequence cas os pos w' -> w = w'.
Proof.
  intros F pos w w' (bm & x & -> & A) (bm' & x' & -> & B).
  destruct (roots_fun _ F _ _ _ _ _ _ _ A B) as (-> & J). f_equal. auto.
Qed.

Lemma roots_length cas os bm pos w : roots cas os bm pos w -> List.length cas = List.length os.
Proof. induction 1; cbn [List.length]; auto. Qed.

Lemma app_inv_length {A} (a b c d : list A) : a ++ b = c ++ d -> List.length a = List.length c -> a = c /\ b = d.
Proof.
  revert c. induction a as [|x a IH]; intros [|y c] E L; cbn in *; try discriminate; auto.
  injection E as -> E. destruct (IH c E) as (-> & ->); auto.
Qed.

Lemma additions_fun cas gs os bm pos w : Forall (fun ca => functional (snd ca)) cas ->
  Forall (Forall (fun ca => functional (snd ca))) gs -> additions cas gs os bm pos w ->
  forall bm' pos' w', additions cas gs os bm' pos' w' -> bm = bm' /\ (pos = pos' -> w = w').
Proof.
  intros F G A. induction A as [pos|ca cas gs o os bm pos w S A IH|ca cas gs a os bm pos w1 w2 S O A IH
    |g gs go os bm pos w L S A IH|g gs go os bm pos w1 w2 L S O A IH]; intros bm' pos' w' B.
  - inversion B; auto.
  - inversion F; subst. inversion B; subst; [|contradiction].
    edestruct IH as (-> & J); eauto.
  - inversion F as [|? ? FR FS]; subst. inversion B as [| |? ? ? ? ? ? ? u v S' O' B'| |]; subst; [contradiction|].
    edestruct IH as (-> & J); eauto. split; auto. intros <-.
    assert (w1 = u) as <- by (eapply open_type_fun; [|exact O|exact O']; intros; eapply FR; eauto). f_equal; auto.
  - inversion G; subst. inversion B; subst;
      match goal with E : _ ++ _ = go ++ os |- _ => apply app_inv_length in E as (-> & ->); [|congruence] end;
      [|contradiction].
    edestruct IH as (-> & J); eauto.
  - inversion G as [|? ? GR GS]; subst. inversion B; subst;
      match goal with E : _ ++ _ = go ++ os |- _ => apply app_inv_length in E as (-> & ->); [|congruence] end;
      [contradiction|].
    edestruct IH as (-> & J); eauto. split; auto. intros <-.
    match goal with O' : open_type (plain_sequence g go 0) pos ?u |- _ =>
      lazymatch u with w1 => fail | _ => assert (w1 = u) as <- end end.
    { eapply open_type_fun; [|eassumption|eassumption]. intros; eapply plain_sequence_fun; eauto. }
    f_equal; auto.
Qed.

Lemma per_sequence_fun e r a g l pos x y : Forall (fun ca => functional (snd ca)) r ->
  Forall (fun ca => functional (snd ca)) a -> Forall (Forall (fun ca => functional (snd ca))) g ->
  per_sequence e r a g l pos x -> per_sequence e r a g l pos y -> x = y.
Proof.
  intros Fr Fa Fg. unfold per_sequence. destruct e.
  - intros (ro & ao & -> & A) (ro' & ao' & E & B).
    assert (K : forall ro pos w, plain_sequence r ro pos w -> List.length r = List.length ro).
    { intros ? ? ? (bm & ? & -> & H). eapply roots_length; eauto. }
    assert (E' : ro = ro' /\ ao = ao').
    { apply app_inv_length; auto.
      destruct A as [(? & ? & _ & _ & _ & A)|(? & ? & ? & ? & _ & _ & A & _)],
        B as [(? & ? & _ & _ & _ & B)|(? & ? & ? & ? & _ & _ & B & _)]; apply K in A, B; congruence. }
    destruct E' as (<- & <-). clear E.
    destruct A as [(bm & w & A & T & -> & P)|(bm & w & d & wa & T & -> & P & D & A)],
      B as [(bm' & w' & A' & T' & -> & P')|(bm' & w' & d' & wa' & T' & -> & P' & D' & A')].
    + f_equal. eapply (plain_sequence_fun _ _ Fr); [exact P|exact P'].
    + destruct (additions_fun _ _ _ _ _ _ Fa Fg A _ _ _ A') as (-> & _). contradiction.
    + destruct (additions_fun _ _ _ _ _ _ Fa Fg A _ _ _ A') as (-> & _). contradiction.
    + destruct (additions_fun _ _ _ _ _ _ Fa Fg A _ _ _ A') as (<- & J).
      pose proof (plain_sequence_fun _ _ Fr _ _ _ P P'). subst w'.
      rewrite (small_length_fun _ _ _ _ D' D) in *. rewrite J; auto.
  - intros (_ & _ & A) (_ & _ & B). exact (plain_sequence_fun _ _ Fr _ _ _ A B).
Qed.

Lemma per_choice_fun e r a i v pos x y : Forall functional r -> Forall functional a ->
  per_choice e r a i v pos x -> per_choice e r a i v pos y -> x = y.
Proof.
  intros Fr Fa A B. rewrite Forall_forall in Fr, Fa.
  destruct A as [(R & s & w1 & w2 & N & -> & -> & W & P)|(R & w1 & w2 & E & L & N & -> & W & P)],
    B as [(R' & s' & w1' & w2' & N' & -> & -> & W' & P')|(R' & w1' & w2' & E' & L' & N' & -> & W' & P')].
  - rewrite N in N'. injection N' as <-. rewrite (whole_fun _ _ _ _ _ _ W' W) in *. do 2 f_equal.
    eapply Fr; [eapply nth_error_In; eauto|exact P|exact P'].
  - apply nth_error_None in L'. congruence.
  - apply nth_error_None in L. congruence.
  - rewrite N in N'. injection N' as <-. rewrite (small_number_fun _ _ _ _ W' W) in *. do 2 f_equal.
    eapply open_type_fun; [|exact P|exact P']. intros. eapply Fa; eauto. eapply nth_error_In; eauto.
Qed.

Lemma per_functional t : functional (per t).
Proof.
  unfold functional.
  induction t as [|c|e r a|c|c|e r a g Hr Ha Hg|c t IH|e r a g Hr Ha Hg] using ty_rect'; intros v pos w w' A B;
    destruct v as [|b|z|z|s|bs|l|l|[(i, v)|]]; try contradiction; cbn [per] in *.
  - congruence.
  - eapply per_integer_fun; eauto.
  - eapply per_enumerated_fun; eauto.
  - eapply per_string_fun; [|exact A|exact B]. lia.
  - eapply per_string_fun; [|apply A|apply B]. lia.
  - eapply per_sequence_fun; [| | |exact A|exact B]; unfold att; rewrite ?Forall_map; auto.
    eapply Forall_impl; [|exact Hg]. intros x. rewrite Forall_map. auto.
  - eapply per_list_fun; [|exact A|exact B]. exact IH.
  - eapply per_choice_fun; [| |exact A|exact B]; rewrite ?Forall_app, ?Forall_map; auto.
    split; auto. apply Forall_concat. rewrite Forall_map. eapply Forall_impl; [|exact Hg].
    intros x. rewrite Forall_map. auto.
Qed.

(** X.691 gives a message at most one encoding. *)
Theorem C45_unique t a bs bs' : PER t a bs -> PER t a bs' -> bs = bs'.
Proof.
  intros (w & P & C) (w' & P' & C'). rewrite (per_functional _ _ _ _ _ P' P) in *. eapply complete_fun; eauto.
Qed.

(** * The fields the library writes *)

Lemma at_octet_pad pos w : at_octet pos w (padding pos ++ w).
Proof. apply at_octet_intro; [apply padn_lt|]. apply (up8_mod pos). Qed.

Lemma at_octet_here pos w : Nat.modulo pos 8 = 0%nat -> at_octet pos w w.
Proof. intros H. apply (at_octet_intro pos w 0); [lia|]. now rewrite Nat.add_0_r. Qed.

Lemma render_al pos s : render pos [F true s] = padding pos ++ s.
Proof. rewrite render_one. reflexivity. Qed.

Lemma render_na pos s : render pos [F false s] = s.
Proof. rewrite render_one. reflexivity. Qed.

Lemma cwn_whole n lb ub pos : lb <= n <= ub -> ub - lb + 1 <= 65536 ->
  whole_small lb ub n pos (render pos [cwn_field n lb ub]).
Proof.
  intros H R. unfold cwn_field. destruct (Z.eqb_spec (ub - lb + 1) 1) as [E|E]; [now apply ws_one|].
  destruct (Z.leb_spec (ub - lb + 1) 255).
  { rewrite render_na. destruct (log2_up_width (ub - lb + 1) (n - lb)); [lia|lia|].
    eapply ws_bits; [lia| |now apply unsigned_to_bits].
    pose proof (least_bits_log2_up (ub - lb + 1) ltac:(lia)) as L. now rewrite Z.add_simpl_r in L. }
  destruct (Z.eqb_spec (ub - lb + 1) 256).
  { rewrite render_al. eapply ws_octet; [lia| |apply at_octet_pad]. apply unsigned_to_bits.
    change (2 ^ Z.of_nat 8) with 256. lia. }
  replace (ub - lb + 1 <=? 65536) with true by lia. rewrite render_al.
  eapply ws_two; [lia| |apply at_octet_pad]. apply unsigned_to_bits. change (2 ^ Z.of_nat 16) with 65536. lia.
Qed.

Lemma cwn_count n lb ub pos : lb <= n <= ub -> 0 <= lb < ub -> ub < 65536 \/ (lb = 0 /\ n <= 127) ->
  count lb (Some ub) n pos (render pos [cwn_field n lb ub]).
Proof.
  intros I P K. unfold count. destruct (Z.ltb_spec ub 65536) as [L|L]; [apply cwn_whole; lia|].
  destruct K as [K|(-> & K)]; [lia|]. unfold cwn_field.
  replace (ub - 0 + 1 =? 1) with false by lia. replace (ub - 0 + 1 <=? 255) with false by lia.
  replace (ub - 0 + 1 =? 256) with false by lia. replace (ub - 0 + 1 <=? 65536) with false by lia.
  assert (E : noct (n - 0) = 1%nat).
  { pose proof (noct_pos (n - 0)). pose proof (proj2 (noct_le (n - 0) 1 ltac:(lia) ltac:(lia))) as Q.
    change (2 ^ Z.of_nat (8 * 1)) with 256 in Q. specialize (Q ltac:(lia)). lia. }
  rewrite E, Z.sub_0_r, render_al. change (8 * 1)%nat with (S 7).
  rewrite to_bits_S by (change (2 ^ Z.of_nat 7) with 128; lia).
  eapply gl_short; [lia| |apply at_octet_pad]. apply unsigned_to_bits. change (2 ^ Z.of_nat 7) with 128. lia.
Qed.

Lemma len_general n pos : 0 <= n < 16384 -> general_length n pos (render pos [len_field n]).
Proof.
  intros H. unfold len_field. destruct (Z.leb_spec n 127); rewrite render_al.
  - change 8%nat with (S 7). rewrite to_bits_S by (change (2 ^ Z.of_nat 7) with 128; lia).
    eapply gl_short; [lia| |apply at_octet_pad]. apply unsigned_to_bits. change (2 ^ Z.of_nat 7) with 128. lia.
  - eapply gl_long; [lia| |apply at_octet_pad]. apply unsigned_to_bits. change (2 ^ Z.of_nat 14) with 16384. lia.
Qed.

Lemma cwn_fields_whole n lb ub pos : lb <= n <= ub -> Z.of_nat (noct (ub - lb)) < 65536 ->
  whole lb ub n pos (render pos (cwn_fields n lb ub)).
Proof.
  intros H R. unfold cwn_fields. destruct (Z.leb_spec (ub - lb + 1) 65536) as [S|S].
  - apply wh_small; auto. now apply cwn_whole.
  - rewrite noct_3 by lia. pose proof (noct_pos (n - lb)). pose proof (noct_mono (n - lb) (ub - lb) ltac:(lia)).
    rewrite render_cons2. eapply wh_big; [lia|apply least_octets_noct; lia|apply least_octets_noct; lia| | |].
    + unfold count. replace (_ <? 65536) with true by lia. apply cwn_whole; lia.
    + apply unsigned_to_bits. split; [lia|apply noct_lt; lia].
    + rewrite render_al. apply at_octet_pad.
Qed.

Lemma semi_fields_semi n lb pos : lb <= n -> Z.of_nat (noct (n - lb)) < 16384 ->
  semi lb n pos (render pos (semi_fields n lb)).
Proof.
  intros H R. unfold semi_fields. rewrite render_cons2. pose proof (noct_pos (n - lb)).
  eapply semi_intro; [apply least_octets_noct; lia|apply len_general; lia| |].
  - apply unsigned_to_bits. split; [lia|apply noct_lt; lia].
  - rewrite render_al. apply at_octet_pad.
Qed.

Lemma unc_unbounded z pos : Z.of_nat (toct z) < 128 -> unbounded z pos (render pos [unc_field z]).
Proof.
  intros H. unfold unc_field. rewrite render_al, app_assoc. pose proof (toct_pos z).
  eapply unbounded_intro; [apply toct_shortest|apply to_bits_length| |].
  - change 8%nat with (S 7) at 1. rewrite to_bits_S by (change (2 ^ Z.of_nat 7) with 128; lia).
    eapply gl_short; [lia| |apply at_octet_pad]. apply unsigned_to_bits. change (2 ^ Z.of_nat 7) with 128. lia.
  - apply at_octet_here. rewrite app_length, padding_length, to_bits_length.
    pose proof (up8_mod pos). unfold up8 in *. lia.
Qed.

Lemma nsn_small n pos : 0 <= n -> Z.of_nat (noct n) < 16384 -> small_number n pos (render pos (nsn_fields n)).
Proof.
  intros H R. unfold nsn_fields. destruct (Z.leb_spec n 63).
  - rewrite render_bit, render_na. apply sn_short; [lia|]. apply unsigned_to_bits. change (2 ^ Z.of_nat 6) with 64. lia.
  - rewrite render_bit. apply sn_long; [lia|]. pose proof (semi_fields_semi n 0 (pos + 1)) as S.
    unfold semi_fields in S. rewrite Z.sub_0_r in S. apply S; lia.
Qed.

Lemma nsl_small n pos : 1 <= n <= 64 -> small_length n pos (render pos (nsl_fields n)).
Proof.
  intros H. unfold nsl_fields. rewrite render_bit, render_na. apply sl_short; [lia|].
  apply unsigned_to_bits. change (2 ^ Z.of_nat 6) with 64. lia.
Qed.

(** * The objects the claim is made for *)

(** The end points the library computes are those of the constraint. *)
Definition visible (c : constr) : Prop := bounds c (cext c) (clo c) (chi c).

(** An INTEGER of the extension, or without a lower bound, has at most 127 octets,
    one with only a lower bound at most 16383. *)
Definition int_conf (c : constr) (z : Z) : Prop :=
  visible c /\ (cext c = false -> within (clo c) (chi c) z) /\
  if cext c && negb (inside c z) then sfits 127 z
  else match clo c, chi c with
       | Some l, Some h => ufits 65535 (h - l)
       | Some l, None => ufits 16383 (z - l)
       | None, _ => sfits 127 z
       end.

(** Enumeration numbers are those of their items in order. *)
Definition enum_conf (ext : bool) (root adds : list Z) (z : Z) : Prop :=
  numbered root adds /\ In z (root ++ adds) /\ (ext = false -> adds = []) /\
  ufits 65535 (zlen root - 1) /\ ufits 16383 (zlen adds).

(** A size sent with a general length is not 16384. *)
Definition general_size (c : constr) (n : Z) : Prop :=
  n = 16384 -> inside c n = true /\ forall h, chi c = Some h -> h < 65536.

(** The same, and an upper bound that is used is below 64K; with one of 64K or
    more, a size of at most 127 units counted from 0. *)
Definition limited_size (c : constr) (n : Z) : Prop :=
  if inside c n then forall h, chi c = Some h -> h < 65536 \/ (clo c = Some 0 /\ n <= 127) else n <> 16384.

Definition sizes (c : constr) (n : Z) : Prop :=
  visible c /\ (forall l, clo c = Some l -> 0 <= l) /\ (cext c = false -> within (clo c) (chi c) n).

(** An empty BIT STRING only where nothing is sent for it. *)
Definition bits_conf (c : constr) (s : bits) : Prop :=
  sizes c (zlen s) /\ general_size c (zlen s) /\ (s = [] -> cext c = false /\ chi c = Some 0).

(** An OCTET STRING of an extensible SIZE(0) is outside the root; the length of
    an empty one ends on an octet boundary. *)
Definition octs_conf (c : constr) (bs : list Z) : Prop :=
  Forall (fun b => 0 <= b < 256) bs /\ sizes c (zlen bs) /\ limited_size c (zlen bs) /\
  (cext c = true -> inside c (zlen bs) = true -> chi c <> Some 0) /\
  (bs = [] -> clo c = Some 0 -> forall h, chi c = Some h -> 0 < h -> 255 <= h).

(** * Simple types *)

Definition conforms (t : ty) (a : aval) (fs : list field) : Prop := forall pos, per t a pos (render pos fs).

Lemma within_inside c n : (exists l h, clo c = Some l /\ chi c = Some h) -> within (clo c) (chi c) n <-> inside c n = true.
Proof.
  intros (l & h & E & E'). unfold within, inside, above, below. rewrite E, E'. split.
  - intros (A & B). rewrite (proj2 (Z.leb_le l n) (A _ eq_refl)), (proj2 (Z.leb_le n h) (B _ eq_refl)). reflexivity.
  - intros H. split; intros x [= <-]; lia.
Qed.

Lemma chain_within c n b : chain_le (clo c) n (chi c) = Ok b -> within (clo c) (chi c) n <-> b = true.
Proof.
  unfold chain_le, within, above, below. destruct (clo c) as [l|]; [|discriminate]. cbn [need bind].
  destruct (Z.leb_spec l n) as [L|L].
  - destruct (chi c) as [h|]; [|discriminate]. cbn [need bind]. intros [= <-]. split.
    + intros (_ & B). specialize (B _ eq_refl). lia.
    + intros H. split; intros x [= <-]; lia.
  - intros [= <-]. split; [|discriminate]. intros (A & _). specialize (A _ eq_refl). lia.
Qed.

Lemma length_unconstrained_inv n fs : 0 <= n -> n <> 16384 -> length_unconstrained n = Ok fs ->
  fs = [len_field n] /\ n < 16384.
Proof.
  intros H N E. destruct (Z.lt_ge_cases n 16384) as [L|L].
  - rewrite length_unconstrained_ok in E by lia. split; congruence.
  - unfold length_unconstrained in E. replace (n <=? 127) with false in E by lia.
    replace ((127 <? n) && (n <=? 16384)) with false in E by lia. discriminate.
Qed.

Lemma ufits_noct k z : ufits k z -> 1 <= k -> Z.of_nat (noct z) <= k.
Proof. intros U K. apply noct_ufits; auto. eapply ufits_nonneg; eauto. Qed.

Lemma integer_conforms c z fs : int_conf c z -> encode_integer c z = Ok fs -> conforms (TInt c) (AInt z) fs.
Proof.
  intros (V & W & L) E pos. unfold conforms. cbn [per]. exists (cext c), (clo c), (chi c). split; [exact V|].
  assert (S : sfits 127 z -> Z.of_nat (toct z) < 128).
  { intros H. apply toct_sfits in H; lia. }
  unfold encode_integer in E. destruct (cext c) eqn:X; cbn [andb] in L.
  - destruct (chain_le (clo c) z (chi c)) as [b|] eqn:C; [|discriminate]. cbn [bind] in E.
    pose proof (chain_within _ _ _ C) as I. pose proof (chain_inside _ _ _ C) as J. rewrite J in L. destruct b; cbn [negb] in L.
    + left. split; [now apply I|]. unfold inside in J.
      destruct (clo c) as [l|]; [|discriminate]. destruct (chi c) as [h|]; [|discriminate].
      apply ufits_noct in L; [|discriminate]. assert (l <= z <= h) by lia.
      rewrite cwn_fields_ok in E by auto. injection E as <-. rewrite render_bit. eexists. split; [reflexivity|].
      eapply int_both; eauto. apply cwn_fields_whole; auto. lia.
    + right. split; [intros K; apply I in K; discriminate|].
      rewrite unconstrained_ok in E by (specialize (S L); lia). injection E as <-. rewrite render_bit. eexists.
      split; [reflexivity|]. apply unc_unbounded; auto.
  - specialize (W eq_refl). split; [exact W|]. destruct W as (A & B).
    destruct (clo c) as [l|]; [specialize (A _ eq_refl); destruct (chi c) as [h|]; [specialize (B _ eq_refl)|]|].
    + rewrite cwn_fields_ok in E by auto. injection E as <-. apply ufits_noct in L; [|discriminate].
      eapply int_both; eauto. apply cwn_fields_whole; auto. lia.
    + apply ufits_noct in L; [|discriminate]. cbn [bind] in E. unfold encode_semi_constrained_whole_number in E.
      rewrite min_octets_ok in E by lia. cbn [bind fbits] in E. rewrite octets_of_to_bits in E.
      rewrite length_unconstrained_ok in E by lia. injection E as <-.
      eapply int_low; eauto. apply semi_fields_semi; auto. lia.
    + rewrite unconstrained_ok in E by (specialize (S L); lia). injection E as <-.
      apply int_free; auto. apply unc_unbounded; auto.
Qed.

Lemma filter_lt_seq k n z : 0 <= z -> (Z.to_nat z <= k + n)%nat -> (k <= Z.to_nat z)%nat ->
  List.length (filter (fun x => x <? z) (map Z.of_nat (List.seq k n))) = (Z.to_nat z - k)%nat.
Proof.
  revert k. induction n as [|n IH]; intros k Z K L; cbn [List.seq map filter List.length]; [lia|].
  destruct (Z.ltb_spec (Z.of_nat k) z).
  - cbn [List.length]. rewrite IH by lia. lia.
  - replace (Z.to_nat z) with k by lia. assert (N : forall j m, (k <= j)%nat ->
      filter (fun x => x <? z) (map Z.of_nat (List.seq j m)) = []).
    { intros j m. revert j. induction m as [|m IHm]; intros j J; [reflexivity|]. cbn [List.seq map filter].
      replace (Z.of_nat j <? z) with false by lia. apply IHm. lia. }
    rewrite N by lia. cbn [List.length]. lia.
Qed.

Lemma seq_split k n m : List.seq k (n + m) = List.seq k n ++ List.seq (k + n) m.
Proof. apply seq_app. Qed.

Lemma numbered_lists root adds : numbered root adds ->
  root = map Z.of_nat (List.seq 0 (List.length root)) /\
  adds = map Z.of_nat (List.seq (List.length root) (List.length adds)).
Proof.
  unfold numbered. rewrite app_length, seq_app, map_app. intros E.
  apply app_inv_length in E; [exact E|]. now rewrite map_length, seq_length.
Qed.

Lemma rank_root root adds z : numbered root adds -> 0 <= z < zlen root -> rank root z = z.
Proof.
  intros N H. apply numbered_lists in N as (N & _). unfold rank, zlen in *. rewrite N, filter_lt_seq; lia.
Qed.

Lemma rank_adds root adds z : numbered root adds -> zlen root <= z < zlen root + zlen adds ->
  rank adds z = z - zlen root.
Proof.
  intros N H. apply numbered_lists in N as (_ & N). unfold rank, zlen in *. rewrite N, filter_lt_seq; lia.
Qed.

Lemma enumerated_conforms ext root adds z fs : enum_conf ext root adds z ->
  encode_enumerated ext root adds z = Ok fs -> conforms (TEnum ext root adds) (AEnum z) fs.
Proof.
  intros (N & I & X & L1 & L2) E pos. cbn [per]. unfold per_enumerated. cbv zeta.
  destruct (numbered_in _ _ _ N I) as (R & J). unfold zlen in R at 1. rewrite app_length, Nat2Z.inj_add in R. fold (zlen root) (zlen adds) in R.
  apply ufits_noct in L2; [|discriminate].
  apply ufits_noct in L1; [|discriminate]. change (Z.of_nat (len root) - 1) with (zlen root - 1).
  unfold encode_enumerated in E. destruct ext; cbn [negb] in E.
  - destruct (existsb (Z.eqb z) root) eqn:Q.
    + apply existsb_Zeqb in Q. left. split; [exact Q|]. apply J in Q.
      rewrite cwn_fields_ok in E by lia. injection E as <-. rewrite render_bit. eexists. split; [reflexivity|].
      rewrite (rank_root root adds) by (auto; lia). apply cwn_fields_whole; rewrite ?Z.sub_0_r; lia.
    + right. assert (Q' : ~ In z root) by (rewrite <- existsb_Zeqb; congruence). split; [exact Q'|].
      assert (A : In z adds) by (apply in_app_or in I as [|]; tauto). split; [exact A|].
      rewrite (zindex_numbered root adds z) in E by auto. cbn [bind] in E.
      assert (K : ~ z < zlen root) by (rewrite <- J; exact Q').
      assert (U : Z.of_nat (noct (z - zlen root)) < 16384).
      { pose proof (noct_mono (z - zlen root) (zlen adds)). lia. }
      rewrite normally_small_ok in E by (auto; lia). injection E as <-. rewrite render_bit. eexists. split; [reflexivity|].
      rewrite (rank_adds root adds) by (auto; lia). apply nsn_small; auto; lia.
  - specialize (X eq_refl). subst adds. rewrite app_nil_r in *. unfold zlen in R at 2. cbn [List.length] in R.
    assert (Q : In z root) by exact I. split; [exact Q|]. apply J in Q. rewrite cwn_fields_ok in E by lia. injection E as <-.
    rewrite (rank_root root []) by (auto; lia). apply cwn_fields_whole; rewrite ?Z.sub_0_r; lia.
Qed.

Lemma general_size_not c n : (inside c n = false \/ ~ (forall h, chi c = Some h -> h < 65536)) -> general_size c n -> n <> 16384.
Proof. intros [A|A] G E; destruct (G E) as (H & K); [congruence|contradiction]. Qed.

Definition filled (o : option (list field)) : list field := match o with Some fs => fs | None => [] end.

Lemma content_al pos s : s <> [] -> content pos s (render pos [F true s]).
Proof. intros H. apply content_some; auto. rewrite render_al. apply at_octet_pad. Qed.

Lemma bits_sized c s o pos : s <> [] -> (forall l, clo c = Some l -> 0 <= l) -> within (clo c) (chi c) (zlen s) ->
  general_size c (zlen s) -> bits_after c s = Ok o ->
  sized 16 (clo c) (chi c) (zlen s) s pos (render pos (filled o)).
Proof.
  intros N P (A & B) G E. pose proof (zlen_pos s N) as Q. unfold bits_after in E. cbv zeta in E.
  destruct (opt_is (chi c) 0) eqn:E0.
  { unfold opt_is in E0. destruct (chi c) as [h|]; [|discriminate]. specialize (B _ eq_refl). lia. }
  assert (H0 : chi c <> Some 0) by (intros X; rewrite X in E0; discriminate).
  destruct (some_eq (clo c) (chi c)) eqn:E1.
  { unfold some_eq in E1. destruct (clo c) as [l|] eqn:EL; [|discriminate]. destruct (chi c) as [h|] eqn:EH; [|discriminate].
    specialize (A _ eq_refl). specialize (B _ eq_refl). assert (l = zlen s) by lia. assert (h = zlen s) by lia. subst l h.
    destruct (Z.leb_spec (zlen s) 16).
    - injection E as <-. cbn [filled]. rewrite render_na. apply (sz_short _ _ _ _ _ _ (zlen s)); auto; lia.
    - destruct ((16 <? zlen s) && (zlen s <? 65536)) eqn:E2; [|discriminate]. injection E as <-. cbn [filled].
      rewrite render_al. apply (sz_fixed _ _ _ _ _ _ (zlen s)); auto; [lia|]. apply at_octet_pad. }
  assert (H1 : forall k, clo c = Some k -> chi c = Some k -> 65536 <= k).
  { intros k X Y. rewrite X, Y in E1. cbn [some_eq] in E1. lia. }
  destruct (truthy (chi c) && lt65536 (chi c)) eqn:E2.
  - destruct (chi c) as [h|] eqn:EH; [|discriminate]. cbn [truthy lt65536] in E2. specialize (B _ eq_refl).
    destruct (clo c) as [l|] eqn:EL; [|discriminate]. specialize (A _ eq_refl). specialize (P _ eq_refl).
    rewrite length_constrained_ok in E by lia. cbn [bind app] in E. injection E as <-. cbn [filled].
    rewrite render_cons2. apply sz_length; auto; [|now apply content_al].
    unfold count, floor. replace (h <? 65536) with true by lia. apply cwn_whole; lia.
  - assert (D : zlen s <> 16384).
    { eapply general_size_not; [|exact G]. unfold inside. destruct (chi c) as [h|]; [|left; destruct (clo c); reflexivity].
      right. intros K. specialize (K _ eq_refl). specialize (B _ eq_refl). cbn [truthy lt65536] in E2. lia. }
    destruct (length_unconstrained (zlen s)) as [det|] eqn:E3; [|discriminate].
    apply length_unconstrained_inv in E3 as (-> & L); [|lia|auto]. cbn [bind app] in E. injection E as <-. cbn [filled].
    rewrite render_cons2. apply sz_length; auto; [|now apply content_al].
    unfold count. destruct (chi c) as [h|]; [|apply len_general; lia]. cbn [truthy lt65536] in E2. specialize (B _ eq_refl).
    replace (h <? 65536) with false by lia. apply len_general; lia.
Qed.

Lemma bits_conforms c s fs : bits_conf c s -> fill (encode_bitstring c s) = Ok fs ->
  conforms (TBits c) (ABits s) fs.
Proof.
  intros ((V & P & W) & G & N) E pos. cbn [per]. exists (cext c), (clo c), (chi c). split; [exact V|].
  change (Z.of_nat (len s)) with (zlen s).
  rewrite encode_bits_eq in E. cbv zeta in E.
  assert (D : s = [] \/ s <> []) by (destruct s; [now left|right; discriminate]). destruct D as [D|D].
  - destruct (N D) as (X & H). subst s. rewrite X in *. specialize (W eq_refl).
    unfold bits_after in E. rewrite H in E |- *. cbn in E. injection E as <-. cbn [render]. rewrite <- H.
    split; [exact W|]. now apply sz_zero.
  - rewrite as_binary_id in E by auto. destruct (cext c) eqn:X.
    + destruct (chain_le (clo c) (zlen s) (chi c)) as [b|] eqn:C; [|discriminate]. cbn [bind] in E.
      pose proof (chain_within _ _ _ C) as I. pose proof (chain_inside _ _ _ C) as J. destruct b.
      * left. split; [now apply I|]. destruct (bits_after c s) as [o|] eqn:EA; [|discriminate]. cbn [bind fill] in E.
        assert (O : exists f, o = Some f).
        { destruct o; eauto. unfold bits_after in EA. cbv zeta in EA. destruct (opt_is (chi c) 0) eqn:Q.
          - unfold opt_is in Q. destruct (chi c) as [h|] eqn:EH; [|discriminate].
            assert (Y : within (clo c) (Some h) (zlen s)) by (now apply I). destruct Y as (_ & Y). specialize (Y _ eq_refl).
            pose proof (zlen_pos s D). lia.
          - destruct (some_eq _ _); [destruct (_ <=? _); [discriminate|]; destruct (_ && _); discriminate|].
            destruct (_ && _); [destruct (length_constrained _ _ _)|destruct (length_unconstrained _)]; discriminate. }
        destruct O as (f & ->). injection E as <-. rewrite render_bit. eexists. split; [reflexivity|].
        change f with (filled (Some f)). apply bits_sized; auto. now apply I.
      * right. split; [intros K; apply I in K; discriminate|].
        destruct (length_unconstrained (zlen s)) as [det|] eqn:E3; [|discriminate].
        apply length_unconstrained_inv in E3 as (-> & L); [|unfold zlen; lia|eapply general_size_not; eauto].
        cbn [bind app fill] in E. injection E as <-. rewrite render_bit, render_cons2.
        set (d := render (pos + 1) [len_field (zlen s)]). exists d, (render (pos + 1 + len d) [F true s]).
        split; [reflexivity|]. split; [apply len_general; unfold zlen in *; lia|now apply content_al].
    + specialize (W eq_refl). split; [exact W|]. destruct (bits_after c s) as [o|] eqn:EA; [|discriminate].
      injection E as <-. now apply bits_sized.
Qed.

(** An aligned string of no octets, on an octet boundary. *)
Lemma content_octs pos bs : bs <> [] \/ Nat.modulo pos 8 = 0%nat -> content pos (obits bs) (render pos [F true (obits bs)]).
Proof.
  intros [H|H].
  - apply content_al. destruct bs; [congruence|]. rewrite obits_cons. intros X.
    apply (f_equal (@List.length _)) in X. rewrite app_length, to_bits_length in X. discriminate.
  - destruct bs as [|b bs].
    + rewrite render_al. unfold padding. rewrite padn_0 by auto. constructor.
    + apply content_al. intros X. apply (f_equal (@List.length _)) in X. rewrite obits_length in X. discriminate.
Qed.

Lemma cwn_field_mod8 n lb ub pos : 256 <= ub - lb + 1 ->
  Nat.modulo (pos + len (render pos [cwn_field n lb ub])) 8 = 0%nat.
Proof.
  intros H. unfold cwn_field. replace (ub - lb + 1 =? 1) with false by lia. replace (ub - lb + 1 <=? 255) with false by lia.
  pose proof (up8_mod pos) as U. unfold up8 in U.
  destruct (Z.eqb_spec (ub - lb + 1) 256); [|destruct (ub - lb + 1 <=? 65536)];
    rewrite render_al, app_length, padding_length, to_bits_length; lia.
Qed.

Lemma octs_sized c bs o pos : (forall l, clo c = Some l -> 0 <= l) -> within (clo c) (chi c) (zlen bs) ->
  limited_size c (zlen bs) ->
  (bs = [] -> clo c = Some 0 -> forall h, chi c = Some h -> 0 < h -> 255 <= h) ->
  octs_after c bs = Ok o ->
  sized 2 (clo c) (chi c) (zlen bs) (obits bs) pos (render pos (filled o)).
Proof.
  intros P (A & B) G N E. assert (Q : 0 <= zlen bs) by (unfold zlen; lia). unfold octs_after in E. cbv zeta in E.
  destruct (opt_is (chi c) 0) eqn:E0.
  { injection E as <-. apply sz_zero. unfold opt_is in E0. destruct (chi c) as [h|]; [|discriminate]. f_equal. lia. }
  assert (H0 : chi c <> Some 0) by (intros X; rewrite X in E0; discriminate).
  destruct (some_eq (clo c) (chi c)) eqn:E1.
  { unfold some_eq in E1. destruct (clo c) as [l|] eqn:EL; [|discriminate]. destruct (chi c) as [h|] eqn:EH; [|discriminate].
    specialize (A _ eq_refl). specialize (B _ eq_refl). assert (l = zlen bs) by lia. assert (h = zlen bs) by lia. subst l h.
    assert (zlen bs <> 0) by congruence.
    destruct (Z.leb_spec (zlen bs) 2).
    - injection E as <-. cbn [filled]. rewrite render_na. apply (sz_short _ _ _ _ _ _ (zlen bs)); auto; lia.
    - destruct ((2 <? zlen bs) && (zlen bs <? 65536)) eqn:E2; [|discriminate]. injection E as <-. cbn [filled].
      rewrite render_al. apply (sz_fixed _ _ _ _ _ _ (zlen bs)); auto; [lia|]. apply at_octet_pad. }
  assert (H1 : forall k, clo c = Some k -> chi c = Some k -> 65536 <= k).
  { intros k X Y. rewrite X, Y in E1. cbn [some_eq] in E1. lia. }
  destruct (truthy (chi c)) eqn:E2.
  - destruct (chi c) as [h|] eqn:EH; [|discriminate]. cbn [truthy] in E2. specialize (B _ eq_refl).
    destruct (clo c) as [l|] eqn:EL; [|discriminate]. specialize (A _ eq_refl). specialize (P _ eq_refl).
    assert (K : h < 65536 \/ (l = 0 /\ zlen bs <= 127)).
    { unfold limited_size, inside in G. rewrite EL, EH in G. replace (_ && _) with true in G by lia.
      destruct (G _ eq_refl) as [K|(K & K')]; [now left|right]. split; [congruence|exact K']. }
    cbn [some_eq] in E1.
    rewrite length_constrained_ok in E by lia. cbn [bind app] in E. injection E as <-. cbn [filled].
    rewrite render_cons2. apply sz_length; auto.
    + unfold floor. apply cwn_count; auto; lia.
    + apply content_octs. destruct bs as [|b bs]; [right|left; discriminate].
      change (zlen []) with 0 in *. assert (l = 0) by lia. subst l. specialize (N eq_refl eq_refl _ eq_refl ltac:(lia)). apply cwn_field_mod8. lia.
  - assert (D : zlen bs <> 16384).
    { unfold limited_size, inside in G. destruct (chi c) as [h|]; [|destruct (clo c); exact G].
      cbn [truthy opt_is] in E2, E0. rewrite E0 in E2. discriminate. }
    destruct (length_unconstrained (zlen bs)) as [det|] eqn:E3; [|discriminate].
    apply length_unconstrained_inv in E3 as (-> & L); [|lia|auto]. cbn [bind app] in E. injection E as <-. cbn [filled].
    rewrite render_cons2. apply sz_length; auto.
    + unfold count. destruct (chi c) as [h|]; [|apply len_general; lia].
      cbn [truthy opt_is] in E2, E0. rewrite E0 in E2. discriminate.
    + apply content_octs. right. apply render_len_mod8.
Qed.

Lemma octs_conforms c bs fs : octs_conf c bs -> fill (encode_octetstring c bs) = Ok fs ->
  conforms (TOcts c) (AOcts bs) fs.
Proof.
  intros (O & (V & P & W) & G & Z0 & N) E pos. cbn [per]. split; [exact O|].
  exists (cext c), (clo c), (chi c). split; [exact V|]. rewrite bytes_bits_obits.
  change (Z.of_nat (len bs)) with (zlen bs).
  rewrite encode_octs_eq in E by exact O. destruct (cext c) eqn:X.
  - destruct (chain_le (clo c) (zlen bs) (chi c)) as [b|] eqn:C; [|discriminate]. cbn [bind] in E.
    pose proof (chain_within _ _ _ C) as I. pose proof (chain_inside _ _ _ C) as J. destruct b.
    + left. split; [now apply I|]. destruct (octs_after c bs) as [o|] eqn:EA; [|discriminate]. cbn [bind fill] in E.
      specialize (Z0 eq_refl J).
      assert (K : exists f, o = Some f).
      { destruct o; eauto. unfold octs_after in EA. cbv zeta in EA. destruct (opt_is (chi c) 0) eqn:Q.
        - exfalso. apply Z0. unfold opt_is in Q. destruct (chi c) as [h|]; [|discriminate]. f_equal. lia.
        - destruct (some_eq _ _); [destruct (_ <=? _); [discriminate|]; destruct (_ && _); discriminate|].
          destruct (truthy _); [destruct (length_constrained _ _ _)|destruct (length_unconstrained _)]; discriminate. }
      destruct K as (f & ->). injection E as <-. rewrite render_bit. eexists. split; [reflexivity|].
      change f with (filled (Some f)). apply octs_sized; auto. now apply I.
    + right. split; [intros K; apply I in K; discriminate|]. unfold limited_size in G. rewrite J in G.
      destruct (length_unconstrained (zlen bs)) as [det|] eqn:E3; [|discriminate].
      apply length_unconstrained_inv in E3 as (-> & L); [|unfold zlen; lia|auto].
      cbn [bind app fill] in E. injection E as <-. rewrite render_bit, render_cons2, render_na.
      set (d := render (pos + 1) [len_field (zlen bs)]). exists d, (obits bs).
      split; [reflexivity|]. split; [apply len_general; unfold zlen in *; lia|].
      assert (M : Nat.modulo (pos + 1 + len d) 8 = 0%nat) by apply render_len_mod8.
      pose proof (content_octs (pos + 1 + len d) bs (or_intror M)) as K. now rewrite render_true_one in K.
  - specialize (W eq_refl). split; [exact W|]. destruct (octs_after c bs) as [o|] eqn:EA; [|discriminate].
    injection E as <-. now apply octs_sized.
Qed.

(** * Constructed types: the objects the claim is made for *)

Definition open_conf (t : ty) (v : val) : Prop := forall bs, encode t v = Ok bs -> zlen bs <> 16384.

(** A value equal to the DEFAULT, or one that differs from it both to the reader
    and to the comparison the library makes. *)
Definition default_conf (t : ty) (d v : val) : Prop :=
  v = d \/ (reading t v <> reading t d /\ forall a b, d = VBits a -> v = VBits b -> bval a <> bval b).

Definition conf_root (ca : comp ty * (val -> Prop)) (s : option val) : Prop :=
  let c := fst ca in
  let v := slot_get c s in
  match cpres c with
  | Mand => snd ca v
  | Opt => present (cty c) v = true -> snd ca v
  | Dflt d => default_conf (cty c) d v /\ (v <> d -> snd ca v)
  end.

(** An addition with a DEFAULT does not hold its default. *)
Definition conf_add (ca : comp ty * (val -> Prop)) (s : option val) : Prop :=
  let c := fst ca in
  let v := slot_get c s in
  present (cty c) v = true ->
  snd ca v /\ open_conf (cty c) v /\ forall d, cpres c = Dflt d -> reading (cty c) v <> reading (cty c) d.

(** This component of an addition group is to be sent. *)
Definition speaks (c : comp ty) (s : option val) : Prop :=
  let v := slot_get c s in
  match cpres c with
  | Mand => True
  | Opt => present (cty c) v = true
  | Dflt d => reading (cty c) v <> reading (cty c) d
  end.

(** A group with a value has a component to send. *)
Definition conf_group (g : list (comp ty * (val -> Prop))) (ss : list (option val)) : Prop :=
  let cs := map fst g in
  group_valued cs ss = true ->
  all_of (zipw conf_root g ss) /\ some_of (zipw speaks cs ss) /\
  open_conf (TSeq false cs [] []) (VSeq (Some (firstn (List.length cs) ss))).

Fixpoint conf_groups (gs : list (list (comp ty * (val -> Prop)))) (ss : list (option val)) : Prop :=
  match gs with
  | [] => True
  | g :: gs' => conf_group g ss /\ conf_groups gs' (skipn (List.length g) ss)
  end.

Fixpoint conf (t : ty) (v : val) {struct t} : Prop :=
  match t, v with
  | TBool, VBool _ => True
  | TInt c, VInt z => int_conf c z
  | TEnum ext root adds, VEnum z => enum_conf ext root adds z
  | TBits c, VBits s => bits_conf c s
  | TOcts c, VOcts bs => octs_conf c bs
  | TSeq ext root adds groups, VSeq slots =>
      let ss := slots_list (ncomps root adds groups) slots in
      NoDup (map cname (all_comps root adds groups)) /\
      List.length ss = ncomps root adds groups /\
      (ext = false -> adds = [] /\ groups = []) /\
      all_of (zipw conf_root (att conf root) ss) /\
      all_of (zipw conf_add (att conf adds) (skipn (List.length root) ss)) /\
      conf_groups (map (att conf) groups) (skipn (List.length root + List.length adds) ss)
  | TSeqOf c t', VSeqOf vs =>
      sizes c (zlen vs) /\ limited_size c (zlen vs) /\ all_of (map (conf t') vs)
  | TChoice ext root adds groups, VChoice (Some (i, v')) =>
      NoDup (map cname (all_comps root adds groups)) /\
      (ext = false -> adds = [] /\ groups = []) /\
      ufits 65535 (zlen (all_comps root adds groups)) /\
      match nth_error (att conf root ++ att conf adds ++ List.concat (map (att conf) groups)) i with
      | Some ca =>
          snd ca v' /\
          ((List.length root <= i)%nat -> ufits 16383 (Z.of_nat i) /\ open_conf (cty (fst ca)) v')
      | None => False
      end
  | _, _ => False
  end.

Definition conforming (t : ty) : Prop :=
  forall v fs, conf t v -> enc t v = Ok fs -> conforms t (reading t v) fs.

(** * Constructed types *)

Lemma complete_produce fs : complete (render 0 fs) (octs_of (produce_complete_encoding fs)).
Proof.
  pose proof (octs_of_obits _ (produce_mod8 fs)) as O. destruct (produce_spec fs) as (k & E & [H|(H & ->)]).
  - destruct (render 0 fs) as [|b r] eqn:R.
    + exfalso. cbn in H. subst k. cbn in E. now apply produce_nonempty in E.
    + rewrite <- R in *. apply (complete_some _ k).
      * rewrite R. discriminate.
      * subst k. apply padn_lt.
      * apply octs_of_octet.
      * rewrite bytes_bits_obits, O, E. reflexivity.
  - rewrite H in *. cbn [app] in E. rewrite E in *.
    replace (octs_of (repeat false 8)) with [0] by reflexivity. now apply complete_none.
Qed.

Lemma open_conforms (P : bits -> Prop) fs o pos : encode_open_type_field fs = Ok o ->
  zlen (octs_of (produce_complete_encoding fs)) <> 16384 -> P (render 0 fs) -> open_type P pos (render pos o).
Proof.
  intros E L H. unfold encode_open_type_field in E. set (s := produce_complete_encoding fs) in *.
  assert (O : obits (octs_of s) = s) by (apply octs_of_obits, produce_mod8).
  assert (OC : octets_of s = zlen (octs_of s)) by (rewrite <- O at 1; apply octets_of_obits).
  rewrite OC in E. destruct (length_unconstrained (zlen (octs_of s))) as [det|] eqn:E3; [|discriminate].
  apply length_unconstrained_inv in E3 as (-> & B); [|unfold zlen; lia|auto]. cbn [bind app] in E. injection E as <-.
  rewrite render_cons2, render_true_one by apply render_len_mod8.
  assert (X : open_type P pos (render pos [len_field (zlen (octs_of s))] ++ bytes_bits (octs_of s))).
  { eapply open_intro; [exact H|apply complete_produce|]. apply len_general. unfold zlen in *. lia. }
  now rewrite bytes_bits_obits, O in X.
Qed.

Lemma open_conf_enc t v fs : open_conf t v -> enc t v = Ok fs ->
  zlen (octs_of (produce_complete_encoding fs)) <> 16384.
Proof. intros H E. apply H. rewrite encode_spec, E. reflexivity. Qed.

Lemma raw_ne_equal t d v : raw_ne d v = Ok false -> default_conf t d v -> v = d.
Proof.
  intros R [H|(H & K)]; auto.
  destruct d, v; try discriminate; cbn [raw_ne] in R; injection R as R.
  - f_equal. destruct b, b0; auto; discriminate.
  - f_equal. lia.
  - f_equal. lia.
  - exfalso. apply (K _ _ eq_refl eq_refl). lia.
  - destruct (list_eq_dec Z.eq_dec bs bs0); [congruence|discriminate].
Qed.

Lemma raw_ne_differ t d v : raw_ne d v = Ok true -> default_conf t d v -> reading t v <> reading t d /\ v <> d.
Proof.
  intros R [H|(H & K)].
  - subst v. apply raw_ne_refl in R. discriminate.
  - split; auto. intros ->. now apply H.
Qed.

Lemma roots_conform look cs : Forall (fun c => conforming (cty c)) cs -> forall ss bm fs,
  Forall2 (looks look) cs ss -> all_of (zipw conf_root (att conf cs) ss) ->
  enc_root enc look cs = Ok (bm, fs) ->
  forall pos, roots (att per cs) (zipw read_root (att reading cs) ss) bm pos (render pos fs).
Proof.
  induction 1 as [|c cs Hc Hcs IH]; intros ss bm fs HL HS E pos.
  - inversion HL; subst. injection E as <- <-. constructor.
  - inversion HL as [|? s ? ss' Hl HL']; subst. cbn [enc_root] in E. rewrite Hl in E. cbn [bind] in E.
    cbn [att map zipw] in HS. fold (att conf cs) in HS. apply all_of_cons in HS as (HS1 & HS).
    unfold conf_root in HS1. cbn [fst snd] in HS1. cbv zeta in HS1.
    cbn [att map zipw]. fold (att per cs) (att reading cs). unfold read_root at 1. cbn [fst snd]. cbv zeta.
    set (v := slot_get c s) in *.
    match type of E with bind ?x _ = _ => destruct x as [[b1 f1]|] eqn:E1; [|discriminate] end.
    cbn [bind] in E. destruct (enc_root enc look cs) as [[b2 f2]|] eqn:E2; [|discriminate].
    cbn [bind fst snd] in E. injection E as <- <-. specialize (IH ss' b2 f2 HL' HS eq_refl).
    destruct (cpres c) as [| |d] eqn:P.
    + destruct (enc (cty c) v) as [f|] eqn:EV; [|discriminate]. injection E1 as <- <-. cbn [app].
      rewrite render_app. apply r_mand; auto. now apply Hc.
    + rewrite <- present_eq in E1. destruct (present (cty c) v).
      * destruct (enc (cty c) v) as [f|] eqn:EV; [|discriminate]. injection E1 as <- <-. cbn [app].
        rewrite render_app. apply r_opt; auto. apply Hc; auto.
      * injection E1 as <- <-. cbn [app]. apply r_opt_absent; auto.
    + destruct HS1 as (D & S). destruct (raw_ne d v) as [ne|] eqn:Ne; [|discriminate]. cbn [bind] in E1. destruct ne.
      * destruct (raw_ne_differ _ _ _ Ne D) as (RD & VD).
        destruct (enc (cty c) v) as [f|] eqn:EV; [|discriminate]. injection E1 as <- <-. cbn [app].
        rewrite render_app. eapply r_other; eauto. apply Hc; auto.
      * injection E1 as <- <-. cbn [app]. apply (raw_ne_equal (cty c)) in Ne as ->; auto. eapply r_default; eauto.
Qed.

Lemma plain_conforms look cs ss bm fs rf : Forall (fun c => conforming (cty c)) cs ->
  Forall2 (looks look) cs ss -> all_of (zipw conf_root (att conf cs) ss) ->
  enc_root enc look cs = Ok (bm, fs) -> root_fields (bm, fs) = Ok rf ->
  forall pos, plain_sequence (att per cs) (zipw read_root (att reading cs) ss) pos (render pos rf).
Proof.
  intros Hcs HL HS E Er pos. pose proof (roots_conform look cs Hcs ss bm fs HL HS E) as R.
  unfold root_fields in Er. cbn [fst snd] in Er. destruct bm as [|b bm].
  - injection Er as <-. exists [], (render pos fs). split; [reflexivity|]. cbn [List.length].
    rewrite Nat.add_0_r. apply R.
  - destruct (_ <? _) in Er; [|discriminate]. injection Er as <-. rewrite render_plain.
    exists (b :: bm), (render (pos + len (b :: bm)) fs). split; [reflexivity|]. apply R.
Qed.

Lemma adds_conform look gs gos gbm gfs cs : Forall (fun c => conforming (cty c)) cs ->
  (forall pos, additions [] gs gos gbm pos (render pos gfs)) -> forall ss prev bm fs,
  Forall2 (looks look) cs ss -> all_of (zipw conf_add (att conf cs) ss) ->
  enc_adds enc look prev cs = Ok (bm, fs) ->
  forall pos, additions (att per cs) gs (zipw read_ext (att reading cs) ss ++ gos) (bm ++ gbm) pos (render pos (fs ++ gfs)).
Proof.
  intros Hcs G. induction Hcs as [|c cs Hc Hcs IH]; intros ss prev bm fs HL HS E pos.
  - inversion HL; subst. injection E as <- <-. apply G.
  - inversion HL as [|? s ? ss' Hl HL']; subst. cbn [enc_adds] in E. rewrite Hl in E. cbn [bind] in E.
    cbn [att map zipw] in HS. fold (att conf cs) in HS. apply all_of_cons in HS as (HS1 & HS).
    unfold conf_add in HS1. cbn [fst snd] in HS1. cbv zeta in HS1.
    cbn [att map zipw app]. fold (att per cs) (att reading cs). unfold read_ext at 1. cbn [fst snd]. cbv zeta.
    set (v := slot_get c s) in *.
    match type of E with bind ?x _ = _ => destruct x as [[b1 f1]|] eqn:E1; [|discriminate] end.
    cbn [bind fst snd] in E.
    destruct (enc_adds enc look (Some (Prev (cname c) b1 (is_optional c))) cs) as [[b2 f2]|] eqn:E2; [|discriminate].
    cbn [bind fst snd] in E. injection E as <- <-. specialize (IH ss' _ b2 f2 HL' HS E2).
    assert (K : b1 = present (cty c) v /\
                (b1 = true -> exists f, enc (cty c) v = Ok f /\ encode_open_type_field f = Ok f1) /\ (b1 = false -> f1 = [])).
    { rewrite present_eq. destruct (is_value (cty c) v); cbn [andb].
      - destruct (prev_missing prev); [discriminate|]. destruct (comp_values_ok v).
        + destruct (enc (cty c) v) as [f|]; [|discriminate]. cbn [bind] in E1.
          destruct (encode_open_type_field f) as [o|] eqn:EO; [|discriminate]. injection E1 as <- <-.
          split; auto. split; [eauto|discriminate].
        + injection E1 as <- <-. split; auto. split; [discriminate|auto].
      - injection E1 as <- <-. split; auto. split; [discriminate|auto]. }
    destruct K as (-> & K1 & K2). destruct (present (cty c) v) eqn:V.
    + destruct (K1 eq_refl) as (f & EV & EO). destruct (HS1 eq_refl) as (Sv & So & Sd).
      rewrite <- app_assoc, render_app. apply a_sent.
      * intros [X|(d & P & X)]; [discriminate|]. cbn [fst] in P, X. injection X as X. now apply (Sd d P).
      * cbn [snd]. eapply open_conforms; eauto; [eapply open_conf_enc; eauto|]. now apply Hc.
      * apply IH.
    + rewrite (K2 eq_refl). cbn [app]. apply a_absent; auto. now left.
Qed.

Lemma speaks_not_silent g : forall ss, some_of (zipw speaks g ss) ->
  ~ Forall2 silent (att per g) (zipw read_root (att reading g) ss).
Proof.
  induction g as [|c g IH]; intros ss S H; [now apply some_of_nil in S|].
  destruct ss as [|s ss]; [now apply some_of_nil in S|].
  cbn [zipw att map] in S, H. fold (att per g) (att reading g) in H. inversion H as [|? ? ? ? H1 H2]; subst.
  apply some_of_cons in S as [S|S]; [|now apply (IH ss)]. unfold speaks in S. cbv zeta in S.
  unfold read_root in H1. cbn [fst snd] in H1. cbv zeta in H1. destruct H1 as [H1|(d & P & H1)]; cbn [fst] in *.
  - destruct (cpres c); try discriminate. rewrite S in H1. discriminate.
  - rewrite P in *. injection H1 as H1. contradiction.
Qed.

Lemma silent_none g : Forall2 silent (att per g) (map (fun _ => None) (att reading g)).
Proof. induction g as [|c g IH]; constructor; auto. now left. Qed.

Lemma group_open_conf look g ss bm fs rf : NoDup (map cname g) -> Forall2 (looks look) g ss ->
  enc_root enc look g = Ok (bm, fs) -> root_fields (bm, fs) = Ok rf ->
  open_conf (TSeq false g [] []) (VSeq (Some ss)) ->
  zlen (octs_of (produce_complete_encoding rf)) <> 16384.
Proof.
  intros ND HL E Er H. eapply open_conf_enc; [exact H|]. cbn [enc]. unfold encode_sequence.
  unfold all_comps. cbn [List.concat]. rewrite !app_nil_r.
  rewrite <- (enc_root_ext look _ g ss); auto.
  - rewrite E. cbn [bind]. rewrite Er. reflexivity.
  - apply (looks_all g (Some ss)); auto. cbn [slots_list]. symmetry. eapply Forall2_length; eauto.
Qed.

Lemma groups_conform look gs : Forall (Forall (fun c => conforming (cty c))) gs -> forall ss prevg bm fs,
  NoDup (map cname (List.concat gs)) -> Forall2 (looks look) (List.concat gs) ss ->
  conf_groups (map (att conf) gs) ss -> enc_groups enc look prevg gs = Ok (bm, fs) ->
  forall pos, additions [] (map (att per) gs) (read_groups (map (att reading) gs) ss) bm pos (render pos fs).
Proof.
  induction 1 as [|g gs Hg Hgs IH]; intros ss prevg bm fs ND HL HS E pos.
  - injection E as <- <-. apply a_nil.
  - cbn [List.concat] in HL, ND. apply Forall2_app_inv_l in HL as (s1 & s2 & HL1 & HL2 & ->).
    rewrite map_app in ND.
    assert (ND1 : NoDup (map cname g)) by (eapply NoDup_app_l; eauto).
    assert (ND2 : NoDup (map cname (List.concat gs))) by (eapply NoDup_app_r; eauto).
    pose proof (Forall2_length _ _ _ HL1) as L1.
    assert (SK : skipn (len g) (s1 ++ s2) = s2).
    { rewrite L1, skipn_app, skipn_all, Nat.sub_diag. reflexivity. }
    assert (FS : firstn (len g) (s1 ++ s2) = s1).
    { rewrite L1, firstn_app, firstn_all, Nat.sub_diag. cbn [firstn]. apply app_nil_r. }
    cbn [map conf_groups read_groups] in HS |- *. rewrite att_length, SK.
    destruct HS as (HS1 & HS2). rewrite att_length, SK in HS2. unfold conf_group in HS1. cbv zeta in HS1. rewrite att_fst, FS in HS1.
    unfold read_group. rewrite att_fst.
    rewrite group_valued_app in HS1 by lia. rewrite group_valued_app by lia.
    rewrite !zipw_app_r in HS1 by (rewrite ?att_length; lia). rewrite zipw_app_r by (rewrite ?att_length; lia).
    cbn [enc_groups] in E.
    destruct (group_scan look None g) as [ps|] eqn:E0; [|discriminate]. cbn [bind] in E.
    pose proof (group_scan_present look g _ None ps HL1 E0) as P.
    match type of E with bind ?x _ = _ => destruct x as [[b1 f1]|] eqn:E1; [|discriminate] end.
    cbn [bind fst snd] in E.
    destruct (enc_groups enc look (Some ps) gs) as [[b2 f2]|] eqn:E2; [|discriminate].
    cbn [bind fst snd] in E. injection E as <- <-. specialize (IH s2 _ _ _ ND2 HL2 HS2 E2).
    change (group_sent g s1) with (group_valued g s1) in P. rewrite <- P in *.
    destruct (existsb ppresent ps).
    + match type of E1 with bind ?x _ = _ => destruct x; [|discriminate] end. cbn [bind] in E1.
      destruct (enc_root enc look g) as [[gb gf]|] eqn:EG; [|discriminate]. cbn [bind] in E1.
      destruct (root_fields (gb, gf)) as [rf|] eqn:ER; [|discriminate]. cbn [bind] in E1.
      destruct (encode_open_type_field rf) as [o|] eqn:EO; [|discriminate]. injection E1 as <- <-.
      destruct (HS1 eq_refl) as (C1 & C2 & C3). rewrite render_app.
      apply a_group_sent; auto.
      * rewrite att_length, zipw_length; rewrite ?att_length; lia.
      * now apply speaks_not_silent.
      * apply (open_conforms _ rf); [exact EO|exact (group_open_conf look g s1 gb gf rf ND1 HL1 EG ER C3)|].
        exact (plain_conforms look g s1 gb gf rf Hg HL1 C1 EG ER 0%nat).
    + injection E1 as <- <-. cbn [app]. apply a_group_absent; auto.
      * now rewrite map_length, !att_length.
      * apply silent_none.
Qed.

Lemma additions_quiet cas gs os bm pos w : additions cas gs os bm pos w -> ~ In true bm ->
  w = [] /\ forall pos', additions cas gs os bm pos' [].
Proof.
  induction 1 as [pos|ca cas gs o os bm pos w S A IH|ca cas gs a os bm pos w1 w2 S O A IH
    |g gs go os bm pos w L S A IH|g gs go os bm pos w1 w2 L S O A IH]; intros N.
  - split; auto. constructor.
  - destruct IH as (-> & J); [intros X; apply N; now right|]. split; auto. intros p. now apply a_absent.
  - exfalso. apply N. now left.
  - destruct IH as (-> & J); [intros X; apply N; now right|]. split; auto. intros p. now apply a_group_absent.
  - exfalso. apply N. now left.
Qed.

Lemma sequence_conforms ext root adds groups :
  Forall (fun c => conforming (cty c)) root -> Forall (fun c => conforming (cty c)) adds ->
  Forall (Forall (fun c => conforming (cty c))) groups -> conforming (TSeq ext root adds groups).
Proof.
  intros Hr Ha Hg v fs S E pos. cbn [conf] in S.
  destruct v as [| | | | | |slots| |]; try contradiction.
  cbv zeta in S. destruct S as (ND & L & Hext & SR & SA & SG).
  cbn [enc] in E. unfold encode_sequence in E. cbv zeta in E.
  pose proof (looks_all _ slots ND L) as HL.
  fold (ncomps root adds groups) in HL. cbn [reading per]. cbv zeta.
  set (ss := slots_list (ncomps root adds groups) slots) in *.
  set (look := get_by_name (all_comps root adds groups) slots) in *.
  unfold all_comps in HL. apply Forall2_app_inv_l in HL as (s1 & s23 & HL1 & HL & Es).
  apply Forall2_app_inv_l in HL as (s2 & s3 & HL2 & HL3 & ->).
  pose proof (Forall2_length _ _ _ HL1) as L1. pose proof (Forall2_length _ _ _ HL2) as L2.
  pose proof (Forall2_length _ _ _ HL3) as L3.
  assert (K1 : skipn (len root) ss = s2 ++ s3) by (rewrite Es; apply skipn_len_app; auto).
  assert (K2 : skipn (len root + len adds) ss = s3).
  { rewrite Es, app_assoc. apply skipn_len_app. rewrite app_length. lia. }
  rewrite K1 in SA |- *. rewrite K2 in SG |- *. rewrite Es in SR |- *.
  rewrite !zipw_app_r in SR by (rewrite att_length; lia).
  rewrite !zipw_app_r in SA by (rewrite att_length; lia).
  rewrite (zipw_app_r read_root) by (rewrite att_length; lia).
  rewrite (zipw_app_r read_ext) by (rewrite att_length; lia).
  destruct (enc_root enc look root) as [[rb rfs]|] eqn:Er; [|discriminate]. cbn [bind] in E.
  destruct (root_fields (rb, rfs)) as [rf|] eqn:Erf; [|discriminate]. cbn [bind] in E.
  pose proof (plain_conforms look root s1 rb rfs rf Hr HL1 SR Er Erf) as RR.
  assert (ND3 : NoDup (map cname (List.concat groups))).
  { unfold all_comps in ND. rewrite !map_app in ND. eapply NoDup_app_r, NoDup_app_r; eauto. }
  unfold per_sequence. destruct ext.
  2:{ injection E as <-. destruct (Hext eq_refl) as (-> & ->). split; [reflexivity|]. split; [reflexivity|].
      cbn [att map zipw read_groups app]. rewrite app_nil_r. apply RR. }
  exists (zipw read_root (att reading root) s1),
         (zipw read_ext (att reading adds) s2 ++ read_groups (map (att reading) groups) s3).
  split; [reflexivity|].
  destruct (isnil adds && isnil groups) eqn:EN.
  - apply andb_true_iff in EN as (N1 & N2). destruct adds; [|discriminate]. destruct groups; [|discriminate].
    injection E as <-. left. exists [], (render (pos + 1) rf). rewrite render_bit. cbn [att map zipw read_groups app].
    split; [constructor|]. split; [intros []|]. split; [reflexivity|]. apply RR.
  - destruct (enc_adds enc look None adds) as [[ab af]|] eqn:EA; [|discriminate]. cbn [bind] in E.
    destruct (enc_groups enc look None groups) as [[gb gf]|] eqn:EG; [|discriminate]. cbn [bind fst snd] in E.
    pose proof (groups_conform look groups Hg s3 None gb gf ND3 HL3 SG EG) as GC.
    pose proof (adds_conform look _ _ gb gf adds Ha GC s2 None ab af HL2 SA EA) as AC.
    destruct (Z.ltb_spec 0 (bval (ab ++ gb))) as [P|P].
    + apply bval_pos in P.
      destruct (length_normally_small (zlen (ab ++ gb))) as [det|] eqn:ED; [|discriminate]. cbn [bind] in E.
      injection E as <-. right.
      assert (B1 : 1 <= zlen (ab ++ gb)) by (apply zlen_pos; intros X; rewrite X in P; destruct P).
      pose proof (length_normally_small_inv _ _ ED) as B2. rewrite length_normally_small_ok in ED by lia. injection ED as <-.
      rewrite render_bit, render_app, render_app, render_plain.
      eexists _, _, _, _. split; [exact P|]. split; [reflexivity|].
      split; [apply RR|]. split; [apply nsl_small; lia|]. apply AC.
    + injection E as <-. left.
      assert (N : ~ In true (ab ++ gb)) by (rewrite <- bval_pos; lia).
      destruct (additions_quiet _ _ _ _ _ _ (AC 0%nat) N) as (_ & Q).
      exists (ab ++ gb), (render (pos + 1) rf). rewrite render_bit. split; [apply Q|]. split; [exact N|].
      split; [reflexivity|]. apply RR.
Qed.

Lemma elements_conform t : conforming t -> forall vs body, all_of (map (conf t) vs) ->
  enc_list (enc t) vs = Ok body ->
  forall pos, elements (per t) (map (reading t) vs) pos (render pos body).
Proof.
  intros Ht. induction vs as [|v vs IH]; intros body S E pos; cbn [enc_list] in E.
  - injection E as <-. constructor.
  - cbn [map] in S. apply all_of_cons in S as (Sv & S).
    destruct (enc t v) as [a|] eqn:Ea; [|discriminate]. cbn [bind] in E.
    destruct (enc_list (enc t) vs) as [b|] eqn:Eb; [|discriminate]. injection E as <-.
    cbn [map]. rewrite render_app. constructor; [now apply Ht|]. now apply IH.
Qed.

Lemma seqof_conforms c t : conforming t -> conforming (TSeqOf c t).
Proof.
  intros Ht v fs S E pos. cbn [conf] in S. destruct v as [| | | | | | |vs|]; try contradiction.
  destruct S as ((V & P & W) & G & SE). cbn [enc] in E.
  destruct (enc_list (enc t) vs) as [body|] eqn:EB; [|discriminate]. cbn [bind] in E.
  pose proof (elements_conform t Ht vs body SE EB) as B. cbn [reading per]. unfold per_list. cbv zeta. rewrite map_length.
  change (Z.of_nat (len vs)) with (zlen vs). exists (cext c), (clo c), (chi c). split; [exact V|].
  assert (Q : 0 <= zlen vs) by (unfold zlen; lia). unfold encode_sequence_of in E. unfold limited_size in G.
  assert (CNT : forall l h q, clo c = Some l -> chi c = Some h -> l <= zlen vs <= h -> h < 65536 \/ (Some l = Some 0 /\ zlen vs <= 127) ->
    elem_count (clo c) (chi c) (zlen vs) q (render q [cwn_field (zlen vs) l h])).
  { intros l h q EL EH I K. specialize (P _ EL). rewrite EL, EH. destruct (Z.eq_dec l h) as [->|N].
    - unfold cwn_field. replace (h - h + 1 =? 1) with true by lia. apply (ec_fixed _ _ _ _ h); auto.
      destruct K as [K|([= K] & K')]; lia.
    - apply ec_count; [intros k [= <-] [= X]; congruence|]. unfold floor. apply cwn_count; auto; [lia|].
      destruct K as [K|([= K] & K')]; auto. }
  destruct (cext c) eqn:X.
  - destruct (chain_le (clo c) (zlen vs) (chi c)) as [b|] eqn:C; [|discriminate]. cbn [bind] in E.
    pose proof (chain_within _ _ _ C) as I. pose proof (chain_inside _ _ _ C) as J. rewrite J in G. destruct b.
    + left. split; [now apply I|]. unfold inside in J.
      destruct (clo c) as [l|] eqn:EL; [|discriminate]. destruct (chi c) as [h|] eqn:EH; [|discriminate].
      rewrite length_constrained_ok in E by lia. cbn [bind app] in E. injection E as <-.
      rewrite render_bit, render_cons2. refine (ex_intro _ _ (ex_intro _ _ (conj eq_refl (conj _ (B _))))).
      apply CNT; auto; lia.
    + right. split; [intros K; apply I in K; discriminate|].
      destruct (length_unconstrained (zlen vs)) as [det|] eqn:E3; [|discriminate].
      apply length_unconstrained_inv in E3 as (-> & L); [|lia|auto]. cbn [bind app] in E. injection E as <-.
      rewrite render_bit, render_cons2. refine (ex_intro _ _ (ex_intro _ _ (conj eq_refl (conj _ (B _))))). apply len_general. lia.
  - specialize (W eq_refl). split; [exact W|]. destruct W as (A & U).
    destruct (clo c) as [l|] eqn:EL; [|discriminate]. cbn [need bind] in E. specialize (A _ eq_refl).
    replace (zlen vs <? l) with false in E by lia.
    destruct (chi c) as [h|] eqn:EH.
    + specialize (U _ eq_refl). assert (J : inside c (zlen vs) = true) by (unfold inside; rewrite EL, EH; lia).
      rewrite J in G. specialize (G _ eq_refl).
      cbn [le_opt_r] in E. replace (zlen vs <=? h) with true in E by lia. cbn [negb] in E. rewrite andb_false_r in E.
      cbn [opt_is truthy] in E. destruct ((h =? l) && (l <? 65536)) eqn:EQ.
      * injection E as <-. exists [], (render pos body). split; [reflexivity|]. split.
        -- apply (ec_fixed _ _ _ _ l); [lia|reflexivity|f_equal; lia].
        -- cbn [List.length]. rewrite Nat.add_0_r. apply B.
      * specialize (P _ eq_refl). replace (negb (h =? 0)) with true in E by lia.
        rewrite length_constrained_ok in E by lia. cbn [bind app] in E. injection E as <-.
        rewrite render_cons2. refine (ex_intro _ _ (ex_intro _ _ (conj eq_refl (conj _ (B _))))). apply CNT; auto; lia.
    + cbn [truthy andb opt_is] in E. assert (J : inside c (zlen vs) = false) by (unfold inside; rewrite EL, EH; reflexivity).
      rewrite J in G. destruct (length_unconstrained (zlen vs)) as [det|] eqn:E3; [|discriminate].
      apply length_unconstrained_inv in E3 as (-> & L); [|lia|auto]. cbn [bind app] in E. injection E as <-.
      rewrite render_cons2. refine (ex_intro _ _ (ex_intro _ _ (conj eq_refl (conj _ (B _))))).
      apply ec_count; [discriminate|]. apply len_general. lia.
Qed.

Lemma choice_conforms ext root adds groups :
  Forall (fun c => conforming (cty c)) root -> Forall (fun c => conforming (cty c)) adds ->
  Forall (Forall (fun c => conforming (cty c))) groups -> conforming (TChoice ext root adds groups).
Proof.
  intros Hr Ha Hg v fs S E pos. cbn [conf] in S.
  destruct v as [| | | | | | | |[[i v']|]]; try contradiction.
  destruct S as (ND & Hext & Hn & S). rewrite all_att, nth_error_att in S.
  destruct (nth_error (all_comps root adds groups) i) as [c|] eqn:EC; [|contradiction].
  cbn [fst snd] in S. destruct S as (Sv & Sx).
  set (AB := adds ++ List.concat groups).
  assert (Hall : Forall (fun c => conforming (cty c)) (root ++ AB)).
  { unfold AB. apply Forall_app. split; auto. apply Forall_app. split; auto. now apply Forall_concat. }
  assert (Hc : conforming (cty c)).
  { apply nth_error_In in EC. rewrite Forall_forall in Hall. now apply Hall. }
  cbn [enc] in E.
  assert (EM : map (fun c0 : comp ty => (cname c0, enc (cty c0))) root ++
               map (fun c0 => (cname c0, enc (cty c0))) adds ++
               List.concat (map (map (fun c0 => (cname c0, enc (cty c0)))) groups) =
               map (fun c0 => (cname c0, enc (cty c0))) (all_comps root adds groups)).
  { unfold all_comps. rewrite !map_app, concat_map. reflexivity. }
  rewrite EM, nth_error_map, EC in E. cbn [option_map] in E. clear EM.
  destruct (enc (cty c) v') as [body|] eqn:EB; [|discriminate]. cbn [bind] in E.
  pose proof (Hc _ _ Sv EB) as CB.
  cbn [reading]. rewrite all_att, nth_error_att, EC. cbn [snd per].
  set (f := fun c0 : comp ty => per (cty c0)).
  assert (GM : List.concat (map (map f) groups) = map f (List.concat groups)) by (rewrite concat_map; reflexivity).
  unfold per_choice. cbv zeta. rewrite GM, <- map_app. fold AB. rewrite map_length.
  change (Z.of_nat (len root) - 1) with (zlen root - 1). clear GM.
  apply ufits_noct in Hn; [|discriminate].
  assert (Hn' : len root <> 0%nat -> Z.of_nat (noct (zlen root - 1 - 0)) < 65536).
  { intros N. pose proof (noct_mono (zlen root - 1 - 0) (zlen (all_comps root adds groups))) as M.
    assert (zlen root <= zlen (all_comps root adds groups)) by (unfold zlen, all_comps; rewrite app_length; lia).
    assert (1 <= zlen root) by (unfold zlen; lia). lia. }
  clear Hn. unfold encode_choice in E.
  destruct (Nat.lt_ge_cases i (len root)) as [Hi|Hi].
  - assert (IR : index_of (cname c) root = Some i).
    { apply index_of_nth.
      - unfold all_comps in ND. rewrite map_app in ND. eapply NoDup_app_l; eauto.
      - unfold all_comps in EC. now rewrite nth_error_app1 in EC by auto. }
    rewrite IR in E. specialize (Hn' ltac:(lia)).
    set (ix := if Nat.eqb (len root) 1 then [] else cwn_fields (Z.of_nat i) 0 (zlen root - 1)).
    assert (E' : fs = (if ext then [F false [false]] else []) ++ ix ++ body).
    { unfold ix. destruct ext; cbn [negb] in E; destruct (Nat.eqb_spec (len root) 1); cbn [fill bind] in E;
        try (injection E as <-; reflexivity);
        (rewrite cwn_fields_ok in E by (unfold zlen; lia)); cbn [bind fill] in E; injection E as <-; reflexivity. }
    assert (WX : forall q, whole 0 (zlen root - 1) (Z.of_nat i) q (render q ix)).
    { intros q. unfold ix. destruct (Nat.eqb_spec (len root) 1).
      - apply wh_small; [unfold zlen; lia|]. apply ws_one. unfold zlen. lia.
      - apply cwn_fields_whole; [unfold zlen; lia|exact Hn']. }
    left. set (x := if ext then [false] else [] : bits).
    exists (per (cty c)), x, (render (pos + len x) ix), (render (pos + len x + len (render (pos + len x) ix)) body).
    split; [|split; [|split; [reflexivity|split; [apply WX|apply CB]]]].
    + rewrite nth_error_map. unfold all_comps in EC. rewrite nth_error_app1 in EC by auto. rewrite EC. reflexivity.
    + rewrite E', <- render_app. unfold x. destruct ext; [apply render_bit|].
      cbn [List.length app]. now rewrite Nat.add_0_r.
  - destruct (Sx Hi) as (Hi2 & So). right.
    assert (EC2 : nth_error AB (i - len root) = Some c).
    { unfold all_comps in EC. now rewrite nth_error_app2 in EC by auto. }
    assert (IR : index_of (cname c) root = None).
    { apply index_of_none. intros X. unfold all_comps in ND. rewrite map_app in ND.
      apply nth_error_In in EC2. apply (in_map cname) in EC2. fold AB in ND.
      clear - X ND EC2. induction (map cname root) as [|a l IH]; [destruct X|].
      cbn [app] in ND. inversion ND; subst. destruct X as [->|X]; auto.
      apply H1, in_or_app. now right. }
    assert (IA : index_of (cname c) AB = Some (i - len root)%nat).
    { apply index_of_nth; auto. unfold all_comps in ND. rewrite map_app in ND. eapply NoDup_app_r; eauto. }
    destruct ext; cbn [negb] in *.
    2:{ exfalso. destruct (Hext eq_refl) as (-> & ->). unfold AB in EC2. cbn in EC2.
        destruct (i - len root)%nat; discriminate. }
    rewrite IR in E. fold AB in E. rewrite IA in E.
    destruct (isnil adds && isnil groups) eqn:NIL.
    { destruct adds; [|discriminate]. destruct groups; [|discriminate]. discriminate. }
    assert (NO : Z.of_nat (noct (Z.of_nat (i - len root))) < 16384).
    { apply ufits_noct in Hi2; [|discriminate]. pose proof (noct_mono (Z.of_nat (i - len root)) (Z.of_nat i)). lia. }
    clear Hi2. rewrite normally_small_ok in E by lia. cbn [bind] in E.
    destruct (encode_open_type_field body) as [o|] eqn:Eo; [|discriminate]. cbn [bind fill] in E.
    injection E as <-. rewrite render_bit, render_app.
    exists (per (cty c)), (render (pos + 1) (nsn_fields (Z.of_nat (i - len root)))), (render (pos + 1 + len (render (pos + 1) (nsn_fields (Z.of_nat (i - len root))))) o).
    split; [reflexivity|]. split; [exact Hi|].
    split; [now rewrite nth_error_map, EC2|]. split; [reflexivity|].
    split; [apply nsn_small; lia|]. eapply open_conforms; [exact Eo|eapply open_conf_enc; eauto|apply CB].
Qed.

Theorem encoder_conforms t : conforming t.
Proof.
  induction t as [|c|e r a|c|c|e r a g Hr Ha Hg|c t IH|e r a g Hr Ha Hg] using ty_rect'.
  - intros v fs S E pos. destruct v; try contradiction. injection E as <-. reflexivity.
  - intros v fs S E. destruct v; try contradiction. now apply integer_conforms.
  - intros v fs S E. destruct v; try contradiction. now apply enumerated_conforms.
  - intros v fs S E. destruct v; try contradiction. now apply bits_conforms.
  - intros v fs S E. destruct v; try contradiction. now apply octs_conforms.
  - now apply sequence_conforms.
  - now apply seqof_conforms.
  - now apply choice_conforms.
Qed.

(** Whatever [encode] returns for an object of [conf] is the encoding X.691
    prescribes for what the object says. *)
Theorem C45_conforms_partial : forall t v bs, conf t v -> encode t v = Ok bs -> PER t (reading t v) bs.
Proof.
  intros t v bs C E. destruct (encode_inv _ _ _ E) as (fs & EF & -> & _).
  exists (render 0 fs). split; [now apply encoder_conforms|]. apply complete_produce.
Qed.

(** The same at any offset, for a component of a larger message. *)
Theorem C45_any_offset_partial : forall t v fs pos, conf t v -> enc t v = Ok fs ->
  per t (reading t v) pos (render pos fs).
Proof. intros t v fs pos C E. now apply encoder_conforms. Qed.

(** * C46: whoever wrote it *)

(** Octets that are the X.691 encoding of what [v] says, from whatever encoder,
    are decoded to an object that says the same. *)
Theorem C46_any_sender_partial : forall t v bs,
  conf t v -> supported t v -> ready t v -> top_ok t v -> PER t (reading t v) bs ->
  exists v', decode bs t = Ok v' /\ reading t v' = reading t v.
Proof.
  intros t v bs C S R T P. destruct (encode_total t v S R) as (bs' & E).
  rewrite (C45_unique _ _ _ _ P (C45_conforms_partial _ _ _ C E)). now apply round_trip.
Qed.

(** Two messages with the same X.691 encoding say the same. *)
Theorem C46_injective_partial : forall t v w bs,
  conf t v -> supported t v -> ready t v -> top_ok t v -> PER t (reading t v) bs ->
  conf t w -> supported t w -> ready t w -> top_ok t w -> PER t (reading t w) bs ->
  reading t v = reading t w.
Proof.
  intros t v w bs C S R T P C' S' R' T' P'.
  destruct (C46_any_sender_partial t v bs C S R T P) as (x & D & <-).
  destruct (C46_any_sender_partial t w bs C' S' R' T' P') as (y & D' & <-). congruence.
Qed.

(** * A message with every kind of type *)

Definition C45_ty : ty :=
  TSeq true
    [Comp "i" Mand (TInt (CRange false (Some (-5)) (Some 250)));
     Comp "j" Opt (TInt (CRange false (Some 3) None));
     Comp "k" (Dflt (VInt 7)) (TInt CNone);
     Comp "e" Mand (TEnum true [0; 1; 2] [3]);
     Comp "b" Mand (TBits (CSeqSize false (Some 1) (Some 20)));
     Comp "o" Mand (TOcts (CSeqSize false (Some 2) (Some 2)));
     Comp "l" Mand (TSeqOf (CSeqSize false (Some 0) (Some 300)) (TInt (CRange false (Some 0) (Some 70000))));
     Comp "c" Mand (TChoice true [Comp "x" Mand TBool; Comp "y" Mand (TInt CNone)] [Comp "z" Mand TBool] [])]
    [Comp "m" Opt (TInt CNone)]
    [[Comp "n" Mand TBool; Comp "p" Opt (TInt CNone)]].

Definition C45_val : val :=
  VSeq (Some [Some (VInt 100); None; Some (VInt 8); Some (VEnum 3); Some (VBits [true; false; true]);
              Some (VOcts [18; 52]); Some (VSeqOf [VInt 5; VInt 66000]); Some (VChoice (Some (2%nat, VBool true)));
              Some (VInt (-300)); Some (VBool true); None]).

Lemma C45_open t v bs : encode t v = Ok bs -> zlen bs <> 16384 -> open_conf t v.
Proof. intros E N bs' E'. congruence. Qed.

Lemma C45_conf : conf C45_ty C45_val.
Proof.
  cbn [conf C45_ty C45_val slots_list att map zipw skipn List.length conf_groups Nat.add fst].
  split; [repeat constructor; cbn; intuition discriminate|].
  split; [reflexivity|]. split; [discriminate|].
  pose proof small_ufits as U.
  split; [|split; [|split; [|exact I]]].
  - intros p [<-|[<-|[<-|[<-|[<-|[<-|[<-|[<-|[]]]]]]]]];
      unfold conf_root, slot_get; cbn [fst snd cpres cty nth_error].
    + split; [constructor|]. split; [|apply U; cbn; lia]. intros _. split; intros x [= <-]; lia.
    + discriminate.
    + split.
      * right. split; [discriminate|]. discriminate.
      * intros _. split; [constructor|]. split; [|split; [vm_compute; discriminate|vm_compute; reflexivity]]. intros _. split; discriminate.
    + split; [reflexivity|]. split; [cbn; tauto|]. split; [discriminate|]. split; apply U; cbn; lia.
    + split; [split; [constructor|split]|split].
      * intros x [= <-]. lia.
      * intros _. split; intros x [= <-]; cbn; lia.
      * intros X. discriminate X.
      * discriminate.
    + split; [repeat constructor; lia|]. split; [split; [constructor|split]|split; [|split]].
      * intros x [= <-]. lia.
      * intros _. split; intros x [= <-]; cbn; lia.
      * cbn. intros x [= <-]. lia.
      * discriminate.
      * discriminate.
    + split; [split; [constructor|split]|split].
      * intros x [= <-]. lia.
      * intros _. split; intros x [= <-]; cbn; lia.
      * cbn. intros x [= <-]. lia.
      * assert (B : ufits 65535 (70000 - 0)) by (apply U; lia).
        intros p [<-|[<-|[]]]; (split; [constructor|]; split; [|exact B]);
          intros _; split; intros x [= <-]; lia.
    + split; [repeat constructor; cbn; intuition discriminate|]. split; [discriminate|].
      split; [apply U; cbn; lia|]. split; [exact I|]. intros _. split; [apply U; cbn; lia|].
      apply (C45_open _ _ [128]); [reflexivity|discriminate].
  - intros p [<-|[]]. unfold conf_add, slot_get. cbn [fst snd cpres cty]. intros _. split; [|split].
    + split; [constructor|]. split; [|split; [vm_compute; discriminate|vm_compute; reflexivity]]. intros _. split; discriminate.
    + apply (C45_open _ _ [2; 254; 212]); [reflexivity|discriminate].
    + discriminate.
  - intros _. split; [|split].
    + intros p [<-|[<-|[]]]; unfold conf_root, slot_get; cbn [fst snd cpres cty]; [exact I|discriminate].
    + exists True. split; [now left|exact I].
    + eapply C45_open; [vm_compute; reflexivity|vm_compute; discriminate].
Qed.

Example C45_case : conf C45_ty C45_val /\ exists bs, encode C45_ty C45_val = Ok bs.
Proof. split; [exact C45_conf|]. eexists. vm_compute. reflexivity. Qed.

Lemma C07_conf : conf C07_ty C07_val.
Proof.
  cbn [conf C07_ty C07_val slots_list att map zipw skipn List.length conf_groups Nat.add fst].
  split; [repeat constructor; cbn; intuition discriminate|].
  split; [reflexivity|]. split; [discriminate|]. split; [|split; [|split; [|exact I]]].
  - intros p [<-|[<-|[<-|[]]]]; unfold conf_root, slot_get; cbn [fst snd cpres cty].
    + intros _. split; [constructor|]. split; [|apply small_ufits; lia]. intros _. split; intros x [= <-]; lia.
    + exact I.
    + split; [now left|]. intros X. now elim X.
  - intros p [<-|[]]. discriminate.
  - intros _. split; [|split].
    + intros p [<-|[<-|[]]]; unfold conf_root, slot_get; cbn [fst snd cpres cty]; [exact I|intros _; exact I].
    + exists True. split; [now left|exact I].
    + eapply C45_open; [vm_compute; reflexivity|vm_compute; discriminate].
Qed.

Lemma C08_conf : conf C08_ty C08_val.
Proof.
  split; [split; [constructor|split]|split].
  - intros x [= <-]. lia.
  - intros _. split; [intros x [= <-]; cbn; lia|discriminate].
  - cbn. discriminate.
  - intros p [<-|[<-|[]]]; (split; [exact C08_names|]; split; [auto|]; split; [apply small_ufits; cbn; lia|]).
    + split; [|cbn; lia]. split; [split; [constructor|split]|split].
      * intros x [= <-]. lia.
      * intros _. split; intros x [= <-]; cbn; lia.
      * intros X. discriminate X.
      * discriminate.
    + split; [exact C07_conf|cbn; lia].
Qed.

Example C46_case :
  conf C08_ty C08_val /\ supported C08_ty C08_val /\ ready C08_ty C08_val /\ top_ok C08_ty C08_val /\
  PER C08_ty (reading C08_ty C08_val) [2; 214; 112; 40; 1; 192].
Proof.
  destruct C08_case as (S & R & T & E & _). pose proof C08_conf as C.
  split; [exact C|]. split; [exact S|]. split; [exact R|]. split; [exact T|]. exact (C45_conforms_partial _ _ _ C E).
Qed.

(** * Messages encoded otherwise *)

(** The library answers octets, and they are not those of X.691. *)
Definition deviates (t : ty) (v : val) (bs bs' : list Z) : Prop :=
  encode t v = Ok bs /\ PER t (reading t v) bs' /\ bs <> bs'.

(** The octets of X.691 are then the only ones. *)
Lemma deviates_not t v bs bs' : deviates t v bs bs' -> ~ PER t (reading t v) bs.
Proof. intros (_ & P & N) Q. exact (N (C45_unique _ _ _ _ Q P)). Qed.

(** [t] followed by a BOOLEAN. *)
Definition and_bool (t : ty) : ty := TSeq false [Comp "x" Mand t; Comp "y" Mand TBool] [] [].
Definition and_true (v : val) : val := VSeq (Some [Some v; Some (VBool true)]).

Lemma per_and_true t v w k bs : per t (reading t v) 0 w -> (k < 8)%nat ->
  Forall (fun b => 0 <= b < 256) bs -> bytes_bits bs = (w ++ [true]) ++ repeat false k ->
  PER (and_bool t) (reading (and_bool t) (and_true v)) bs.
Proof.
  intros H K O B. exists (w ++ [true]). split.
  - cbn [reading and_bool and_true slots_list att map zipw skipn List.length read_groups app Nat.add per].
    split; [reflexivity|]. split; [reflexivity|]. exists [], (w ++ [true]). split; [reflexivity|].
    apply r_mand; [reflexivity|exact H|]. change [true] with ([true] ++ [] : bits).
    apply r_mand; [reflexivity|reflexivity|]. apply r_nil.
  - apply (complete_some _ k); auto. destruct w; discriminate.
Qed.

(** The length of an empty BIT STRING is sent as 1, and a bit follows
    (C03_empty_refuted is the same from the reader's side). *)
Theorem C45_empty_bits_refuted : deviates (and_bool (TBits (CSeqSize false (Some 0) (Some 3)))) (and_true (VBits [])) [64; 64] [32].
Proof.
  split; [vm_compute; reflexivity|]. split; [|discriminate].
  apply (per_and_true _ _ [false; false] 5); [|lia|repeat constructor; lia|reflexivity].
  exists false, (Some 0), (Some 3). split; [constructor|]. split; [split; intros x [= <-]; cbn; lia|].
  apply (sz_length _ _ _ _ _ _ [false; false] []); [discriminate|intros k [= <-]; discriminate| |constructor].
  apply (cwn_whole 0 0 3 0); lia.
Qed.

(** An empty OCTET STRING of variable size is followed by padding. *)
Theorem C45_empty_octets_refuted : deviates (and_bool (TOcts (CSeqSize false (Some 0) (Some 3)))) (and_true (VOcts [])) [0; 128] [32].
Proof.
  split; [vm_compute; reflexivity|]. split; [|discriminate].
  apply (per_and_true _ _ [false; false] 5); [|lia|repeat constructor; lia|reflexivity]. split; [constructor|].
  exists false, (Some 0), (Some 3). split; [constructor|]. split; [split; intros x [= <-]; cbn; lia|].
  apply (sz_length _ _ _ _ _ _ [false; false] []); [discriminate|intros k [= <-]; discriminate| |constructor].
  apply (cwn_whole 0 0 3 0); lia.
Qed.

(** The extension bit of an OCTET STRING (SIZE(0,...)) is missing. *)
Theorem C45_extension_bit_refuted : deviates (and_bool (TOcts (CSeqSize true (Some 0) (Some 0)))) (and_true (VOcts [])) [128] [64].
Proof.
  split; [vm_compute; reflexivity|]. split; [|discriminate].
  apply (per_and_true _ _ [false] 6); [|lia|repeat constructor; lia|reflexivity]. split; [constructor|].
  exists true, (Some 0), (Some 0). split; [constructor|]. left. split; [split; intros x [= <-]; cbn; lia|].
  exists []. split; [reflexivity|]. now apply sz_zero.
Qed.

(** An intersection is encoded with the least lower and greatest upper end of its
    parts. *)
Theorem C45_intersection_refuted :
  deviates (and_bool (TInt (CAnd false [CRange false (Some 0) (Some 5); CRange false (Some 3) (Some 10)])))
           (and_true (VInt 4)) [72] [96].
Proof.
  split; [vm_compute; reflexivity|]. split; [|discriminate].
  apply (per_and_true _ _ [false; true] 5); [|lia|repeat constructor; lia|reflexivity].
  assert (R : forall z, root_sat (CAnd false [CRange false (Some 0) (Some 5); CRange false (Some 3) (Some 10)]) z <-> 3 <= z <= 5).
  { intros z. cbn [root_sat map]. split.
    - intros H. pose proof (H _ (or_introl eq_refl)) as A. pose proof (H _ (or_intror (or_introl eq_refl))) as B.
      cbn in A, B. unfold above, below in *. destruct A as [A|(A & A')]; [discriminate|]. destruct B as [B|(B & B')]; [discriminate|].
      specialize (A _ eq_refl). specialize (A' _ eq_refl). specialize (B _ eq_refl). specialize (B' _ eq_refl). lia.
    - intros H p [<-|[<-|[]]]; cbn; unfold above, below; right; split; intros x [= <-]; lia. }
  exists false, (Some 3), (Some 5). split; [|split].
  - apply b_set; [right; eexists; right; reflexivity|apply R; lia|apply R; lia|intros z; apply R].
  - split; intros x [= <-]; lia.
  - eapply int_both; [reflexivity..|]. apply wh_small; [lia|]. apply (cwn_whole 4 3 5 0); lia.
Qed.

(** The length of an INTEGER of 128 octets and more is sent in one octet. *)
Theorem C45_long_integer_refuted : exists bs',
  deviates (TInt CNone) (VInt (2 ^ 1022)) (128 :: 64 :: repeat 0 127) bs'.
Proof.
  exists (128 :: 128 :: 64 :: repeat 0 127). split; [vm_compute; reflexivity|]. split; [|vm_compute; discriminate].
  assert (T : toct (2 ^ 1022) = 128%nat) by (vm_compute; reflexivity).
  set (s := to_bits (8 * 128) (2 ^ 1022)). exists (render 0 [len_field 128] ++ s). split.
  - exists false, None, None. split; [constructor|]. split; [split; discriminate|].
    apply int_free; [reflexivity|]. apply (unbounded_intro (2 ^ 1022) 0 128 (render 0 [len_field 128]) s s).
    + unfold s. rewrite <- T. apply toct_shortest.
    + apply to_bits_length.
    + apply len_general. lia.
    + now apply at_octet_here.
  - apply (complete_some _ 0); [discriminate|lia| |vm_compute; reflexivity].
    repeat constructor; lia.
Qed.

(** A DEFAULT addition is sent though it holds its default. *)
Theorem C45_default_addition_refuted :
  deviates (TSeq true [Comp "a" Mand TBool] [Comp "b" (Dflt (VInt 5)) (TInt CNone)] [])
           (VSeq (Some [Some (VBool true); None])) [192; 64; 2; 1; 5] [64].
Proof.
  split; [vm_compute; reflexivity|]. split; [|discriminate]. exists [false; true]. split.
  - exists [Some (ABool true)], [Some (AInt 5)]. split; [reflexivity|]. left. exists [false], [true].
    split; [|split; [intros [X|[]]; discriminate|split; [reflexivity|]]].
    + apply a_absent; [|constructor]. right. exists (VInt 5). split; reflexivity.
    + exists [], [true]. split; [reflexivity|]. change [true] with ([true] ++ [] : bits).
      apply r_mand; [reflexivity|reflexivity|]. apply r_nil.
  - apply (complete_some _ 6); [discriminate|lia|repeat constructor; lia|reflexivity].
Qed.

(** With an upper bound of 64K and more the length is not a general length. *)
Theorem C45_large_bound_refuted : exists bs bs',
  deviates (TSeqOf (CSeqSize false (Some 0) (Some 65536)) TBool) (VSeqOf (repeat (VBool true) 128)) bs bs'.
Proof.
  exists (128 :: repeat 255 16), (128 :: 128 :: repeat 255 16).
  split; [vm_compute; reflexivity|]. split; [|vm_compute; discriminate].
  exists (render 0 [len_field 128] ++ repeat true 128). split.
  - exists false, (Some 0), (Some 65536). split; [constructor|].
    assert (L : Z.of_nat (len (map (reading TBool) (repeat (VBool true) 128))) = 128) by reflexivity.
    split; [split; intros x [= <-]; rewrite L; lia|].
    exists (render 0 [len_field 128]), (repeat true 128). split; [reflexivity|]. split.
    + apply ec_count; [intros k [= <-]; discriminate|]. rewrite L. apply len_general. lia.
    + assert (G : forall n pos, elements (per TBool) (map (reading TBool) (repeat (VBool true) n)) pos (repeat true n)).
      { induction n as [|n IH]; intros pos; [constructor|]. cbn [repeat map].
        change (true :: repeat true n) with ([true] ++ repeat true n). constructor; [reflexivity|]. apply IH. }
      apply G.
  - apply (complete_some _ 0); [discriminate|lia| |vm_compute; reflexivity]. repeat constructor; lia.
Qed.

(** C45 in full is false. *)
Theorem C45_conforms_refuted : exists t v bs, encode t v = Ok bs /\ ~ PER t (reading t v) bs.
Proof.
  pose proof C45_empty_octets_refuted as D. eexists _, _, _. split; [exact (proj1 D)|exact (deviates_not _ _ _ _ D)].
Qed.
