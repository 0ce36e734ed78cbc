(** What decode makes of, and does to, the object given as asn1Spec (C62): the result
    depends on its type only; outside CHOICEs the object is left with some further
    components instantiated, which on quiet types (Objects.v) changes neither its
    encoding nor its reading. *)
From Coq Require Import ZArith List String Bool Lia Arith.
Import ListNotations.
From Verif Require Import PyBase Schema Encoder Decoder BitFacts Stream Prims Spec SimpleTypes.
From Verif Require Import RoundTrip Reading Totality Robust Valid Dict Objects Growth Lending.
Open Scope Z_scope.

(** * The result *)

(** Two decoders that do the same. *)
Definition alike {A} (d d' : D A) : Prop := forall p, d p = d' p.

(** [m] does what [d] does and hands out an object besides. *)
Definition fst_d {A B} (m : D (A * B)) : D A :=
  fun p => match m p with Ok ((a, _), q) => Ok (a, q) | Err e => Err e end.
Definition same {A B} (m : D (A * B)) (d : D A) : Prop := alike (fst_d m) d.

Lemma alike_refl {A} (d : D A) : alike d d.
Proof. intros p. reflexivity. Qed.

Lemma alike_bind {A B} (d d' : D A) (k k' : A -> D B) :
  alike d d' -> (forall a, alike (k a) (k' a)) -> alike (dbind d k) (dbind d' k').
Proof. intros E F p. unfold dbind. rewrite (E p). destruct (d' p) as [[a q]|e]; auto. apply F. Qed.

Lemma alike_open {A} (d d' : D A) : alike d d' ->
  alike (decode_open_type_field d) (decode_open_type_field d').
Proof.
  intros E. unfold decode_open_type_field.
  do 4 (apply alike_bind; [apply alike_refl|intros ?]). intros q. now rewrite E.
Qed.

Lemma same_ret {A B} (a : A) (b : B) : same (ret (a, b)) (ret a).
Proof. intros p. reflexivity. Qed.

Lemma same_fail {A B} e : @same A B (fail e) (fail e).
Proof. intros p. reflexivity. Qed.

Lemma same_after {A B C} (m : D C) (k : C -> D (A * B)) h :
  (forall x, same (k x) (h x)) -> same (dbind m k) (dbind m h).
Proof. intros F p. unfold fst_d, dbind. destruct (m p) as [[x q]|e]; auto. apply F. Qed.

Lemma same_bind {A B A' B'} (m : D (A * B)) d (k : A * B -> D (A' * B')) h :
  same m d -> (forall a b, same (k (a, b)) (h a)) -> same (dbind m k) (dbind d h).
Proof.
  intros E F p. unfold fst_d, dbind. rewrite <- (E p). unfold fst_d.
  destruct (m p) as [[[a b] q]|e]; auto. apply F.
Qed.

Lemma same_if {A B} (b : bool) (m m' : D (A * B)) d d' : same m d -> same m' d' ->
  same (if b then m else m') (if b then d else d').
Proof. now destruct b. Qed.

Lemma same_alike {A B} (m : D (A * B)) d d' : same m d -> alike d d' -> same m d'.
Proof. intros E F p. rewrite <- (F p). apply E. Qed.

Lemma same_open {A B} (m : D (A * B)) d : same m d ->
  same (decode_open_type_field m) (decode_open_type_field d).
Proof.
  intros E. unfold decode_open_type_field. do 4 (apply same_after; intros ?).
  intros q. unfold fst_d. match goal with |- context[m ?x] => rewrite <- (E x); unfold fst_d; destruct (m x) as [[[a b] r]|e] end; reflexivity.
Qed.

Section Alike.
  Variables f g : ty -> D dval.

  Lemma root_alike cs : Forall (fun c => alike (f (cty c)) (g (cty c))) cs ->
    forall bm, alike (dec_root f cs bm) (dec_root g cs bm).
  Proof.
    induction 1 as [|c cs E _ IH]; intros bm; cbn [dec_root]; [apply alike_refl|].
    destruct (is_mandatory c).
    - apply alike_bind; [|intros a; apply alike_bind; [apply IH|intros; apply alike_refl]].
      apply alike_bind; [exact E|intros; apply alike_refl].
    - destruct bm as [|b bm]; [apply alike_refl|].
      apply alike_bind; [|intros a; apply alike_bind; [apply IH|intros; apply alike_refl]].
      destruct b; [|apply alike_refl]. apply alike_bind; [exact E|intros; apply alike_refl].
  Qed.

  Lemma root_part_alike cs : Forall (fun c => alike (f (cty c)) (g (cty c))) cs ->
    alike (dec_root_part f cs) (dec_root_part g cs).
  Proof.
    intros E. unfold dec_root_part. destruct (Nat.eqb _ 0); [now apply root_alike|].
    destruct (_ <? _); [|apply alike_refl].
    do 2 (apply alike_bind; [apply alike_refl|intros ?]). now apply root_alike.
  Qed.

  Lemma groups_alike gs : Forall (fun c => alike (f (cty c)) (g (cty c))) (List.concat gs) ->
    forall bm, alike (dec_groups f gs bm) (dec_groups g gs bm).
  Proof.
    induction gs as [|x gs IH]; intros E bm; cbn [dec_groups]; [apply alike_refl|].
    cbn [List.concat] in E. apply Forall_app in E as (Ex & E).
    destruct bm as [|b bm]; [apply alike_refl|].
    apply alike_bind; [|intros a; apply alike_bind; [now apply IH|intros; apply alike_refl]].
    destruct b; [|apply alike_refl]. now apply alike_open, root_part_alike.
  Qed.
End Alike.

Section Same.
  Variable on : ty -> val -> D (dval * val).
  Variable d : ty -> D dval.
  Let ok c := forall s, same (on (cty c) s) (d (cty c)).

  Lemma take_same (f : val -> D (dval * val)) (h : D dval) c s : (forall s, same (f s) h) ->
    same (take_on f c s) (do x <- h; do v <- lift (cast (cty c) x); ret [(cname c, v)]).
  Proof.
    intros E. unfold take_on. eapply same_bind; [apply E|]. intros a b. apply same_after. intros v.
    apply same_ret.
  Qed.

  Lemma on_root_same cs : Forall ok cs -> forall bm ss, same (on_root on cs bm ss) (dec_root d cs bm).
  Proof.
    induction 1 as [|c cs E _ IH]; intros bm ss; cbn [on_root dec_root]; [apply same_ret|].
    destruct (is_mandatory c).
    - eapply same_bind; [apply take_same; exact E|]. intros a b. eapply same_bind; [apply IH|].
      intros a' b'. apply same_ret.
    - destruct bm as [|b bm]; [apply same_fail|].
      eapply same_bind; [apply same_if; [apply take_same; exact E|apply same_ret]|].
      intros a b0. eapply same_bind; [apply IH|]. intros a' b'. apply same_ret.
  Qed.

  Lemma on_root_part_same cs ss : Forall ok cs -> same (on_root_part on cs ss) (dec_root_part d cs).
  Proof.
    intros E. unfold on_root_part, dec_root_part. destruct (Nat.eqb _ 0); [now apply on_root_same|].
    destruct (_ <? _); [|apply same_fail]. do 2 (apply same_after; intros ?). now apply on_root_same.
  Qed.

  Lemma on_adds_same cs : Forall ok cs -> forall bm ss, same (on_adds on cs bm ss) (dec_adds d cs bm).
  Proof.
    induction 1 as [|c cs E _ IH]; intros bm ss; cbn [on_adds dec_adds]; [apply same_ret|].
    destruct bm as [|b bm]; [apply same_ret|].
    eapply same_bind; [apply same_if; [|apply same_ret]|].
    - apply (take_same (fun x => decode_open_type_field (on (cty c) x)) (decode_open_type_field (d (cty c)))).
      intros s. now apply same_open.
    - intros a b0. eapply same_bind; [apply IH|]. intros a' b'. apply same_ret.
  Qed.

  Lemma on_class_alike t : (forall s, same (on t s) (d t)) -> alike (on_class on t) (d t).
  Proof.
    intros E p. rewrite <- (E (fresh t) p). unfold on_class, dbind, fst_d, ret.
    destruct (on t (fresh t) p) as [[[a b] q]|e]; reflexivity.
  Qed.

  Lemma sequence_same e r a g s : Forall ok (all_comps r a g) ->
    same (sequence_on on e r a g s) (decode_sequence d e r a g).
  Proof.
    intros E. unfold all_comps in E. apply Forall_app in E as (Er & E). apply Forall_app in E as (Ea & Eg).
    unfold sequence_on, decode_sequence. apply same_after. intros x.
    eapply same_bind; [now apply on_root_part_same|]. intros l ss.
    eapply same_bind; [apply same_if; [|apply same_ret]|].
    - do 4 (apply same_after; intros ?). eapply same_bind; [now apply on_adds_same|]. intros l' ss'.
      intros p. unfold fst_d, dbind, ret.
      rewrite (groups_alike (on_class on) d g).
      2:{ revert Eg. apply Forall_impl. intros c. apply on_class_alike. }
      destruct (dec_groups d g _ p) as [[y q]|e0]; reflexivity.
    - intros l' ss'. apply same_after. intros made. apply same_ret.
  Qed.

  Lemma sequence_of_same t c (s : val) : (forall s, same (on t s) (d t)) ->
    same (do x <- decode_sequence_of (on_class on t) t c; ret (x, s)) (decode_sequence_of (d t) t c).
  Proof.
    intros E. apply same_alike with (d := decode_sequence_of (on_class on t) t c).
    - intros p. unfold fst_d, dbind, ret. destruct (decode_sequence_of _ t c p) as [[y q]|e]; reflexivity.
    - unfold decode_sequence_of. apply alike_bind; [apply alike_refl|]. intros n.
      apply alike_bind; [|intros; apply alike_refl].
      induction (Z.to_nat n) as [|m IH]; cbn [dec_n]; [apply alike_refl|].
      apply alike_bind; [|intros v; apply alike_bind; [exact IH|intros; apply alike_refl]].
      apply alike_bind; [now apply on_class_alike|intros; apply alike_refl].
  Qed.

  Lemma pick_same (cs : list (comp ty)) i :
    pick (map (fun c => (c, on (cty c))) cs) i =
    match nth_error cs (Z.to_nat i) with Some c => ret (c, on (cty c)) | None => fail PyIndexError end.
  Proof. unfold pick. rewrite nth_error_map. now destruct (nth_error cs _). Qed.

  Lemma pick_dec (cs : list (comp ty)) i :
    pick (map (fun c => (cty c, d (cty c))) cs) i =
    match nth_error cs (Z.to_nat i) with Some c => ret (cty c, d (cty c)) | None => fail PyIndexError end.
  Proof. unfold pick. rewrite nth_error_map. now destruct (nth_error cs _). Qed.

  Lemma concat_map_map {A B} (f : A -> B) l : List.concat (map (map f) l) = map f (List.concat l).
  Proof. symmetry. apply concat_map. Qed.

  Lemma choice_same e r a g sel : Forall ok (all_comps r a g) ->
    same (choice_on e (map (fun c => (c, on (cty c))) r) (map (fun c => (c, on (cty c))) a)
                      (List.concat (map (map (fun c => (c, on (cty c)))) g)) sel)
         (decode_choice e (map (fun c => (cty c, d (cty c))) r) (map (fun c => (cty c, d (cty c))) a)
                      (List.concat (map (map (fun c => (cty c, d (cty c)))) g))).
  Proof.
    intros E. unfold all_comps in E. apply Forall_app in E as (Er & E).
    unfold choice_on, decode_choice, zlen. rewrite !concat_map_map, !map_length.
    assert (Root : same
      (do i <- (if Nat.eqb (List.length r) 1 then ret 0
             else decode_constrained_from_field_list (Some 0) (Some (Z.of_nat (List.length r) - 1)));
       do x <- pick (map (fun c => (c, on (cty c))) r) i;
       do d <- snd x (alternative sel (Z.to_nat i) (fst x));
       do v <- lift (cast (cty (fst x)) (fst d));
       ret (DVal (VChoice (Some (Z.to_nat i, v))), VChoice (Some (Z.to_nat i, snd d))))
      (do i <- (if Nat.eqb (List.length r) 1 then ret 0
             else decode_constrained_from_field_list (Some 0) (Some (Z.of_nat (List.length r) - 1)));
       do x <- pick (map (fun c => (cty c, d (cty c))) r) i;
       do d <- snd x;
       do v <- lift (cast (fst x) d);
       ret (DVal (VChoice (Some (Z.to_nat i, v)))))).
    { apply same_after. intros i. rewrite pick_same, pick_dec.
      destruct (nth_error r (Z.to_nat i)) as [c|] eqn:N; [|apply same_fail].
      rewrite Forall_forall in Er. pose proof (Er c (nth_error_In _ _ N)) as Ec.
      change (same (dbind (on (cty c) (alternative sel (Z.to_nat i) c))
         (fun d0 => do v <- lift (cast (cty c) (fst d0));
                    ret (DVal (VChoice (Some (Z.to_nat i, v))), VChoice (Some (Z.to_nat i, snd d0)))))
         (dbind (d (cty c)) (fun d0 => do v <- lift (cast (cty c) d0); ret (DVal (VChoice (Some (Z.to_nat i, v))))))).
      eapply same_bind; [apply Ec|]. intros x y. apply same_after. intros v. apply same_ret. }
    destruct (negb e); [exact Root|]. apply same_after. intros b. destruct (b =? 0); [exact Root|].
    apply same_after. intros i. rewrite <- !map_app.
    replace (isnil (map (fun c => (c, on (cty c))) a) && isnil (map (fun c => (c, on (cty c))) (List.concat g)))
      with (isnil (map (fun c => (cty c, d (cty c))) a) && isnil (map (fun c => (cty c, d (cty c))) (List.concat g)))
      by (destruct a; [destruct (List.concat g)|]; reflexivity).
    destruct (_ && _); [apply same_fail|]. rewrite pick_same, pick_dec.
    destruct (nth_error (a ++ List.concat g) (Z.to_nat i)) as [c|] eqn:N; [|apply same_fail].
    rewrite Forall_forall in E. pose proof (E c (nth_error_In _ _ N)) as Ec.
    change (same (dbind (decode_open_type_field (on (cty c) (alternative sel (List.length r + Z.to_nat i) c)))
         (fun d0 => do v <- lift (cast (cty c) (fst d0));
                    ret (DVal (VChoice (Some ((List.length r + Z.to_nat i)%nat, v))), VChoice (Some ((List.length r + Z.to_nat i)%nat, snd d0)))))
         (dbind (decode_open_type_field (d (cty c))) (fun d0 => do v <- lift (cast (cty c) d0); ret (DVal (VChoice (Some ((List.length r + Z.to_nat i)%nat, v))))))).
    eapply same_bind; [apply same_open, Ec|]. intros x y. apply same_after. intros v. apply same_ret.
  Qed.
End Same.

Lemma dec_same t : forall s, same (dec_on t s) (dec t).
Proof.
  induction t as [t S|e r a g IH|c t IH|e r a g IH] using ty_ind2; intros s.
  - assert (E : dec_on t s = (do d <- dec t; ret (d, s))) by (destruct t; try discriminate; reflexivity).
    rewrite E. intros p. unfold fst_d, dbind, ret. destruct (dec t p) as [[d q]|x]; reflexivity.
  - apply (sequence_same dec_on dec). exact IH.
  - apply (sequence_of_same dec_on dec). exact IH.
  - apply (choice_same dec_on dec). exact IH.
Qed.

(** The result of decode depends on the type of the object given as asn1Spec, not on
    what it holds; exceptions included. *)
Theorem C62_result : forall bs t s,
  (let* r := decode_on bs t s in Ok (fst r)) = decode bs t.
Proof.
  intros bs t s. unfold decode_on, decode, decode_pos. destruct (per_init (PyBase.hexlify bs)) as [p|e]; [|reflexivity].
  cbn [PyBase.bind]. rewrite <- (dec_same t s p). unfold fst_d.
  destruct (dec_on t s p) as [[[d s'] q]|e]; [|reflexivity]. cbn [PyBase.bind fst snd].
  destruct d as [v|]; [destruct (eq_empty v)|]; try reflexivity; destruct (from_empty t); reflexivity.
Qed.

(** * The object *)

(** The object afterwards, from the object before and the result: of a SEQUENCE the
    components present in the result, addition groups excepted, are instantiated and
    treated in turn; of a CHOICE the alternative of the result is selected. *)
Definition touch_slot (ca : comp ty * (val -> val -> val)) (p : option val * option val) : option val :=
  match snd p with
  | Some y => Some (snd ca (slot_get (fst ca) (fst p)) y)
  | None => fst p
  end.

Fixpoint touch (t : ty) (s v : val) {struct t} : val :=
  match t, v with
  | TSeq _ r a g, VSeq made =>
      let ss := slots_list (ncomps r a g) (held s) in
      let os := slots_list (ncomps r a g) made in
      let ss' := zipw touch_slot (att touch r) (combine ss os)
         ++ zipw touch_slot (att touch a) (combine (skipn (len r) ss) (skipn (len r) os))
         ++ skipn (len r + len a) ss in
      match s with VSeq old => VSeq (put_back old ss') | _ => s end
  | TChoice _ r a g, VChoice (Some (i, y)) =>
      match nth_error (att touch r ++ att touch a ++ List.concat (map (att touch) g)) i with
      | Some ca => VChoice (Some (i, snd ca (alternative (selected s) i (fst ca)) y))
      | None => s
      end
  | _, _ => s
  end.

(** The results have a slot for each component; only the parts that touch visits. *)
Definition sized_slot (ca : comp ty * (val -> Prop)) (o : option val) : Prop :=
  match o with Some y => snd ca y | None => True end.

Fixpoint sized (t : ty) (v : val) {struct t} : Prop :=
  match t, v with
  | TSeq _ r a g, VSeq made =>
      len (slots_list (ncomps r a g) made) = ncomps r a g /\
      all_of (zipw sized_slot (att sized (r) ++ att sized a) (slots_list (ncomps r a g) made))
  | TChoice _ r a g, VChoice (Some (i, y)) =>
      match nth_error (att sized r ++ att sized a ++ List.concat (map (att sized) g)) i with
      | Some ca => snd ca y
      | None => True
      end
  | _, _ => True
  end.

Definition touches (on : D (dval * val)) (t : ty) (s : val) : Prop :=
  post on (fun x => forall v, cast t (fst x) = Ok v -> snd x = touch t s v /\ sized t v).

Section Touch.
  Variable on : ty -> val -> D (dval * val).
  Let ok c := forall s, shaped (cty c) s -> touches (on (cty c) s) (cty c) s.

  (** The slots hold objects of the components' types. *)
  Definition fits (c : comp ty) (s : option val) : Prop := shaped (cty c) (slot_get c s).

  (** Result and slots of the loops, for the components [cs]. *)
  Definition treated (cs : list (comp ty)) (ss : slots) (x : list assign * slots) : Prop :=
    exists os, len os = len cs /\ Forall2 (fun c o => sized_slot (c, sized (cty c)) o) cs os /\ fst x = assigns cs os /\
      snd x = zipw touch_slot (att touch cs) (combine ss os).

  Lemma take_touch (f : val -> D (dval * val)) c s :
    (forall s, shaped (cty c) s -> touches (f s) (cty c) s) -> fits c s ->
    post (take_on f c s) (fun x => exists o, sized_slot (c, sized (cty c)) o /\ fst x = assign1 c o /\ snd x = touch_slot (c, touch (cty c)) (s, o)).
  Proof.
    intros E Fi. unfold take_on. eapply post_bind; [apply E, Fi|]. intros x X.
    eapply post_bind with (Q := fun v => cast (cty c) (fst x) = Ok v); [apply post_lift; auto|].
    intros v V. apply post_ret. destruct (X v V) as (X1 & X2). exists (Some v). split; [exact X2|].
    split; [reflexivity|]. cbn [snd touch_slot fst]. now rewrite <- X1.
  Qed.

  Lemma skip_touch c s :
    post (ret (@nil assign, s)) (fun x => exists o, sized_slot (c, sized (cty c)) o /\ fst x = assign1 c o /\ snd x = touch_slot (c, touch (cty c)) (s, o)).
  Proof. apply post_ret. exists None. split; [exact I|]. split; reflexivity. Qed.

  Lemma treated_cons c cs s ss (a : list assign * option val) r :
    (exists o, sized_slot (c, sized (cty c)) o /\ fst a = assign1 c o /\ snd a = touch_slot (c, touch (cty c)) (s, o)) ->
    treated cs ss r -> treated (c :: cs) (s :: ss) (fst a ++ fst r, snd a :: snd r).
  Proof.
    intros (o & E0 & E1 & E2) (os & L & F0 & F1 & F2). exists (o :: os). cbn [fst snd List.length].
    split; [now rewrite L|]. split; [now constructor|]. split; [now rewrite assigns_cons, E1, F1|].
    cbn [att map combine zipw]. unfold att in F2. now rewrite E2, F2.
  Qed.

  Lemma treated_none cs ss : len ss = len cs -> treated cs ss ([], ss).
  Proof.
    intros L. exists (map (fun _ => None) cs). split; [apply map_length|].
    split; [clear L; induction cs; constructor; [exact I|auto]|]. split; [symmetry; apply assigns_none|].
    cbn [snd]. revert ss L. induction cs as [|c cs IH]; intros [|s ss] L; try discriminate; [reflexivity|].
    cbn [map combine att zipw]. cbn [touch_slot snd fst]. f_equal. apply IH. now injection L.
  Qed.

  Lemma root_touch cs : Forall ok cs -> forall bm ss, Forall2 fits cs ss ->
    post (on_root on cs bm ss) (treated cs ss).
  Proof.
    induction 1 as [|c cs E _ IH]; intros bm ss L; cbn [on_root].
    { apply post_ret. apply treated_none. now inversion L. }
    inversion L as [|? s ? ss' Fi L']; subst. rename ss' into ss. clear L. rename L' into L. cbn [hd tl].
    destruct (is_mandatory c).
    - eapply post_bind; [apply take_touch; [exact E|exact Fi]|]. intros a A. eapply post_bind; [now apply IH|].
      intros r X. apply post_ret. now apply treated_cons.
    - destruct bm as [|b bm]; [apply post_fail|].
      eapply post_bind; [destruct b; [apply take_touch; [exact E|exact Fi]|apply skip_touch]|]. intros a A.
      eapply post_bind; [now apply IH|]. intros r X. apply post_ret. now apply treated_cons.
  Qed.

  Lemma part_touch cs ss : Forall ok cs -> Forall2 fits cs ss -> post (on_root_part on cs ss) (treated cs ss).
  Proof.
    intros E L. unfold on_root_part. destruct (Nat.eqb _ 0); [now apply root_touch|].
    destruct (_ <? _); [|apply post_fail]. do 2 (apply post_bind'; intros ?). now apply root_touch.
  Qed.

  Lemma adds_touch cs : Forall ok cs -> forall bm ss, Forall2 fits cs ss ->
    post (on_adds on cs bm ss) (treated cs ss).
  Proof.
    induction 1 as [|c cs E _ IH]; intros bm ss L; cbn [on_adds].
    { apply post_ret. apply treated_none. now inversion L. }
    destruct bm as [|b bm]; [apply post_ret; apply treated_none; symmetry; eapply Forall2_length; eauto|].
    inversion L as [|? s ? ss' Fi L']; subst. rename ss' into ss. clear L. rename L' into L. cbn [hd tl].
    eapply post_bind.
    { instantiate (1 := fun x => exists o, sized_slot (c, sized (cty c)) o /\ fst x = assign1 c o /\ snd x = touch_slot (c, touch (cty c)) (s, o)).
      destruct b; [|apply skip_touch].
      apply (take_touch (fun x => decode_open_type_field (on (cty c) x))); [|exact Fi]. intros s' S'. apply post_open, E, S'. }
    intros a A. eapply post_bind; [now apply IH|]. intros r X. apply post_ret. now apply treated_cons.
  Qed.
End Touch.

Lemma combine_app' {A B} (l l' : list A) (m m' : list B) : len l = len m ->
  combine (l ++ l') (m ++ m') = combine l m ++ combine l' m'.
Proof.
  revert m. induction l as [|x l IH]; intros [|y m] L; try discriminate; [reflexivity|].
  cbn [combine app]. f_equal. apply IH. now injection L.
Qed.

Lemma zipw_long {A B C} (f : A -> B -> C) l m m' : len l = len m -> zipw f l (m ++ m') = zipw f l m.
Proof.
  revert m. induction l as [|x l IH]; intros [|y m] L; try discriminate; [reflexivity|].
  cbn [zipw app]. f_equal. apply IH. now injection L.
Qed.

Lemma Forall2_nth_error {A B} (P : A -> B -> Prop) l m : Forall2 P l m ->
  forall i a b, nth_error l i = Some a -> nth_error m i = Some b -> P a b.
Proof.
  induction 1 as [|x y l m H _ IH]; intros [|i] a b; cbn [nth_error]; try discriminate; [congruence|apply IH].
Qed.

Lemma Forall2_pointwise {A B} (P : A -> B -> Prop) l m : len m = len l ->
  (forall i a b, nth_error l i = Some a -> nth_error m i = Some b -> P a b) -> Forall2 P l m.
Proof.
  revert m. induction l as [|x l IH]; intros [|y m] L H; try discriminate; constructor.
  - apply (H 0%nat); reflexivity.
  - apply IH; [now injection L|]. intros i a b Ha Hb. apply (H (S i)); auto.
Qed.

Lemma Forall2_app_inv_len {A B} (P : A -> B -> Prop) l l' m m' : Forall2 P (l ++ l') (m ++ m') ->
  len m = len l -> Forall2 P l m /\ Forall2 P l' m'.
Proof.
  revert m. induction l as [|x l IH]; intros [|y m] H L; try discriminate; cbn [app] in H; [auto|].
  inversion H; subst. destruct (IH m) as (H1 & H2); auto.
Qed.

Lemma classes_alike : forall t, alike (on_class dec_on t) (dec t).
Proof. intros t. apply on_class_alike. apply dec_same. Qed.

Lemma sequence_touch e r a g s : formed (TSeq e r a g) -> shaped (TSeq e r a g) s ->
  Forall (fun c => forall s, shaped (cty c) s -> touches (dec_on (cty c) s) (cty c) s) (all_comps r a g) ->
  touches (dec_on (TSeq e r a g) s) (TSeq e r a g) s.
Proof.
  intros F Sh E. destruct (formed_comps e r a g (or_introl F)) as (ND & FD).
  unfold all_comps in E. apply Forall_app in E as (Er & E). apply Forall_app in E as (Ea & _).
  cbn [dec_on]. set (old := held s).
  assert (L : len (slots_list (ncomps r a g) old) = ncomps r a g /\
    forall i c x, nth_error (all_comps r a g) i = Some c ->
      nth_error (slots_list (ncomps r a g) old) i = Some (Some x) -> shaped (cty c) x).
  { subst old. destruct s as [ | | | | | |sl| |]; cbn [held];
      try (cbn [slots_list]; split; [apply repeat_length|];
           intros i c x _ X; apply nth_error_In, repeat_spec in X; discriminate).
    apply shaped_seq in Sh as (L & _ & Sh). auto. }
  destruct L as (L & SL).
  unfold touches. cbn [dec_on]. unfold sequence_on. cbv zeta. set (ss := slots_list (ncomps r a g) old) in *.
  set (rs := firstn (len r) ss). set (ps := firstn (len a) (skipn (len r) ss)). set (gs := skipn (len r + len a) ss).
  assert (LN : ncomps r a g = (len r + (len a + len (List.concat g)))%nat)
    by (unfold ncomps, all_comps; now rewrite !app_length).
  assert (Lr : len rs = len r) by (subst rs; rewrite firstn_length; lia).
  assert (La : len ps = len a) by (subst ps; rewrite firstn_length, skipn_length; lia).
  assert (SS : ss = rs ++ ps ++ gs).
  { subst rs ps gs. rewrite <- (firstn_skipn (len r) ss) at 1. f_equal.
    rewrite <- (firstn_skipn (len a) (skipn (len r) ss)) at 1. f_equal. now rewrite skipn_skipn'. }
  assert (FT : Forall2 fits (r ++ a ++ List.concat g) (rs ++ ps ++ gs)).
  { rewrite <- SS. apply Forall2_pointwise; [rewrite L; reflexivity|]. intros i c x Hc Hx.
    apply shaped_slot_get.
    - rewrite Forall_forall in FD. apply (FD c (nth_error_In _ _ Hc)).
    - intros y ->. eapply SL; eauto. }
  apply Forall2_app_inv_len in FT as (Fr & FT); auto. apply Forall2_app_inv_len in FT as (Fa & _); auto.
  apply post_bind'. intros ex. eapply post_bind; [apply part_touch; eassumption|].
  intros x (o1 & L1 & X0 & X1 & X2).
  apply post_bind with (Q := fun y : list assign * slots => exists o2 o3, len o2 = len a /\
     Forall2 (fun c o => sized_slot (c, sized (cty c)) o) a o2 /\ len o3 = len (List.concat g) /\
     fst y = assigns a o2 ++ assigns (List.concat g) o3 /\
     snd y = zipw touch_slot (att touch a) (combine ps o2)).
  { destruct (negb (ex =? 0)).
    - do 4 (apply post_bind'; intros ?). eapply post_bind; [apply adds_touch; eassumption|].
      intros y (o2 & L2 & Y0 & Y1 & Y2).
      apply post_bind with (Q := fun l => exists o3, len o3 = len (List.concat g) /\ l = assigns (List.concat g) o3).
      + intros p l q Hl. rewrite (groups_alike _ dec) in Hl.
        * exact (listed_groups g _ _ _ _ Hl).
        * apply Forall_forall. intros c _. apply classes_alike.
      + intros l (o3 & L3 & ->). apply post_ret. exists o2, o3. cbn [fst snd]. rewrite Y1. auto.
    - apply post_ret. destruct (treated_none a ps La) as (o2 & L2 & Y0 & Y1 & Y2).
      exists o2, (map (fun _ => None) (List.concat g)). cbn [fst snd] in *.
      rewrite map_length, assigns_none, <- Y1. auto. }
  intros y (o2 & o3 & L2 & Y0 & L3 & Y1 & Y2). eapply post_bind; [apply post_lift; intros m M; exact M|].
  intros made M. apply post_ret. intros v [= <-]. cbn [fst snd].
  cbn beta in M. rewrite X1, Y1 in M. rewrite <- (assigns_app a) in M by auto. rewrite <- (assigns_app r) in M by auto.
  pose proof (assign_all_ok [] (all_comps r a g) [] (o1 ++ o2 ++ o3) ND eq_refl) as K.
  cbn [app forallb] in K. unfold all_comps in K at 1 2. rewrite !app_length in K.
  specialize (K ltac:(lia)). unfold all_comps in M, K. rewrite K in M. injection M as <-.
  cbn [touch sized]. fold old ss. rewrite slots_list_of by (rewrite LN, !app_length; lia).
  split.
  2:{ split; [rewrite LN, !app_length; lia|].
      assert (AA : att sized r ++ att sized a = att sized (r ++ a)) by (unfold att; now rewrite map_app).
      rewrite AA, zipw_all. rewrite app_assoc. pose proof (Forall2_app X0 Y0) as XY.
      intros i c o Hc Ho. rewrite nth_error_app1 in Ho.
      - exact (Forall2_nth_error _ _ _ XY i c o Hc Ho).
      - rewrite app_length, L1, L2, <- app_length. apply nth_error_Some. congruence. }
  assert (XX : forall l l' : slots, l = l' ->
     match s with VSeq o => VSeq (put_back o l) | _ => s end = match s with VSeq o => VSeq (put_back o l') | _ => s end)
    by (intros ? ? ->; reflexivity).
  apply XX.
  replace (skipn (len r) (o1 ++ o2 ++ o3)) with (o2 ++ o3)
    by (rewrite <- L1, skipn_app, skipn_all, Nat.sub_diag; reflexivity).
  replace (skipn (len r) ss) with (ps ++ gs)
    by (rewrite SS, <- Lr, skipn_app, skipn_all, Nat.sub_diag; reflexivity).
  rewrite X2, Y2. fold gs. rewrite SS.
  rewrite !combine_app' by lia. rewrite !zipw_long; [reflexivity|..];
    unfold att; rewrite map_length, combine_length; lia.
Qed.

Lemma alternative_shaped sel i c r a g : 
  match cpres c with Dflt d => shaped (cty c) d | _ => True end ->
  nth_error (all_comps r a g) i = Some c ->
  (forall j x, sel = Some (j, x) -> match nth_error (all_comps r a g) j with Some c => shaped (cty c) x | None => True end) ->
  shaped (cty c) (alternative sel i c).
Proof.
  intros D C H. unfold alternative. destruct sel as [(j, x)|]; [|apply shaped_slot_get; auto; discriminate].
  destruct (Nat.eqb_spec j i) as [->|_]; [|apply shaped_slot_get; auto; discriminate].
  specialize (H i x eq_refl). now rewrite C in H.
Qed.

Lemma choice_touch e r a g s : formed (TChoice e r a g) -> shaped (TChoice e r a g) s ->
  Forall (fun c => forall s, shaped (cty c) s -> touches (dec_on (cty c) s) (cty c) s) (all_comps r a g) ->
  touches (dec_on (TChoice e r a g) s) (TChoice e r a g) s.
Proof.
  intros F Sh E. destruct (formed_comps e r a g (or_intror F)) as (_ & FD).
  assert (SL : forall j x, selected s = Some (j, x) ->
     match nth_error (all_comps r a g) j with Some c => shaped (cty c) x | None => True end).
  { intros j x. destruct s as [ | | | | | | | |sel]; cbn [selected]; try discriminate. intros ->.
    now apply shaped_choice in Sh. }
  rewrite Forall_forall in E, FD.
  assert (At : forall i c, nth_error (all_comps r a g) i = Some c ->
     shaped (cty c) (alternative (selected s) i c) /\
     forall y, touch (TChoice e r a g) s (VChoice (Some (i, y))) =
       VChoice (Some (i, touch (cty c) (alternative (selected s) i c) y))).
  { intros i c C. split.
    - eapply alternative_shaped; eauto. apply (FD c (nth_error_In _ _ C)).
    - intros y. cbn [touch]. rewrite all_att, nth_error_att, C. reflexivity. }
  cbn [dec_on]. unfold touches, choice_on. cbv zeta. rewrite !concat_map_map, !map_length.
  assert (Root : post
    (do i <- (if Nat.eqb (len r) 1 then ret 0
              else decode_constrained_from_field_list (Some 0) (Some (zlen (map (fun c => (c, dec_on (cty c))) r) - 1)));
     do x <- pick (map (fun c => (c, dec_on (cty c))) r) i;
     do d <- snd x (alternative (selected s) (Z.to_nat i) (fst x));
     do v <- lift (cast (cty (fst x)) (fst d));
     ret (DVal (VChoice (Some (Z.to_nat i, v))), VChoice (Some (Z.to_nat i, snd d))))
    (fun x => forall v, cast (TChoice e r a g) (fst x) = Ok v ->
       snd x = touch (TChoice e r a g) s v /\ sized (TChoice e r a g) v)).
  { apply post_bind'. intros i. rewrite pick_same.
    destruct (nth_error r (Z.to_nat i)) as [c|] eqn:N; [|apply post_bind with (Q := fun _ => False); [apply post_fail|contradiction]].
    eapply post_bind with (Q := fun x => x = (c, dec_on (cty c))); [now apply post_ret|]. intros x ->. cbn [fst snd].
    assert (C : nth_error (all_comps r a g) (Z.to_nat i) = Some c).
    { unfold all_comps. rewrite nth_error_app1; auto. apply nth_error_Some. congruence. }
    destruct (At _ _ C) as (S1 & S2). eapply post_bind; [apply (E c (nth_error_In _ _ C) _ S1)|]. intros d T.
    eapply post_bind with (Q := fun v => cast (cty c) (fst d) = Ok v); [apply post_lift; auto|].
    intros v V. apply post_ret. intros w [= <-]. rewrite S2. cbn [snd]. destruct (T v V) as (-> & T2).
    split; [reflexivity|]. cbn [sized]. now rewrite all_att, nth_error_att, C. }
  destruct (negb e); [exact Root|]. apply post_bind'. intros b. destruct (b =? 0); [exact Root|].
  apply post_bind'. intros i. destruct (_ && _); [apply post_fail|]. rewrite <- map_app, pick_same.
  destruct (nth_error (a ++ List.concat g) (Z.to_nat i)) as [c|] eqn:N; [|apply post_bind with (Q := fun _ => False); [apply post_fail|contradiction]].
  eapply post_bind with (Q := fun x => x = (c, dec_on (cty c))); [now apply post_ret|]. intros x ->. cbn [fst snd].
  assert (C : nth_error (all_comps r a g) (len r + Z.to_nat i) = Some c).
  { unfold all_comps. rewrite nth_error_app2 by lia. rewrite <- N. f_equal. lia. }
  destruct (At _ _ C) as (S1 & S2). eapply post_bind; [apply post_open, (E c (nth_error_In _ _ C) _ S1)|]. intros d T.
  eapply post_bind with (Q := fun v => cast (cty c) (fst d) = Ok v); [apply post_lift; auto|].
  intros v V. apply post_ret. intros w [= <-]. rewrite S2. cbn [snd]. destruct (T v V) as (-> & T2).
    split; [reflexivity|]. cbn [sized]. now rewrite all_att, nth_error_att, C.
Qed.

Lemma dec_touch t : formed t -> forall s, shaped t s -> touches (dec_on t s) t s.
Proof.
  induction t as [t S|e r a g IH|c t IH|e r a g IH] using ty_ind2; intros F s Sh.
  - assert (E : dec_on t s = (do d <- dec t; ret (d, s))) by (destruct t; try discriminate; reflexivity).
    rewrite E. apply post_bind'. intros d. apply post_ret. intros v _. cbn [snd].
    destruct t; try discriminate; split; auto; exact I.
  - apply sequence_touch; auto. destruct (formed_comps e r a g (or_introl F)) as (_ & FD).
    rewrite Forall_forall in *. intros c C. apply IH; auto. apply (FD c C).
  - apply post_bind'. intros d. apply post_ret. intros v _. split; [reflexivity|exact I].
  - apply choice_touch; auto. destruct (formed_comps e r a g (or_intror F)) as (_ & FD).
    rewrite Forall_forall in *. intros c C. apply IH; auto. apply (FD c C).
Qed.

(** * When the object reads the same afterwards *)

(** The result selects the alternatives the object has selected already, in the
    components it shares with the object. *)
Definition picks_slot (ca : comp ty * (val -> val -> Prop)) (p : option val * option val) : Prop :=
  match snd p with
  | Some y => snd ca (slot_get (fst ca) (fst p)) y
  | None => True
  end.

Fixpoint picks (t : ty) (s v : val) {struct t} : Prop :=
  match t with
  | TSeq _ r a g =>
      match s, v with
      | VSeq old, VSeq made =>
          all_of (zipw picks_slot (att picks r ++ att picks a)
                       (combine (slots_list (ncomps r a g) old) (slots_list (ncomps r a g) made)))
      | _, _ => True
      end
  | TChoice _ r a g =>
      match s, v with
      | VChoice (Some (i, x)), VChoice (Some (j, y)) =>
          i = j /\
          match nth_error (att picks r ++ att picks a ++ List.concat (map (att picks) g)) i with
          | Some ca => snd ca x y
          | None => True
          end
      | _, _ => False
      end
  | _ => True
  end.

Lemma zipw_nth {A B C} (f : A -> B -> C) l m i : nth_error (zipw f l m) i =
  match nth_error l i, nth_error m i with Some a, Some b => Some (f a b) | _, _ => None end.
Proof.
  revert m i. induction l as [|a l IH]; intros [|b m] [|i]; cbn [zipw nth_error]; auto.
  now destruct (nth_error l i).
Qed.

Lemma zipw_length {A B C} (f : A -> B -> C) l m : len (zipw f l m) = Nat.min (len l) (len m).
Proof. revert m. induction l as [|a l IH]; intros [|b m]; cbn [zipw List.length Nat.min]; auto. Qed.

(** The slots afterwards, one by one. *)
Lemma touch_slots r a g (ss os : slots) : len ss = ncomps r a g -> len os = ncomps r a g ->
  let ss' := zipw touch_slot (att touch r) (combine ss os)
         ++ zipw touch_slot (att touch a) (combine (skipn (len r) ss) (skipn (len r) os))
         ++ skipn (len r + len a) ss in
  len ss' = ncomps r a g /\
  forall i c s o, nth_error (all_comps r a g) i = Some c -> nth_error ss i = Some s -> nth_error os i = Some o ->
    nth_error ss' i = Some (match o with
                            | Some y => if Nat.ltb i (len r + len a) then Some (touch (cty c) (slot_get c s) y) else s
                            | None => s
                            end).
Proof.
  intros L1 L2 ss'.
  assert (LN : ncomps r a g = (len r + (len a + len (List.concat g)))%nat)
    by (unfold ncomps, all_comps; now rewrite !app_length).
  set (z1 := zipw touch_slot (att touch r) (combine ss os)) in *.
  set (z2 := zipw touch_slot (att touch a) (combine (skipn (len r) ss) (skipn (len r) os))) in *.
  assert (E1 : len z1 = len r) by (subst z1; rewrite zipw_length, combine_length; unfold att; rewrite map_length; lia).
  assert (E2 : len z2 = len a)
    by (subst z2; rewrite zipw_length, combine_length, !skipn_length; unfold att; rewrite map_length; lia).
  split; [subst ss'; rewrite !app_length, E1, E2, skipn_length; lia|].
  intros i c s o C S0 O. subst ss'.
  assert (Tl : forall (l : slots) n j x, nth_error l (n + j) = Some x -> nth_error (skipn n l) j = Some x).
  { intros l n. revert l. induction n as [|n IH]; intros l j x; cbn [Nat.add skipn]; auto.
    destruct l as [|y l]; cbn [nth_error]; [discriminate|apply IH]. }
  unfold all_comps in C. destruct (Nat.ltb_spec i (len r + len a)) as [Lt|Ge].
  - assert (X : forall c, touch_slot (c, touch (cty c)) (s, o) =
       match o with Some y => Some (touch (cty c) (slot_get c s) y) | None => s end) by (intros; destruct o; reflexivity).
    rewrite <- X. destruct (Nat.lt_ge_cases i (len r)) as [Lr|Lr].
    + rewrite nth_error_app1 by lia. rewrite nth_error_app1 in C by lia.
      unfold z1. rewrite zipw_nth, nth_error_att, C, combine_nth_error, S0, O. reflexivity.
    + rewrite nth_error_app2, nth_error_app1 by lia. rewrite nth_error_app2, nth_error_app1 in C by lia.
      rewrite E1. unfold z2. rewrite zipw_nth, nth_error_att, C, combine_nth_error.
      replace i with (len r + (i - len r))%nat in S0, O by lia.
      rewrite (Tl _ _ _ _ S0), (Tl _ _ _ _ O). reflexivity.
  - rewrite !nth_error_app2 by lia. rewrite E1, E2.
    replace i with ((len r + len a) + (i - len r - len a))%nat in S0 by lia.
    rewrite (Tl _ _ _ _ S0). now destruct o.
Qed.

Lemma existsb_none (l : slots) : existsb (fun s => match s with Some _ => true | None => false end) l = false ->
  l = repeat None (len l).
Proof.
  induction l as [|[x|] l IH]; cbn [existsb orb List.length repeat]; [auto|discriminate|]. intros E. f_equal. auto.
Qed.

Lemma touch_woken t : formed t -> forall s v, shaped t s -> sized t v -> picks t s v -> woken t s (touch t s v).
Proof.
  induction t as [t S|e r a g IH|c t IH|e r a g IH] using ty_ind2; intros F s v Sh Sv P.
  - replace (touch t s v) with s; [now apply woken_refl|]. destruct t; try discriminate; reflexivity.
  - destruct (formed_comps e r a g (or_introl F)) as (_ & FD). cbn [picks] in P.
    destruct s as [ | | | | | |old| |]; try (destruct v; apply woken_refl; auto; fail).
    destruct v as [ | | | | | |made| |]; try (apply woken_refl; auto; fail).
    pose proof Sh as Sh0. apply shaped_seq in Sh as (L1 & Z1 & S1). cbn [sized] in Sv. destruct Sv as (L2 & S2).
    destruct (touch_slots r a g _ _ L1 L2) as (L3 & T). cbn [touch held]. set (n := ncomps r a g) in *.
    set (ss := slots_list n old) in *. set (os := slots_list n made) in *.
    set (ss' := zipw touch_slot (att touch r) _ ++ _) in *.
    assert (Sl : slots_list n (put_back old ss') = ss').
    { unfold put_back. destruct old; [reflexivity|]. destruct (existsb _ ss') eqn:Ex; [reflexivity|].
      cbn [slots_list]. rewrite <- L3. symmetry. now apply existsb_none. }
    apply woken_seq. fold n ss. rewrite Sl. split; [|split; [|split]].
    + unfold put_back. destruct old; [discriminate|auto].
    + intros N0. rewrite (Z1 N0). unfold put_back. assert (ss' = []) as -> by (apply length_zero_iff_nil; lia). reflexivity.
    + lia.
    + intros i c x y C X Y.
      assert (exists o, nth_error os i = Some o) as (o & O).
      { destruct (nth_error os i) eqn:Eo; eauto. apply nth_error_None in Eo.
        assert (i < len ss)%nat by (apply nth_error_Some; congruence). lia. }
      rewrite (T i c x o C X O) in Y. injection Y as <-.
      rewrite Forall_forall in FD, IH. pose proof (nth_error_In _ _ C) as IC.
      assert (Sx : shaped (cty c) (slot_get c x)).
      { apply shaped_slot_get; [apply (FD c IC)|]. intros z ->. eapply S1; eauto. }
      destruct o as [w|].
      * destruct (Nat.ltb_spec i (len r + len a)) as [Lt|Ge].
        -- assert (AS : att sized r ++ att sized a = att sized (r ++ a)) by (unfold att; now rewrite map_app).
           assert (AA : att picks r ++ att picks a = att picks (r ++ a)) by (unfold att; now rewrite map_app).
           rewrite AA, zipw_all2 in P. unfold all_comps in C. rewrite app_assoc, nth_error_app1 in C by (rewrite app_length; lia).
           rewrite AS, zipw_all in S2. pose proof (S2 i c _ C O) as Sw.
           apply IH; auto; [apply (FD c IC)|].
           specialize (P i c (x, Some w) C). rewrite combine_nth_error in P. unfold ss, os in *. rewrite X, O in P.
           exact (P eq_refl).
        -- destruct x as [z|]; [|reflexivity]. now apply woken_refl.
      * destruct x as [z|]; [|reflexivity]. now apply woken_refl.
  - replace (touch (TSeqOf c t) s v) with s by reflexivity. now apply woken_refl.
  - destruct (formed_comps e r a g (or_intror F)) as (_ & FD). cbn [picks] in P.
    destruct s as [ | | | | | | | |[(i, x)|]]; try contradiction. destruct v as [ | | | | | | | |[(j, y)|]]; try contradiction.
    destruct P as (<- & P). rewrite all_att, nth_error_att in P. apply shaped_choice in Sh. cbn [sized] in Sv. rewrite all_att, nth_error_att in Sv.
    cbn [touch]. rewrite all_att, nth_error_att.
    destruct (nth_error (all_comps r a g) i) as [c|] eqn:C; cbn [option_map fst snd] in *.
    + cbn [selected alternative]. rewrite Nat.eqb_refl. apply woken_choice. split; auto. rewrite C.
      rewrite Forall_forall in FD, IH. pose proof (nth_error_In _ _ C) as IC. apply IH; auto. apply (FD c IC).
    + apply woken_choice. rewrite C. auto.
Qed.

(** No CHOICE, in addition groups and the elements of SEQUENCE OF excepted. *)
Fixpoint choiceless (t : ty) : bool :=
  match t with
  | TSeq _ r a _ => forallb (fun c => choiceless (cty c)) r && forallb (fun c => choiceless (cty c)) a
  | TChoice _ _ _ _ => false
  | _ => true
  end.

Lemma choiceless_picks t : choiceless t = true -> forall s v, picks t s v.
Proof.
  induction t as [t S|e r a g IH|c t IH|e r a g IH] using ty_ind2; intros F s v.
  - destruct t; try discriminate; exact I.
  - cbn [picks]. destruct s as [ | | | | | |old| |]; try exact I. destruct v as [ | | | | | |made| |]; try exact I.
    assert (AA : att picks r ++ att picks a = att picks (r ++ a)) by (unfold att; now rewrite map_app).
    rewrite AA, zipw_all2. intros i c (x, [y|]) Hc _; cbn [picks_slot snd fst]; [|exact I].
    apply nth_error_In in Hc. rewrite Forall_forall in IH. apply IH.
    + unfold all_comps. rewrite app_assoc. apply in_app_iff. auto.
    + cbn [choiceless] in F. apply andb_true_iff in F as (F1 & F2). rewrite forallb_forall in F1, F2.
      apply in_app_iff in Hc as [Hc|Hc]; auto.
  - exact I.
  - discriminate.
Qed.

(** The object given as asn1Spec has further components instantiated afterwards, and
    that is all, unless the message selects alternatives it has not selected. *)
Lemma decode_woken bs t s v s' : formed t -> shaped t s -> decode_on bs t s = Ok (v, s') ->
  picks t s v -> woken t s s'.
Proof.
  intros F Sh E P. unfold decode_on in E. destruct (per_init (PyBase.hexlify bs)) as [p|]; [|discriminate].
  cbn [PyBase.bind] in E. pose proof (dec_touch t F s Sh) as T.
  destruct (dec_on t s p) as [[[d s1] q]|] eqn:Ed; [|discriminate]. cbn [PyBase.bind fst snd] in E.
  specialize (T _ _ _ Ed). cbn [fst snd] in T.
  assert (X : (exists w, from_empty t = Ok w) -> s1 = s).
  { intros (w & Ew). assert (Sm : is_simple t = true) by (destruct t; try discriminate; reflexivity).
    assert (Eo : dec_on t s = (do d <- dec t; ret (d, s))) by (destruct t; try discriminate; reflexivity).
    rewrite Eo in Ed. unfold dbind, ret in Ed. destruct (dec t p) as [[]|]; [|discriminate]. now injection Ed. }
  destruct d as [w|].
  - destruct (eq_empty w) eqn:Ee.
    + destruct (from_empty t) as [w'|]; [|discriminate]. injection E as <- <-. rewrite X by eauto. now apply woken_refl.
    + injection E as <- <-. destruct (T w eq_refl) as (-> & Sw). now apply touch_woken.
  - destruct (from_empty t) as [w'|]; [|discriminate]. injection E as <- <-. rewrite X by eauto. now apply woken_refl.
Qed.

(** Full claim: decode leaves the object given as asn1Spec as it was.  Proved, as
    far as encode and reading can tell, for quiet types when the message selects no
    other alternatives than the object; C62_choice_refuted and C62_optional_refuted
    are what happens otherwise. *)
Theorem C62_spec_partial : forall bs t s v s',
  formed t -> shaped t s -> quiet t = true -> decode_on bs t s = Ok (v, s') -> picks t s v ->
  encode t s' = encode t s /\ reading t s' = reading t s.
Proof.
  intros bs t s v s' F Sh Q E P. apply C29_instantiated_partial; auto. eapply decode_woken; eauto.
Qed.

(** In particular for every message when there are no CHOICEs. *)
Theorem C62_choiceless_partial : forall bs t s v s',
  formed t -> shaped t s -> quiet t = true -> choiceless t = true -> decode_on bs t s = Ok (v, s') ->
  encode t s' = encode t s /\ reading t s' = reading t s.
Proof.
  intros bs t s v s' F Sh Q C E. eapply C62_spec_partial; eauto. now apply choiceless_picks.
Qed.

(** A CHOICE message used as asn1Spec loses its value, and cannot be encoded, when
    the octets select another alternative; also inside a SEQUENCE. *)
Theorem C62_choice_refuted : exists bs t s v s',
  formed t /\ shaped t s /\ quiet t = true /\ decode_on bs t s = Ok (v, s') /\
  encode t s = Ok [160] /\ encode t s' = Err PyAsn1Error.
Proof.
  exists [80], (TSeq false [Comp "on" Mand TBool;
                Comp "c" Mand (TChoice false [Comp "a" Mand TBool; Comp "b" Mand (TInt (CRange false (Some 0) (Some 3)))] [] [])] [] []),
    (VSeq (Some [Some (VBool true); Some (VChoice (Some (0%nat, VBool true)))])).
  do 2 eexists. split; [cbv -[all_of]; concrete|]. split; [cbv -[all_of]; concrete|].
  split; [reflexivity|]. split; [vm_compute; reflexivity|]. split; vm_compute; reflexivity.
Qed.

(** A SEQUENCE without the OPTIONAL component found in the octets has it afterwards
    when that is a SEQUENCE whose components may all be absent. *)
Theorem C62_optional_refuted : exists bs t s v s',
  formed t /\ shaped t s /\ choiceless t = true /\ decode_on bs t s = Ok (v, s') /\
  encode t s = Ok [64] /\ encode t s' = Ok [160].
Proof.
  exists [240], (TSeq false [Comp "o" Opt (TSeq false [Comp "x" Opt TBool] [] []); Comp "on" Mand TBool] [] []),
    (VSeq (Some [None; Some (VBool true)])).
  do 2 eexists. split; [cbv -[all_of]; concrete|]. split; [cbv -[all_of]; concrete|].
  split; [reflexivity|]. split; [vm_compute; reflexivity|]. split; vm_compute; reflexivity.
Qed.

Definition C62_ty : ty :=
  TSeq true [Comp "a" Mand (TSeq false [Comp "x" Mand (TInt (CRange false (Some 0) (Some 7)))] [] []);
             Comp "b" Opt (TOcts CNone);
             Comp "c" Mand (TChoice false [Comp "p" Mand TBool; Comp "q" Mand (TInt (CRange false (Some 0) (Some 3)))] [] [])]
            [Comp "d" Opt (TInt CNone)] [].

(** The object has the alternative of the message selected; b and d are instantiated
    by the call. *)
Definition C62_spec : val :=
  VSeq (Some [Some (VSeq (Some [Some (VInt 5)])); None; Some (VChoice (Some (1%nat, VInt 2))); None]).

Example C62_case : exists v s', formed C62_ty /\ shaped C62_ty C62_spec /\ quiet C62_ty = true /\
  decode_on [232; 1; 7; 192; 32; 2; 1; 9] C62_ty C62_spec = Ok (v, s') /\ picks C62_ty C62_spec v /\
  s' = VSeq (Some [Some (VSeq (Some [Some (VInt 5)])); Some VUnset; Some (VChoice (Some (1%nat, VInt 2))); Some VUnset]) /\
  encode C62_ty s' = Ok [46].
Proof.
  do 2 eexists. split; [cbv -[all_of]; concrete|]. split; [cbv -[all_of]; concrete|].
  split; [reflexivity|]. split; [vm_compute; reflexivity|]. split; [cbv -[all_of]; concrete|].
  split; [reflexivity|]. vm_compute; reflexivity.
Qed.
