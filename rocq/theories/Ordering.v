(** The order of the generated classes: C37 and C38. *)

From Coq Require Import ZArith List String Ascii Bool Arith Lia Permutation FinFun.
Import ListNotations.
From Verif Require Import PyBase Generator.

Open Scope string_scope.
Open Scope list_scope.
Open Scope nat_scope.

(** * Helpers *)

Lemma mem_in s l : mem s l = true <-> In s l.
Proof.
  unfold mem. rewrite existsb_exists. split.
  - intros (x & H & E). apply String.eqb_eq in E. now subst.
  - intros H. exists s. split; [exact H|apply String.eqb_refl].
Qed.

Lemma mem_out s l : mem s l = false <-> ~ In s l.
Proof. rewrite <- mem_in. destruct (mem s l); split; congruence. Qed.

Lemma position_some s l i : position s l = Some i -> nth_error l i = Some s.
Proof.
  revert i; induction l as [|x l IH]; intros i; cbn [position]; [discriminate|].
  destruct (String.eqb_spec s x) as [->|N].
  - intros E; injection E as <-. reflexivity.
  - destruct (position s l) as [j|] eqn:Ej; cbn [option_map]; [|discriminate].
    intros E; injection E as <-. exact (IH j eq_refl).
Qed.

Lemma position_none s l : position s l = None <-> ~ In s l.
Proof.
  induction l as [|x l IH]; cbn [position In]; [tauto|].
  destruct (String.eqb_spec s x) as [->|N]; [split; [discriminate|tauto]|].
  destruct (position s l) as [j|]; cbn [option_map].
  - split; [discriminate|]. intros H. exfalso.
    assert (~ In s l) as K by tauto. apply IH in K. discriminate.
  - split; [|reflexivity]. intros _ [K|K]; [congruence|]. now apply IH.
Qed.

Lemma position_nth l i s : NoDup l -> nth_error l i = Some s -> position s l = Some i.
Proof.
  revert i; induction l as [|x l IH]; intros i D H; [destruct i; discriminate|].
  inversion D as [|? ? N D']; subst. cbn [position].
  destruct i as [|i]; cbn [nth_error] in H.
  - injection H as ->. now rewrite String.eqb_refl.
  - destruct (String.eqb_spec s x) as [->|_].
    + destruct N. now apply nth_error_In in H.
    + now rewrite (IH i D' H).
Qed.

Lemma nth_map_ref comps i c :
  nth_error comps i = Some c -> nth_error (map typeref comps) i = Some (typeref c).
Proof. intros H. now apply map_nth_error. Qed.

Section Pass.

Variable comps : list ptype.
Hypothesis D : NoDup (map typeref comps).

Lemma same_ref i j c d :
  nth_error comps i = Some c -> nth_error comps j = Some d -> typeref c = typeref d ->
  i = j /\ c = d.
Proof.
  intros A B E. apply nth_map_ref in A as A', B as B'. rewrite E in A'.
  assert (i = j) as <-.
  { eapply (proj1 (NoDup_nth_error (map typeref comps)) D).
    - apply nth_error_Some. congruence.
    - congruence. }
  split; [reflexivity|congruence].
Qed.

Lemma position_at i c : nth_error comps i = Some c -> position (typeref c) (map typeref comps) = Some i.
Proof. intros H. apply position_nth; [exact D|]. now apply nth_map_ref. Qed.

(** What holds of the state throughout a pass. *)
Record good (st : pass) : Prop := {
  g_refs : refs st = map typeref (outs st);
  g_nodup : NoDup (refs st);
  g_incl : incl (outs st) comps;
  g_moved : incl (moved st) (refs st) }.

Lemma good_in st c i : good st -> nth_error comps i = Some c ->
  mem (typeref c) (refs st) = true <-> In c (outs st).
Proof.
  intros G N. rewrite mem_in, (g_refs st G), in_map_iff. split.
  - intros (d & E & I). apply (g_incl st G) in I as K. apply In_nth_error in K as (j & K).
    destruct (same_ref j i d c K N E) as [_ ->]. exact I.
  - intros I. now exists c.
Qed.

Lemma good_add st c m q i : good st -> nth_error comps i = Some c ->
  mem (typeref c) (refs st) = false -> incl m (refs st ++ [typeref c]) ->
  good (Pass (refs st ++ [typeref c]) (outs st ++ [c]) m q).
Proof.
  intros G N M I. split; cbn [refs outs moved].
  - rewrite map_app, (g_refs st G). reflexivity.
  - apply (Permutation_NoDup (l := typeref c :: refs st)).
    + apply Permutation_cons_append.
    + constructor; [now apply mem_out|]. exact (g_nodup st G).
  - intros z Z. apply in_app_or in Z as [Z|[<-|[]]]; [now apply (g_incl st G)|].
    now apply nth_error_In in N.
  - exact I.
Qed.

(** One subcomponent: nothing changes, or one later component is appended. *)
Lemma visit_sub_cases ci st r : good st ->
  visit_sub comps ci st r = st \/
  exists j c, nth_error comps j = Some c /\ typeref c = r /\ ci < j /\
    mem r (refs st) = false /\
    visit_sub comps ci st r = Pass (refs st ++ [r]) (outs st ++ [c]) (moved st ++ [r]) false.
Proof.
  intros G. unfold visit_sub. destruct (mem r (refs st)) eqn:M; [now left|].
  destruct (position r (map typeref comps)) as [j|] eqn:P; [|now left].
  destruct (Nat.ltb_spec ci j) as [L|L]; cbn [andb]; [|now left].
  destruct (mem r (moved st)) eqn:M'; cbn [negb]; [now left|].
  apply position_some in P. destruct (nth_error comps j) as [c|] eqn:N; [|now left].
  right. exists j, c. split; [exact N|]. apply nth_map_ref in N.
  rewrite P in N. injection N as ->. auto.
Qed.

Lemma visit_sub_good ci st r : good st -> good (visit_sub comps ci st r).
Proof.
  intros G. destruct (visit_sub_cases ci st r G) as [->|(j & c & N & E & L & M & ->)]; [exact G|].
  subst r. apply (good_add st c _ _ j); auto.
  intros z Z. apply in_app_or in Z as [Z|Z]; apply in_or_app; [left; now apply (g_moved st G)|now right].
Qed.

Definition extends (st st' : pass) : Prop := exists more, outs st' = outs st ++ more.

Lemma extends_refl st : extends st st.
Proof. exists []. now rewrite app_nil_r. Qed.
Lemma extends_trans a b c : extends a b -> extends b c -> extends a c.
Proof. intros (m & E) (n & F). exists (m ++ n). now rewrite F, E, app_assoc. Qed.
Lemma extends_in a b c : extends a b -> In c (outs a) -> In c (outs b).
Proof. intros (m & E) I. rewrite E. apply in_or_app. now left. Qed.

Lemma visit_sub_extends ci st r : good st -> extends st (visit_sub comps ci st r).
Proof.
  intros G. destruct (visit_sub_cases ci st r G) as [->|(j & c & N & E & L & M & ->)].
  - apply extends_refl.
  - now exists [c].
Qed.

Lemma subs_good ci rs st : good st ->
  good (fold_left (visit_sub comps ci) rs st) /\
  extends st (fold_left (visit_sub comps ci) rs st).
Proof.
  revert st. induction rs as [|r rs IH]; intros st G; cbn [fold_left].
  - split; [exact G|apply extends_refl].
  - destruct (IH _ (visit_sub_good ci st r G)) as [A B]. split; [exact A|].
    eapply extends_trans; [|exact B]. now apply visit_sub_extends.
Qed.

(** What is appended for subcomponents lies later and is referred to. *)
Lemma subs_new ci rs st z : good st ->
  In z (outs (fold_left (visit_sub comps ci) rs st)) ->
  In z (outs st) \/
  (quiet (fold_left (visit_sub comps ci) rs st) = false /\
   exists j, nth_error comps j = Some z /\ ci < j /\ In (typeref z) rs).
Proof.
  revert st. induction rs as [|r rs IH]; intros st G; cbn [fold_left]; [now left|].
  intros I. destruct (IH _ (visit_sub_good ci st r G) I) as [K|(Q & j & N & L & R)].
  - destruct (visit_sub_cases ci st r G) as [E|(j & c & N & E & L & M & F)];
      [rewrite E in K; now left|].
    rewrite F in K. cbn [outs] in K. apply in_app_or in K as [K|[<-|[]]]; [now left|].
    right. split; [|exists j; repeat split; auto; now left].
    clear I IH. assert (quiet (visit_sub comps ci st r) = false) as Q by now rewrite F.
    apply visit_sub_good with (ci := ci) (r := r) in G. revert Q G.
    generalize (visit_sub comps ci st r). intros st' Q G.
    clear - Q G D. revert st' Q G. induction rs as [|r rs IH]; intros st' Q G; cbn [fold_left]; [exact Q|].
    apply IH; [|now apply visit_sub_good].
    destruct (visit_sub_cases ci st' r G) as [E|(j & c & N & E & L & M & F)].
    + now rewrite E.
    + now rewrite F.
  - right. split; [exact Q|]. exists j. split; [exact N|]. split; [exact L|now right].
Qed.

(** Every subcomponent lying later is out at the end. *)
Lemma subs_done ci rs st z j : good st ->
  nth_error comps j = Some z -> ci < j -> In (typeref z) rs ->
  In z (outs (fold_left (visit_sub comps ci) rs st)).
Proof.
  revert st. induction rs as [|r rs IH]; intros st G N L I; [destruct I|].
  destruct I as [->|R]; cbn [fold_left].
  - eapply extends_in; [apply subs_good; now apply visit_sub_good|].
    unfold visit_sub. destruct (mem (typeref z) (refs st)) eqn:M.
    + now apply (good_in st z j G N).
    + rewrite (position_at j z N). replace (ci <? j) with true by (symmetry; now apply Nat.ltb_lt).
      destruct (mem (typeref z) (moved st)) eqn:M'.
      * apply mem_in, (g_moved st G), mem_in in M'. congruence.
      * cbn [andb negb]. rewrite N. cbn [outs]. apply in_or_app. right. now left.
  - apply IH; auto. now apply visit_sub_good.
Qed.

Lemma visit_good st ci c : good st -> nth_error comps ci = Some c ->
  good (visit comps st (ci, c)) /\ extends st (visit comps st (ci, c)) /\
  In c (outs (visit comps st (ci, c))).
Proof.
  intros G N. unfold visit. destruct (subs_good ci (subrefs c) st G) as [A B].
  set (st' := fold_left _ _ st) in *. destruct (mem (typeref c) (refs st')) eqn:M.
  - split; [exact A|]. split; [exact B|]. now apply (good_in st' c ci A N).
  - split; [|split].
    + apply (good_add st' c _ _ ci); auto. apply incl_appl. exact (g_moved st' A).
    + eapply extends_trans; [exact B|]. now exists [c].
    + cbn [outs]. apply in_or_app. right. now left.
Qed.

Lemma visit_new st ci c z : good st -> nth_error comps ci = Some c ->
  In z (outs (visit comps st (ci, c))) ->
  In z (outs st) \/ z = c \/
  (quiet (visit comps st (ci, c)) = false /\
   exists j, nth_error comps j = Some z /\ ci < j /\ In (typeref z) (subrefs c)).
Proof.
  intros G N. unfold visit. pose proof (subs_new ci (subrefs c) st z G) as S.
  set (st' := fold_left _ _ st) in *. destruct (mem (typeref c) (refs st')) eqn:M; [intuition|].
  cbn [outs quiet]. intros I. apply in_app_or in I as [I|[->|[]]]; [|now right; left].
  destruct (S I) as [K|K]; auto.
Qed.

(** A component not yet out when its turn comes is put right behind everything it
    refers to. *)
Lemma visit_deps st ci c y j : good st -> nth_error comps ci = Some c ->
  (forall i d, i < ci -> nth_error comps i = Some d -> In d (outs st)) ->
  ~ In c (outs st) ->
  nth_error comps j = Some y -> In (typeref y) (subrefs c) -> j <> ci ->
  exists a, outs (visit comps st (ci, c)) = a ++ [c] /\ In y a.
Proof.
  intros G N B O Y R J. unfold visit. destruct (subs_good ci (subrefs c) st G) as [A X].
  pose proof (subs_new ci (subrefs c) st c G) as S.
  pose proof (subs_done ci (subrefs c) st y j G Y) as T.
  set (st' := fold_left _ _ st) in *. destruct (mem (typeref c) (refs st')) eqn:M.
  - exfalso. apply (good_in st' c ci A N) in M. destruct (S M) as [K|(_ & k & K & L & _)]; [auto|].
    destruct (same_ref ci k c c N K eq_refl) as [E _]. lia.
  - exists (outs st'). split; [reflexivity|].
    destruct (Nat.lt_ge_cases ci j) as [L|L]; [now apply T|].
    eapply extends_in; [exact X|]. apply (B j y); auto. lia.
Qed.

(** The components at positions [k], [k+1], ... *)
Definition rest (k : nat) : list (nat * ptype) :=
  combine (seq k (List.length comps - k)) (skipn k comps).

Lemma rest_cons k c : nth_error comps k = Some c -> rest k = (k, c) :: rest (S k).
Proof.
  intros N. assert (k < List.length comps) by (apply nth_error_Some; congruence).
  unfold rest. replace (List.length comps - k) with (S (List.length comps - S k)) by lia.
  cbn [seq]. replace (skipn k comps) with (c :: skipn (S k) comps); [reflexivity|].
  clear - N. revert k N. induction comps as [|x l IH]; intros k N; destruct k; cbn in *; try discriminate.
  - now injection N as ->.
  - now apply IH.
Qed.

Lemma rest_nil k : List.length comps <= k -> rest k = [].
Proof. intros L. unfold rest. replace (List.length comps - k) with 0 by lia. reflexivity. Qed.

(** State before position [k]: everything before is out. *)
Definition reached (k : nat) (st : pass) : Prop :=
  good st /\ forall i d, i < k -> nth_error comps i = Some d -> In d (outs st).

Lemma visit_reached k st c : reached k st -> nth_error comps k = Some c ->
  reached (S k) (visit comps st (k, c)).
Proof.
  intros [G B] N. destruct (visit_good st k c G N) as (A & X & I). split; [exact A|].
  intros i d L M. destruct (Nat.eq_dec i k) as [->|E].
  - rewrite M in N. injection N as ->. exact I.
  - eapply extends_in; [exact X|]. apply (B i d); auto. lia.
Qed.

Lemma rest_reached n k st : List.length comps - k = n -> reached k st ->
  good (fold_left (visit comps) (rest k) st) /\
  extends st (fold_left (visit comps) (rest k) st) /\
  forall d, In d comps -> In d (outs (fold_left (visit comps) (rest k) st)).
Proof.
  revert k st. induction n as [|n IH]; intros k st L R.
  - rewrite rest_nil by lia. cbn [fold_left]. split; [apply R|]. split; [apply extends_refl|].
    intros d I. apply In_nth_error in I as (i & I). apply (proj2 R i d); [|exact I].
    assert (i < List.length comps) by (apply nth_error_Some; congruence). lia.
  - destruct (nth_error comps k) as [c|] eqn:N; [|apply nth_error_None in N; lia].
    rewrite (rest_cons k c N). cbn [fold_left].
    destruct (IH (S k) (visit comps st (k, c)) ltac:(lia) (visit_reached k st c R N)) as (A & B & C).
    split; [exact A|]. split; [|exact C].
    eapply extends_trans; [|exact B]. apply (visit_good st k c (proj1 R) N).
Qed.

Definition before (y x : ptype) (l : list ptype) : Prop :=
  exists a b, l = a ++ x :: b /\ In y a.

(** A component that nothing before it refers to comes behind all it refers to. *)
Lemma rest_deps n k st x ix y j : List.length comps - k = n -> reached k st ->
  k <= ix -> nth_error comps ix = Some x -> ~ In x (outs st) ->
  (forall i w, i < ix -> nth_error comps i = Some w -> ~ In (typeref x) (subrefs w)) ->
  nth_error comps j = Some y -> In (typeref y) (subrefs x) -> j <> ix ->
  before y x (outs (fold_left (visit comps) (rest k) st)).
Proof.
  revert k st. induction n as [|n IH]; intros k st L R K X O W Y I J.
  - assert (ix < List.length comps) by (apply nth_error_Some; congruence). lia.
  - destruct (nth_error comps k) as [c|] eqn:N; [|apply nth_error_None in N; lia].
    rewrite (rest_cons k c N). cbn [fold_left].
    pose proof (visit_reached k st c R N) as R'.
    destruct (Nat.eq_dec k ix) as [->|E].
    + rewrite X in N. injection N as <-.
      destruct (visit_deps st ix x y j (proj1 R) X (proj2 R) O Y I J) as (a & F & A).
      destruct (rest_reached n (S ix) _ ltac:(lia) R') as (_ & (m & G) & _).
      exists a, m. split; [|exact A]. rewrite G, F, <- app_assoc. reflexivity.
    + apply IH; auto; try lia.
      intros P. destruct (visit_new st k c x (proj1 R) N P) as [Q|[Q|(_ & i & Q & _ & Q')]]; [auto| |].
      * subst c. destruct (same_ref k ix x x N X eq_refl). lia.
      * apply (W k c); auto. lia.
Qed.

Lemma init_reached : reached 0 (Pass [] [] [] true).
Proof.
  split; [|intros i d L; lia]. split; cbn [refs outs moved]; auto.
  - constructor.
  - intros z [].
  - intros z [].
Qed.

Lemma pass_rest : sort_pass comps = fold_left (visit comps) (rest 0) (Pass [] [] [] true).
Proof. unfold sort_pass, rest. now rewrite Nat.sub_0_r. Qed.

Lemma good_nodup st : good st -> NoDup (outs st).
Proof. intros G. apply (NoDup_map_inv typeref). rewrite <- (g_refs st G). apply G. Qed.

Lemma pass_permutation : Permutation comps (outs (sort_pass comps)).
Proof.
  rewrite pass_rest.
  destruct (rest_reached _ 0 _ eq_refl init_reached) as (G & _ & A).
  apply NoDup_Permutation.
  - now apply (NoDup_map_inv typeref).
  - now apply good_nodup.
  - intros d. split; [apply A|apply (g_incl _ G)].
Qed.

Lemma pass_deps x y ix j :
  nth_error comps ix = Some x -> nth_error comps j = Some y -> j <> ix ->
  In (typeref y) (subrefs x) ->
  (forall i w, i < ix -> nth_error comps i = Some w -> ~ In (typeref x) (subrefs w)) ->
  before y x (outs (sort_pass comps)).
Proof.
  intros X Y J I W. rewrite pass_rest.
  apply (rest_deps _ 0 _ x ix y j eq_refl init_reached); auto using Nat.le_0_l.
Qed.

(** A pass that moves nothing leaves a sorted list. *)
Lemma visit_quiet st ic : quiet (visit comps st ic) = true -> quiet st = true.
Proof.
  destruct ic as [ci c]. unfold visit.
  assert (forall rs s, quiet (fold_left (visit_sub comps ci) rs s) = true -> quiet s = true) as H.
  { induction rs as [|r rs IH]; intros s Q; cbn [fold_left] in Q; [exact Q|].
    apply IH in Q. unfold visit_sub in Q.
    destruct (mem r (refs s)); [exact Q|].
    destruct (position r (map typeref comps)) as [j|]; [|exact Q].
    destruct ((ci <? j) && negb (mem r (moved s))); [|exact Q].
    destruct (nth_error comps j); [discriminate|exact Q]. }
  specialize (H (subrefs c) st). destruct (mem _ _); auto.
Qed.

Lemma rest_quiet l st : quiet (fold_left (visit comps) l st) = true -> quiet st = true.
Proof.
  revert st. induction l as [|ic l IH]; intros st Q; [exact Q|].
  cbn [fold_left] in Q. apply IH in Q. now apply visit_quiet in Q.
Qed.

Lemma rest_quiet_deps n k st x ix y j : List.length comps - k = n -> reached k st ->
  (forall z, In z (outs st) -> exists i, i < k /\ nth_error comps i = Some z) ->
  quiet (fold_left (visit comps) (rest k) st) = true ->
  k <= ix -> nth_error comps ix = Some x ->
  nth_error comps j = Some y -> In (typeref y) (subrefs x) -> j <> ix ->
  before y x (outs (fold_left (visit comps) (rest k) st)).
Proof.
  revert k st. induction n as [|n IH]; intros k st L R P Q K X Y I J.
  - assert (ix < List.length comps) by (apply nth_error_Some; congruence). lia.
  - destruct (nth_error comps k) as [c|] eqn:N; [|apply nth_error_None in N; lia].
    rewrite (rest_cons k c N) in Q |- *. cbn [fold_left] in Q |- *.
    pose proof (visit_reached k st c R N) as R'.
    pose proof (rest_quiet _ _ Q) as Q'.
    destruct (Nat.eq_dec k ix) as [->|E].
    + rewrite X in N. injection N as <-.
      assert (~ In x (outs st)) as O.
      { intros O. destruct (P x O) as (i & B & N).
        destruct (same_ref i ix x x N X eq_refl). lia. }
      destruct (visit_deps st ix x y j (proj1 R) X (proj2 R) O Y I J) as (a & F & A).
      destruct (rest_reached n (S ix) _ ltac:(lia) R') as (_ & (m & G) & _).
      exists a, m. split; [|exact A]. rewrite G, F, <- app_assoc. reflexivity.
    + apply IH; auto; try lia.
      intros z Z. destruct (visit_new st k c z (proj1 R) N Z) as [V|[V|(V & _)]].
      * destruct (P z V) as (i & B & M). exists i. split; [lia|exact M].
      * subst z. exists k. split; [lia|exact N].
      * congruence.
Qed.

Lemma pass_quiet_deps x y ix j : quiet (sort_pass comps) = true ->
  nth_error comps ix = Some x -> nth_error comps j = Some y -> j <> ix ->
  In (typeref y) (subrefs x) -> before y x (outs (sort_pass comps)).
Proof.
  rewrite pass_rest. intros Q X Y J I.
  apply (rest_quiet_deps _ 0 _ x ix y j eq_refl init_reached); auto using Nat.le_0_l.
  intros z [].
Qed.

End Pass.

(** * The loop *)

Lemma before_insert y x l i a : before y x l -> before y x (insert_at i a l).
Proof.
  intros (p & s & E & I). unfold insert_at. subst l.
  destruct (le_lt_dec i (List.length p)) as [L|L].
  - exists (firstn i p ++ a :: skipn i p), s. split.
    + rewrite firstn_app, skipn_app. replace (i - List.length p) with 0 by lia.
      cbn [firstn skipn]. rewrite app_nil_r, <- app_assoc. reflexivity.
    + rewrite <- (firstn_skipn i p) in I. apply in_app_or in I as [I|I]; apply in_or_app; [now left|].
      right. now right.
  - exists p, (firstn (i - S (List.length p)) s ++ a :: skipn (i - S (List.length p)) s). split; [|exact I].
    rewrite firstn_app, skipn_app, (firstn_all2 p), (skipn_all2 p) by lia.
    replace (i - List.length p) with (S (i - S (List.length p))) by lia.
    cbn [firstn skipn app]. rewrite <- app_assoc. reflexivity.
Qed.

Lemma before_front y x p l : before y x l -> before y x (p ++ l).
Proof.
  intros (a & b & -> & I). exists (p ++ a), b. split; [now rewrite app_assoc|].
  apply in_or_app. now right.
Qed.

Lemma before_across y x p l : In y p -> In x l -> before y x (p ++ l).
Proof.
  intros P I. apply in_split in I as (a & b & ->). exists (p ++ a), b.
  split; [now rewrite app_assoc|]. apply in_or_app. now left.
Qed.

Lemma before_lt l y x i j : NoDup l -> before y x l ->
  nth_error l i = Some y -> nth_error l j = Some x -> i < j.
Proof.
  intros D (a & b & -> & I) Y X. apply In_nth_error in I as (i' & I).
  assert (i' < List.length a) as L by (apply nth_error_Some; congruence).
  assert (i = i') as ->.
  { apply (proj1 (NoDup_nth_error _) D); [apply nth_error_Some; congruence|].
    rewrite Y, nth_error_app1 by exact L. now rewrite I. }
  assert (j = List.length a) as ->; [|lia].
  apply (proj1 (NoDup_nth_error _) D); [apply nth_error_Some; congruence|].
  rewrite X, nth_error_app2, Nat.sub_diag by lia. reflexivity.
Qed.

(** [above l k x]: chains of references ending in [x] have at most [k] types
    before it. *)
Fixpoint above (l : list ptype) (k : nat) (x : ptype) : Prop :=
  forall w, In w l -> In (typeref x) (subrefs w) ->
            match k with O => False | S k' => above l k' w end.

Lemma above_incl l l' k x : incl l' l -> above l k x -> above l' k x.
Proof.
  intros I. revert x. induction k as [|k IH]; intros x A w W R; cbn [above] in A.
  - exact (A w (I w W) R).
  - apply IH. exact (A w (I w W) R).
Qed.

Lemma above_irrefl l k x : In x l -> above l k x -> ~ In (typeref x) (subrefs x).
Proof.
  intros I A R. induction k as [|k IH].
  - exact (A x I R).
  - apply IH. exact (A x I R).
Qed.

Definition sorted_upto (k : nat) (l : list ptype) : Prop :=
  forall x y j, In x l -> In y l -> In (typeref y) (subrefs x) -> j < k -> above l j x -> before y x l.

Lemma pass_sorts k l : NoDup (map typeref l) -> sorted_upto k l ->
  sorted_upto (S k) (outs (sort_pass l)).
Proof.
  intros D S x y j X Y R J A. pose proof (pass_permutation l D) as P.
  assert (NoDup l) as D' by now apply (NoDup_map_inv typeref).
  apply (Permutation_in _ (Permutation_sym P)) in X, Y.
  apply (above_incl _ l) in A; [|intros z Z; now apply (Permutation_in _ P)].
  apply In_nth_error in X as (ix & X), Y as (iy & Y).
  apply (pass_deps l D x y ix iy X Y); auto.
  - intros E; subst iy. rewrite X in Y. injection Y as <-.
    apply (above_irrefl l j x) in R; auto. now apply nth_error_In in X.
  - intros i w L W I. destruct j as [|j].
    + exact (A w (nth_error_In _ _ W) I).
    + assert (above l j w) as B by exact (A w (nth_error_In _ _ W) I).
      assert (before x w l) as Z.
      { apply (S w x j); auto; [now apply nth_error_In in W|now apply nth_error_In in X|lia]. }
      pose proof (before_lt l x w ix i D' Z X W). lia.
Qed.

Lemma loop_permutation m l : NoDup (map typeref l) -> Permutation l (sort_loop m l).
Proof.
  revert l. induction m as [|m IH]; intros l D; cbn [sort_loop]; [reflexivity|].
  pose proof (pass_permutation l D) as P.
  destruct (quiet (sort_pass l)); [exact P|].
  etransitivity; [exact P|]. apply IH.
  apply (Permutation_NoDup (Permutation_map typeref P) D).
Qed.

Lemma loop_sorts m k l : NoDup (map typeref l) -> sorted_upto k l ->
  (forall x y, In x l -> In y l -> In (typeref y) (subrefs x) -> exists j, j < k + m /\ above l j x) ->
  forall x y, In x l -> In y l -> In (typeref y) (subrefs x) -> before y x (sort_loop m l).
Proof.
  revert k l. induction m as [|m IH]; intros k l D S B x y X Y R; cbn [sort_loop].
  - destruct (B x y X Y R) as (j & J & A). apply (S x y j); auto. lia.
  - pose proof (pass_permutation l D) as P. destruct (quiet (sort_pass l)) eqn:Q.
    + apply In_nth_error in X as X', Y as Y'. destruct X' as (ix & X'), Y' as (iy & Y').
      apply (pass_quiet_deps l D x y ix iy Q X' Y'); [|exact R].
      intros E; subst iy. rewrite X' in Y'. injection Y' as <-.
      destruct (B x x X Y R) as (j & _ & A). now apply (above_irrefl l j x) in R.
    + apply (IH (1 + k)).
      * apply (Permutation_NoDup (Permutation_map typeref P) D).
      * now apply pass_sorts.
      * intros u v U V W. apply (Permutation_in _ (Permutation_sym P)) in U, V.
        destruct (B u v U V W) as (j & J & A). exists j. split; [lia|].
        apply (above_incl l); [|exact A]. intros z Z. now apply (Permutation_in _ (Permutation_sym P)).
      * now apply (Permutation_in _ P).
      * now apply (Permutation_in _ P).
      * exact R.
Qed.

(** * C37: nothing is lost or duplicated *)

(** The assignments that define SEQUENCE, CHOICE and SEQUENCE OF types. *)
Definition structured (p : ptype) : bool :=
  match pkind p with KSeq | KChoice | KSeqOf => true | _ => false end.

(** The property's "distinct names", which only matters for structured types. *)
Definition distinct_names (l : list ptype) : Prop :=
  NoDup (map typeref (filter structured l)).

(** DATE and VisibleString as top-level types make the sorting raise. *)
Definition no_plain (l : list ptype) : Prop := forall p, In p l -> pkind p <> KPlain.

Lemma structs_structured l : forallb iterable (structs_of l) = true ->
  structs_of l = filter structured l.
Proof.
  intros F. unfold structs_of in *. induction l as [|p l IH]; [reflexivity|].
  cbn [filter] in *. unfold is_struct, is_simple, is_defined, structured, iterable in *.
  destruct (pkind p) eqn:K; cbn [negb andb] in *; try (now apply IH);
    cbn [forallb] in F; rewrite ?K in F; cbn [andb] in F; try discriminate;
    now rewrite IH.
Qed.

Lemma partition l :
  Permutation l (values_of l ++ simples_of l ++ aliases_of l ++ constants_of l ++ structs_of l).
Proof.
  unfold values_of, simples_of, aliases_of, constants_of, structs_of.
  induction l as [|p l IH]; [reflexivity|]. cbn [filter].
  unfold is_struct, is_simple, is_defined. destruct (pkind p), (has_value p); cbn [negb andb app];
    (etransitivity; [apply perm_skip, IH|]);
    unfold is_struct, is_simple, is_defined;
    first [ reflexivity
          | rewrite !app_assoc; apply Permutation_middle
          | etransitivity; [apply Permutation_middle|]; apply Permutation_app_head;
            first [ reflexivity
                  | etransitivity; [apply Permutation_middle|]; apply Permutation_app_head;
                    first [ reflexivity
                          | etransitivity; [apply Permutation_middle|]; apply Permutation_app_head;
                            first [ reflexivity
                                  | etransitivity; [apply Permutation_middle|]; reflexivity ] ] ] ].
Qed.

Lemma insert_permutation i a l : Permutation (a :: l) (insert_at i a l).
Proof.
  unfold insert_at. rewrite <- (firstn_skipn i l) at 1. apply Permutation_middle.
Qed.

Lemma place_permutation a types comps :
  Permutation (types ++ a :: comps)
    (fst (place_alias (types, comps) a) ++ snd (place_alias (types, comps) a)).
Proof.
  unfold place_alias. destruct (position _ _); cbn [fst snd].
  - apply Permutation_app_head, insert_permutation.
  - now rewrite <- app_assoc.
Qed.

Lemma additional_permutation als types comps :
  Permutation (types ++ als ++ comps)
    (fst (fold_left place_alias als (types, comps)) ++ snd (fold_left place_alias als (types, comps))).
Proof.
  revert types comps. induction als as [|a als IH]; intros types comps; cbn [fold_left app]; [reflexivity|].
  pose proof (place_permutation a types comps) as P.
  destruct (place_alias (types, comps) a) as [types' comps'] eqn:E. cbn [fst snd] in P.
  rewrite <- IH. etransitivity; [|apply Permutation_app_swap_app].
  etransitivity; [|apply Permutation_app_head, P].
  etransitivity; [apply Permutation_sym, Permutation_middle|].
  etransitivity; [|apply Permutation_app_head, Permutation_middle].
  etransitivity; [|apply Permutation_middle]. apply perm_skip, Permutation_app_swap_app.
Qed.

Lemma sort_ok l out : sort_assignments l = Ok out ->
  forallb iterable (structs_of l) = true /\
  exists types comps,
    additional_sort (aliases_of l) (sort_components (structs_of l)) = (types, comps) /\
    out = values_of l ++ simples_of l ++ types ++ constants_of l ++ comps.
Proof.
  unfold sort_assignments. destruct (forallb _ _); [|discriminate].
  destruct (additional_sort _ _) as [types comps]. intros E; injection E as <-.
  split; [reflexivity|]. now exists types, comps.
Qed.

(** C37: what is written is a permutation of what was parsed, and something is
    written unless a top-level type is DATE or VisibleString. *)
Theorem C37_permutation : forall l out,
  distinct_names l -> sort_assignments l = Ok out -> Permutation l out.
Proof.
  intros l out D S. apply sort_ok in S as (F & types & comps & A & ->).
  unfold distinct_names in D. rewrite <- (structs_structured l F) in D.
  pose proof (loop_permutation max_iterations (structs_of l) D) as P.
  pose proof (additional_permutation (aliases_of l) [] (sort_components (structs_of l))) as Q.
  unfold additional_sort in A. rewrite A in Q. cbn [fst snd app] in Q.
  etransitivity; [apply partition|]. do 2 apply Permutation_app_head.
  etransitivity; [apply Permutation_app_head, Permutation_app_head; exact P|].
  etransitivity; [apply Permutation_app_swap_app|].
  etransitivity; [apply Permutation_app_head; exact Q|].
  apply Permutation_app_swap_app.
Qed.

Theorem C37_total : forall l, no_plain l -> exists out, sort_assignments l = Ok out.
Proof.
  intros l N. unfold sort_assignments.
  replace (forallb iterable (structs_of l)) with true.
  - destruct (additional_sort _ _). eauto.
  - symmetry. apply forallb_forall. intros p I. apply filter_In in I as [I _].
    specialize (N p I). unfold iterable. destruct (pkind p); congruence.
Qed.

(** * C38: definition before use *)

(** [uses p r]: the SEQUENCE, CHOICE or SEQUENCE OF [p] has a component, possibly
    inside inline types, that is a reference to the type named [r]. *)
Inductive uses : ptype -> string -> Prop :=
| uses_ref p q : In (inr q) (members p) -> pkind q = KDefined -> uses p (typeref q)
| uses_inline p q r : In (inr q) (members p) -> structured q = true -> uses q r -> uses p r.

(** The typereference a freshly parsed builtin type has (the constructors in
    types/builtin/*.py). *)
Definition class_refs (k : kind) : list string :=
  match k with
  | KInt => ["IntegerType"] | KBool => ["BooleanType"] | KOcts => ["OctetStringType"]
  | KBits => ["BitStringType"] | KEnum => ["EnumeratedType"]
  | KText => ["IA5String"; "NumericString"; "REAL"; "UTF8String"; "NULL"]
  | KPlain => ["DATE"; "VisibleString"]
  | KSeq => ["SequenceType"] | KChoice => ["ChoiceType"] | KSeqOf => ["SequenceOfType"]
  | KDefined => []
  end.
Definition reserved : list string :=
  flat_map class_refs [KInt; KBool; KOcts; KBits; KEnum; KText; KPlain; KSeq; KChoice; KSeqOf].

(** As built by the parse actions: components that are not references keep the
    typereference of their class, and simple types have no components. *)
Inductive parsed : ptype -> Prop :=
| Parsed p :
    (forall q, In (inr q) (members p) -> pkind q <> KDefined -> In (typeref q) (class_refs (pkind q))) ->
    (forall q, In (inr q) (members p) -> parsed q) -> parsed p.

Lemma subrefs_struct p : pkind p <> KDefined ->
  subrefs p = flat_map (fun m => match m with
                       | inl _ => []
                       | inr q => if mem (typeref q) skipped_refs then []
                                  else if mem (typeref q) inline_refs then subrefs q
                                  else [typeref q]
                       end) (members p).
Proof. destruct p as [k ? ? ? ? ? ? ? ?]. cbn [pkind]. now destruct k. Qed.

Lemma subrefs_defined p : pkind p = KDefined -> subrefs p = [typeref p].
Proof. destruct p as [k ? ? ? ? ? ? ? ?]. cbn [pkind]. intros ->. reflexivity. Qed.

Lemma skipped_reserved r : mem r skipped_refs = true -> In r reserved.
Proof. rewrite mem_in. unfold skipped_refs, reserved. cbn. intuition. Qed.
Lemma inline_reserved r : mem r inline_refs = true -> In r reserved.
Proof. rewrite mem_in. unfold inline_refs, reserved. cbn. intuition. Qed.

Lemma uses_subrefs p r : parsed p -> structured p = true -> ~ In r reserved ->
  uses p r <-> In r (subrefs p).
Proof.
  intros P. revert r. induction P as [p T P IH]; intros r S N.
  assert (pkind p <> KDefined) as K.
  { unfold structured in S. destruct (pkind p); congruence. }
  rewrite (subrefs_struct p K), in_flat_map. split.
  - intros U. destruct U as [p q I D|p q r I S' U].
    + exists (inr q). split; [exact I|].
      destruct (mem (typeref q) skipped_refs) eqn:M; [now apply skipped_reserved in M|].
      destruct (mem (typeref q) inline_refs) eqn:M'; [now apply inline_reserved in M'|]. now left.
    + exists (inr q). split; [exact I|].
      assert (pkind q <> KDefined) as K' by (unfold structured in S'; destruct (pkind q); congruence).
      specialize (T q I K'). assert (mem (typeref q) skipped_refs = false /\ mem (typeref q) inline_refs = true) as [-> ->].
      { unfold structured in S'. destruct (pkind q); try discriminate; destruct T as [<-|[]]; now split. }
      now apply IH.
  - intros (m & I & R). destruct m as [s|q]; [destruct R|].
    destruct (mem (typeref q) skipped_refs) eqn:M; [destruct R|].
    destruct (mem (typeref q) inline_refs) eqn:M'.
    + destruct (structured q) eqn:S'.
      * apply (uses_inline p q r I S'). now apply IH.
      * exfalso. destruct (pkind q) eqn:Kq; unfold structured in S'; rewrite Kq in S'; try discriminate.
        all: try (specialize (T q I); rewrite Kq in T; specialize (T ltac:(discriminate));
                  apply mem_in in M'; apply mem_out in M; cbn in T, M, M';
                  intuition (try congruence); fail).
        rewrite (subrefs_defined q Kq) in R. destruct R as [<-|[]]. now apply inline_reserved in M'.
    + destruct R as [<-|[]]. destruct (pkind q) eqn:Kq; try (now apply uses_ref);
        exfalso; specialize (T q I); rewrite Kq in T; specialize (T ltac:(discriminate));
        apply N; unfold reserved; rewrite in_flat_map; exists (pkind q); rewrite Kq;
        (split; [cbn; tauto|exact T]).
Qed.

(** A chain of types of [l], each using the next. *)
Inductive chain (l : list ptype) : list ptype -> Prop :=
| chain_one x : In x l -> chain l [x]
| chain_more x y c : In x l -> uses x (typeref y) -> chain l (y :: c) -> chain l (x :: y :: c).

Lemma chain_snoc l c w x : chain l (c ++ [w]) -> uses w (typeref x) -> In x l ->
  chain l ((c ++ [w]) ++ [x]).
Proof.
  intros C U I. induction c as [|a c IH]; cbn [app] in *.
  - inversion C; subst. apply chain_more; auto. now constructor.
  - destruct c as [|b c]; cbn [app] in *.
    + inversion C as [|? ? ? A B C']; subst. apply chain_more; auto.
    + inversion C as [|? ? ? A B C']; subst. apply chain_more; auto.
Qed.

Lemma chain_above l k x :
  (forall p, In p l -> parsed p /\ structured p = true /\ ~ In (typeref p) reserved) ->
  In x l -> (forall c, chain l (c ++ [x]) -> List.length c <= k) -> above l k x.
Proof.
  intros W. revert x. induction k as [|k IH]; intros x X B w I R; destruct (W w I) as (P & S & _).
  - apply (uses_subrefs w (typeref x) P S (proj2 (proj2 (W x X)))) in R.
    assert (chain l ([w] ++ [x])) as C.
    { cbn [app]. apply chain_more; auto. now constructor. }
    specialize (B [w] C). cbn in B. lia.
  - apply IH; [exact I|]. intros c C.
    apply (uses_subrefs w (typeref x) P S (proj2 (proj2 (W x X)))) in R.
    pose proof (B _ (chain_snoc l c w x C R X)) as L. rewrite app_length in L. cbn in L. lia.
Qed.

Lemma place_before y x als types comps :
  before y x comps -> before y x (snd (fold_left place_alias als (types, comps))).
Proof.
  revert types comps. induction als as [|a als IH]; intros types comps B; cbn [fold_left]; [exact B|].
  unfold place_alias at 2. destruct (position _ _); apply IH; [now apply before_insert|exact B].
Qed.

(** Structured types as the parse actions leave them, under names that are not
    those of the library's own classes. *)
Definition well_parsed (l : list ptype) : Prop :=
  forall p, In p l -> structured p = true -> parsed p /\ ~ In (typeref p) reserved.

(** C38, for references between structured types: true as long as no chain of
    references has more than 101 types.  (Recursive schemas have endless chains;
    missing are the schemas with longer chains, and references through aliases:
    see the refutations below.) *)
Theorem C38_ordered_partial : forall l out,
  distinct_names l -> well_parsed l ->
  (forall c, chain (filter structured l) c -> List.length c <= 101) ->
  sort_assignments l = Ok out ->
  forall x y, In x l -> In y l -> structured x = true -> structured y = true ->
  uses x (typeref y) -> before y x out.
Proof.
  intros l out D W B S x y X Y Sx Sy U.
  apply sort_ok in S as (F & types & comps & A & ->).
  do 4 apply before_front.
  replace comps with (snd (types, comps)) by reflexivity. rewrite <- A.
  apply place_before. unfold sort_components.
  unfold distinct_names in D. rewrite (structs_structured l F).
  set (s := filter structured l) in *.
  assert (forall p, In p s -> parsed p /\ structured p = true /\ ~ In (typeref p) reserved) as W'.
  { intros p I. apply filter_In in I as [I K]. destruct (W p I K). auto. }
  assert (In x s) as X' by now apply filter_In.
  assert (In y s) as Y' by now apply filter_In.
  apply (loop_sorts max_iterations 0 s D); auto.
  - intros u v j _ _ _ L. lia.
  - intros u v U' V' R. exists 99. split; [unfold max_iterations; lia|].
    apply chain_above; auto. intros c C.
    destruct (W' u U') as (P1 & P2 & _), (W' v V') as (_ & _ & P3).
    apply (uses_subrefs u (typeref v) P1 P2 P3) in R.
    pose proof (B _ (chain_snoc s c u v C R V')) as L. rewrite !app_length in L. cbn in L. lia.
  - destruct (W' x X') as (P1 & P2 & _), (W' y Y') as (_ & _ & P3).
    now apply (uses_subrefs x (typeref y) P1 P2 P3).
Qed.

(** ** Aliases of structured types *)

(** [y] is the first of [l] with its name. *)
Definition leads (y : ptype) (l : list ptype) : Prop :=
  exists a b, l = a ++ y :: b /\ ~ In (typeref y) (map typeref a).

Lemma position_leads y a b : ~ In (typeref y) (map typeref a) ->
  position (typeref y) (map typeref (a ++ y :: b)) = Some (List.length a).
Proof.
  induction a as [|c a IH]; cbn [app map position List.length In]; intros N.
  - now rewrite String.eqb_refl.
  - destruct (String.eqb_spec (typeref y) (typeref c)) as [E|_]; [exfalso; auto|].
    now rewrite IH by tauto.
Qed.

Lemma leads_insert y a i l : leads y l -> position (typeref a) (map typeref l) = Some i ->
  leads y (insert_at (i + 1) a l).
Proof.
  intros (p & s & -> & N) P. unfold insert_at.
  destruct (le_lt_dec (i + 1) (List.length p)) as [L|L].
  - exists (firstn (i + 1) p ++ a :: skipn (i + 1) p), s. split.
    + rewrite firstn_app, skipn_app. replace (i + 1 - List.length p) with 0 by lia.
      cbn [firstn skipn]. rewrite app_nil_r, <- app_assoc. reflexivity.
    + intros I. apply in_map_iff in I as (z & E & I). apply in_app_or in I as [I|[<-|I]].
      * apply N, in_map_iff. exists z. split; [exact E|]. rewrite <- (firstn_skipn (i + 1) p).
        apply in_or_app. now left.
      * apply position_some in P. rewrite map_app, nth_error_app1 in P by (rewrite map_length; lia).
        apply nth_error_In in P. rewrite E in P. auto.
      * apply N, in_map_iff. exists z. split; [exact E|]. rewrite <- (firstn_skipn (i + 1) p).
        apply in_or_app. now right.
  - exists p, (firstn (i - List.length p) s ++ a :: skipn (i - List.length p) s). split; [|exact N].
    rewrite firstn_app, skipn_app, (firstn_all2 p), (skipn_all2 p) by lia.
    replace (i + 1 - List.length p) with (S (i - List.length p)) by lia.
    cbn [firstn skipn app]. rewrite <- app_assoc. reflexivity.
Qed.

Lemma place_leads y als types comps : leads y comps ->
  forall a, In a als -> typeref a = typeref y ->
  before y a (snd (fold_left place_alias als (types, comps))).
Proof.
  revert types comps. induction als as [|b als IH]; intros types comps L a I E; [destruct I|].
  cbn [fold_left]. destruct I as [->|I].
  - destruct L as (p & s & -> & N). unfold place_alias at 2. rewrite E, (position_leads y p s N).
    apply place_before. exists (p ++ [y]), s. split; [|apply in_or_app; right; now left].
    unfold insert_at.
    rewrite firstn_app, skipn_app, (firstn_all2 p), (skipn_all2 p) by lia.
    replace (List.length p + 1 - List.length p) with 1 by lia. cbn [firstn skipn app].
    reflexivity.
  - unfold place_alias at 2. destruct (position (typeref b) (map typeref comps)) eqn:P.
    + apply IH; auto. now apply leads_insert.
    + apply IH; auto.
Qed.

Lemma nodup_leads y l : NoDup (map typeref l) -> In y l -> leads y l.
Proof.
  intros D I. apply in_split in I as (a & b & ->). exists a, b. split; [reflexivity|].
  rewrite map_app in D. cbn [map] in D. apply NoDup_remove_2 in D.
  intros K. apply D, in_or_app. now left.
Qed.

Lemma place_stays (names : list string) a als ts cs :
  incl (map typeref cs) names -> ~ In (typeref a) names -> In a ts \/ In a als ->
  In a (fst (fold_left place_alias als (ts, cs))).
Proof.
  revert ts cs. induction als as [|b als IH]; intros ts cs I N O; cbn [fold_left].
  - destruct O as [O|[]]. exact O.
  - unfold place_alias at 2. destruct (position (typeref b) (map typeref cs)) as [i|] eqn:P.
    + apply IH; [|exact N|].
      * intros z Z. apply in_map_iff in Z as (c & <- & Z).
        apply (Permutation_in _ (Permutation_sym (insert_permutation _ _ _))) in Z.
        destruct Z as [<-|Z]; [|apply I; now apply in_map].
        apply I. apply position_some in P. now apply nth_error_In in P.
      * destruct O as [O|[<-|O]]; auto. exfalso. apply N, I.
        apply position_some in P. now apply nth_error_In in P.
    + apply IH; [exact I|exact N|]. destruct O as [O|[<-|O]]; auto; left; apply in_or_app; auto.
      right. now left.
Qed.

(** C38, for an alias [A ::= T] of a structured or simple type: always after T. *)
Theorem C38_alias_partial : forall l out,
  distinct_names l -> sort_assignments l = Ok out ->
  forall a y, In a l -> In y l -> pkind a = KDefined -> valref a = "" -> typeref a = typeref y ->
  (structured y = true \/
   (is_simple y = true /\ valref y = "" /\ ~ In (typeref y) (map typeref (filter structured l)))) ->
  before y a out.
Proof.
  intros l out D S a y A Y K V E C. apply sort_ok in S as (F & types & comps & Q & ->).
  unfold distinct_names in D. rewrite <- (structs_structured l F) in D, C.
  assert (In a (aliases_of l)) as A'.
  { apply filter_In. split; [exact A|]. unfold is_defined, has_value. rewrite K, V. reflexivity. }
  destruct C as [C|(C1 & C2 & C3)].
  - assert (In y (structs_of l)) as Y'.
    { apply filter_In. split; [exact Y|]. unfold structured in C. unfold is_struct, is_simple, is_defined.
      destruct (pkind y); try discriminate; reflexivity. }
    do 4 apply before_front.
    replace comps with (snd (types, comps)) by reflexivity. rewrite <- Q.
    pose proof (loop_permutation max_iterations (structs_of l) D) as P.
    apply place_leads; auto. apply nodup_leads.
    + apply (Permutation_NoDup (Permutation_map typeref P) D).
    + now apply (Permutation_in _ P).
  - apply before_front, before_across.
    + apply filter_In. split; [exact Y|]. unfold has_value. rewrite C1, C2. reflexivity.
    + apply in_or_app. left. replace types with (fst (types, comps)) by reflexivity.
      rewrite <- Q. unfold additional_sort.
      apply (place_stays (map typeref (structs_of l))); [|now rewrite E|now right].
      intros z Z. apply in_map_iff in Z as (c & <- & Z). apply in_map.
      pose proof (loop_permutation max_iterations (structs_of l) D) as P.
      now apply (Permutation_in _ (Permutation_sym P)).
Qed.

(** Structured types come after every value, constant and simple type. *)
Theorem C38_simple_partial : forall l out,
  distinct_names l -> sort_assignments l = Ok out ->
  forall x y, In x l -> In y l -> structured x = true ->
  is_simple y = true \/ (pkind y = KDefined /\ valref y <> "") -> before y x out.
Proof.
  intros l out D S x y X Y Sx C. apply sort_ok in S as (F & types & comps & Q & ->).
  assert (In x comps) as X'.
  { unfold distinct_names in D. rewrite <- (structs_structured l F) in D.
    pose proof (loop_permutation max_iterations (structs_of l) D) as P.
    replace comps with (snd (types, comps)) by reflexivity. rewrite <- Q.
    unfold additional_sort. generalize (aliases_of l). generalize (@nil ptype).
    assert (In x (sort_components (structs_of l))) as I.
    { apply (Permutation_in _ P). apply filter_In. split; [exact X|].
      unfold structured in Sx. unfold is_struct, is_simple, is_defined.
      destruct (pkind x); try discriminate; reflexivity. }
    revert I. generalize (sort_components (structs_of l)). intros cs I ts als.
    revert ts cs I. induction als as [|a als IH]; intros ts cs I; cbn [fold_left]; [exact I|].
    unfold place_alias at 2. destruct (position _ _); apply IH; [|exact I].
    apply (Permutation_in _ (insert_permutation _ _ _)). now right. }
  assert (has_value y = true \/ has_value y = false) as [H|H] by (destruct (has_value y); auto).
  - destruct C as [C|[C _]].
    + apply before_across; [|repeat (apply in_or_app; right); exact X'].
      apply filter_In. now rewrite C, H.
    + do 3 apply before_front. apply before_across; [|exact X'].
      apply filter_In. split; [exact Y|]. unfold is_defined. now rewrite C, H.
  - destruct C as [C|[_ C]].
    + apply before_front. apply before_across; [|repeat (apply in_or_app; right); exact X'].
      apply filter_In. now rewrite C, H.
    + unfold has_value in H. apply negb_false_iff, String.eqb_eq in H. contradiction.
Qed.

(** Structured types come after every alias whose target is not structured. *)
Theorem C38_plain_alias_partial : forall l out,
  distinct_names l -> sort_assignments l = Ok out ->
  forall x a, In x l -> In a l -> structured x = true -> pkind a = KDefined -> valref a = "" ->
  ~ In (typeref a) (map typeref (filter structured l)) -> before a x out.
Proof.
  intros l out D S x a X A Sx K V N. apply sort_ok in S as (F & types & comps & Q & ->).
  unfold distinct_names in D. rewrite <- (structs_structured l F) in D, N.
  pose proof (loop_permutation max_iterations (structs_of l) D) as P.
  assert (In x comps) as X'.
  { replace comps with (snd (types, comps)) by reflexivity. rewrite <- Q.
    unfold additional_sort. generalize (aliases_of l). generalize (@nil ptype).
    assert (In x (sort_components (structs_of l))) as I.
    { apply (Permutation_in _ P). apply filter_In. split; [exact X|].
      unfold structured in Sx. unfold is_struct, is_simple, is_defined.
      destruct (pkind x); try discriminate; reflexivity. }
    revert I. generalize (sort_components (structs_of l)). intros cs I ts als.
    revert ts cs I. induction als as [|b als IH]; intros ts cs I; cbn [fold_left]; [exact I|].
    unfold place_alias at 2. destruct (position _ _); apply IH; [|exact I].
    apply (Permutation_in _ (insert_permutation _ _ _)). now right. }
  do 2 apply before_front. apply before_across; [|apply in_or_app; now right].
  replace types with (fst (types, comps)) by reflexivity. rewrite <- Q. unfold additional_sort.
  apply (place_stays (map typeref (structs_of l))); [|exact N|right].
  - intros z Z. apply in_map_iff in Z as (c & <- & Z). apply in_map.
    now apply (Permutation_in _ (Permutation_sym P)).
  - apply filter_In. split; [exact A|]. unfold is_defined, has_value. rewrite K, V. reflexivity.
Qed.

(** ** How little one pass can do *)

Lemma upto l t : NoDup (map typeref l) -> t <= List.length l ->
  exists st, reached l t st /\
    (forall z, In z (outs st) -> exists i w, i < t /\ nth_error l i = Some w /\
                                 (z = w \/ In (typeref z) (subrefs w))) /\
    (forall i w z, i < t -> nth_error l i = Some w -> In z l -> In (typeref z) (subrefs w) ->
                   In z (outs st)) /\
    sort_pass l = fold_left (visit l) (rest l t) st.
Proof.
  intros D. induction t as [|t IH]; intros L.
  - exists (Pass [] [] [] true). split; [apply init_reached|]. split; [intros z []|].
    split; [intros; lia|]. apply pass_rest.
  - destruct IH as (st & R & A & B & E); [lia|].
    destruct (nth_error l t) as [c|] eqn:N; [|apply nth_error_None in N; lia].
    exists (visit l st (t, c)). pose proof (visit_reached l D t st c R N) as R'.
    split; [exact R'|]. split; [|split].
    + intros z Z. destruct (visit_new l st t c z (proj1 R) N Z) as [K|[K|(_ & j & K & _ & K')]].
      * destruct (A z K) as (i & w & H1 & H2 & H3). exists i, w. split; [lia|auto].
      * exists t, c. split; [lia|auto].
      * exists t, c. split; [lia|auto].
    + intros i w z I W Z U. destruct (visit_good l D st t c (proj1 R) N) as (_ & X & _).
      destruct (Nat.eq_dec i t) as [->|J].
      * rewrite W in N. injection N as <-. apply In_nth_error in Z as (j & Z).
        destruct (Nat.lt_total j t) as [T|[T|T]].
        -- eapply extends_in; [exact X|]. apply (proj2 R j z T Z).
        -- subst j. rewrite Z in W. injection W as ->. apply (visit_good l D st t w (proj1 R) Z).
        -- pose proof (subs_done l D t (subrefs w) st z j (proj1 R) Z T U) as S.
           unfold visit. set (st' := fold_left (visit_sub l t) (subrefs w) st) in *.
           destruct (mem (typeref w) (refs st')); [exact S|]. cbn [outs]. apply in_or_app. now left.
      * eapply extends_in; [exact X|]. apply (B i w z); auto. lia.
    + rewrite E, (rest_cons l t c N). reflexivity.
Qed.

(** If [x] is due at [t] and [y] is not, [x] goes first. *)
Lemma pass_late l t x y i w : NoDup (map typeref l) -> t <= List.length l -> In x l -> In y l ->
  i < t -> nth_error l i = Some w -> x = w \/ In (typeref x) (subrefs w) ->
  (forall j v, nth_error l j = Some v -> y = v \/ In (typeref y) (subrefs v) -> t <= j) ->
  before x y (outs (sort_pass l)).
Proof.
  intros D T X Y I W U V. destruct (upto l t D T) as (st & R & A & B & E).
  pose proof (pass_permutation l D) as P.
  assert (In y (outs (sort_pass l))) as Y' by now apply (Permutation_in _ P).
  rewrite E in Y' |- *.
  destruct (rest_reached l D _ t st eq_refl R) as (_ & (m & F) & _). rewrite F in Y' |- *.
  apply before_across.
  - destruct U as [->|U]; [apply (proj2 R i w I W)|]. now apply (B i w x).
  - apply in_app_or in Y' as [Y'|Y']; [|exact Y']. exfalso.
    destruct (A y Y') as (j & v & J & K & K'). specialize (V j v K K'). lia.
Qed.

(** ** A chain of references of any length *)

Fixpoint many_a (n : nat) : string :=
  match n with O => "A" | S m => String "A"%char (many_a m) end.

(** A_0 ::= SEQUENCE { x A_1 }, ..., A_n ::= SEQUENCE { }. *)
Definition link (n i : nat) : ptype :=
  PT KSeq (many_a i) "" "" false None None None
     (if i =? n then []
      else [inr (PT KDefined (many_a (S i)) "x" "" false None None None [])]).
Definition links (n : nat) : list ptype := map (link n) (seq 0 (S n)).

Lemma many_a_length n : String.length (many_a n) = S n.
Proof. induction n as [|n IH]; cbn; [reflexivity|now rewrite IH]. Qed.
Lemma many_a_inj i j : many_a i = many_a j -> i = j.
Proof. intros E. apply (f_equal String.length) in E. rewrite !many_a_length in E. lia. Qed.

Lemma many_a_legal i : ~ In (many_a i) reserved.
Proof.
  unfold reserved. cbn [flat_map class_refs app In]. destruct i as [|i]; cbn [many_a].
  - intuition discriminate.
  - destruct i; cbn [many_a]; intuition discriminate.
Qed.

Lemma link_subrefs n i : subrefs (link n i) = if i =? n then [] else [many_a (S i)].
Proof.
  unfold link. rewrite subrefs_struct by discriminate. cbn [members].
  destruct (i =? n); [reflexivity|]. cbn [flat_map typeref app].
  destruct (mem (many_a (S i)) skipped_refs) eqn:M.
  - apply skipped_reserved in M. now apply many_a_legal in M.
  - destruct (mem (many_a (S i)) inline_refs) eqn:M'; [|reflexivity].
    apply inline_reserved in M'. now apply many_a_legal in M'.
Qed.

Lemma links_in n p : In p (links n) <-> exists i, i <= n /\ p = link n i.
Proof.
  unfold links. rewrite in_map_iff. split.
  - intros (i & <- & I). apply in_seq in I. exists i. split; [lia|reflexivity].
  - intros (i & L & ->). exists i. split; [reflexivity|]. apply in_seq. lia.
Qed.

Lemma links_refs n : map typeref (links n) = map many_a (seq 0 (S n)).
Proof. unfold links. rewrite map_map. reflexivity. Qed.

Lemma links_nodup n : NoDup (map typeref (links n)).
Proof.
  rewrite links_refs. apply FinFun.Injective_map_NoDup; [|apply seq_NoDup].
  intros i j. apply many_a_inj.
Qed.

Lemma link_refers n i v : i < n -> In v (links n) -> In (typeref (link n (S i))) (subrefs v) ->
  v = link n i.
Proof.
  intros L V R. apply links_in in V as (j & J & ->). rewrite link_subrefs in R.
  destruct (j =? n); [destruct R|]. destruct R as [R|[]].
  change (many_a (S j) = many_a (S i)) in R. apply many_a_inj in R. now injection R as ->.
Qed.

(** After [k] passes the tail of the chain is still in the wrong order. *)
Lemma links_loop n m k l : k + m <= n -> Permutation (links n) l ->
  (forall i, k <= i < n -> before (link n i) (link n (S i)) l) ->
  forall i, k + m <= i < n -> before (link n i) (link n (S i)) (sort_loop m l).
Proof.
  revert k l. induction m as [|m IH]; intros k l L P B i I; cbn [sort_loop].
  - apply B. lia.
  - assert (NoDup (map typeref l)) as D.
    { apply (Permutation_NoDup (Permutation_map typeref P)), links_nodup. }
    assert (NoDup l) as D' by now apply (NoDup_map_inv typeref).
    assert (forall j, S k <= j < n -> before (link n j) (link n (S j)) (outs (sort_pass l))) as S.
    { intros j J. destruct j as [|j]; [lia|].
      assert (forall z, z <= n -> exists a, nth_error l a = Some (link n z)) as F.
      { intros z Z. apply In_nth_error. apply (Permutation_in _ P). apply links_in. exists z. auto. }
      destruct (F j ltac:(lia)) as (a & A), (F (Datatypes.S j) ltac:(lia)) as (b & Bb).
      destruct (F (Datatypes.S (Datatypes.S j)) ltac:(lia)) as (c & C).
      pose proof (before_lt l _ _ a b D' (B j ltac:(lia)) A Bb) as Lab.
      pose proof (before_lt l _ _ b c D' (B (Datatypes.S j) ltac:(lia)) Bb C) as Lbc.
      apply (pass_late l b _ _ a (link n j) D); auto.
      - apply Nat.lt_le_incl, nth_error_Some. congruence.
      - now apply nth_error_In in Bb.
      - now apply nth_error_In in C.
      - right. rewrite link_subrefs. replace (j =? n) with false by (symmetry; apply Nat.eqb_neq; lia).
        now left.
      - intros d v V [U|U].
        + subst v. assert (d = c) as ->; [|lia].
          apply (proj1 (NoDup_nth_error _) D'); [apply nth_error_Some; congruence|congruence].
        + apply (link_refers n (Datatypes.S j)) in U; [|lia|].
          * subst v. assert (d = b) as ->; [|lia].
            apply (proj1 (NoDup_nth_error _) D'); [apply nth_error_Some; congruence|congruence].
          * apply (Permutation_in _ (Permutation_sym P)). now apply nth_error_In in V. }
    pose proof (pass_permutation l D) as Q.
    destruct (quiet (sort_pass l)).
    + apply S. lia.
    + apply (IH (Datatypes.S k)); [lia|now rewrite P|exact S|lia].
Qed.

Lemma links_source n i : i < n -> before (link n i) (link n (S i)) (links n).
Proof.
  intros L. unfold links. exists (map (link n) (seq 0 (S i))), (map (link n) (seq (S (S i)) (n - S i))).
  split.
  - replace (S n) with (S i + S (n - S i)) by lia. rewrite seq_app, map_app. reflexivity.
  - apply in_map_iff. exists i. split; [reflexivity|]. apply in_seq. lia.
Qed.

Lemma links_chain n c : chain (links n) c ->
  exists i, i <= n /\ hd (link n 0) c = link n i /\ List.length c <= S n - i.
Proof.
  induction 1 as [x I|x y c I U C (j & J & E & L)].
  - apply links_in in I as (i & L & ->). exists i. cbn [hd List.length]. repeat split; auto. lia.
  - apply links_in in I as (i & K & ->). exists i. split; [exact K|]. split; [reflexivity|].
    assert (typeref y = many_a (S i)) as R.
    { inversion U as [p q I D|p q r I S U']; subst.
      - unfold link in I. cbn [members] in I. destruct (i =? n); [destruct I|].
        destruct I as [I|[]]. injection I as <-. reflexivity.
      - unfold link in I. cbn [members] in I. destruct (i =? n); [destruct I|].
        destruct I as [I|[]]. injection I as <-. discriminate. }
    cbn [hd] in E. subst y. cbn [link typeref] in R. apply many_a_inj in R. subst j.
    cbn [List.length] in *. lia.
Qed.

Lemma links_structured n : filter structured (links n) = links n.
Proof.
  assert (forall p, In p (links n) -> structured p = true) as K.
  { intros p I. apply links_in in I as (i & _ & ->). reflexivity. }
  revert K. generalize (links n). induction l as [|p l IH]; intros K; [reflexivity|].
  cbn [filter]. rewrite (K p (or_introl eq_refl)). f_equal. apply IH. intros q Q. apply K. now right.
Qed.

Lemma links_none n f : (forall p, structured p = true -> f p = false) -> filter f (links n) = [].
Proof.
  intros H. assert (forall p, In p (links n) -> f p = false) as K.
  { intros p I. apply links_in in I as (i & _ & ->). now apply H. }
  revert K. generalize (links n). induction l as [|p l IH]; intros K; [reflexivity|].
  cbn [filter]. rewrite (K p (or_introl eq_refl)). apply IH. intros q Q. apply K. now right.
Qed.

Lemma links_sorted n : sort_assignments (links n) = Ok (sort_components (links n)).
Proof.
  assert (structs_of (links n) = links n) as G.
  { unfold structs_of. rewrite <- (links_structured n) at 2. apply filter_ext_in. intros p I.
    apply links_in in I as (i & _ & ->). reflexivity. }
  assert (forallb iterable (links n) = true) as I.
  { apply forallb_forall. intros p I. apply links_in in I as (i & _ & ->). reflexivity. }
  assert (values_of (links n) = [] /\ simples_of (links n) = [] /\ aliases_of (links n) = [] /\
          constants_of (links n) = []) as (V1 & V2 & V3 & V4).
  { unfold values_of, simples_of, aliases_of, constants_of.
    split; [|split; [|split]]; apply links_none; intros p; unfold structured, is_simple, is_defined;
      destruct (pkind p); discriminate || reflexivity. }
  unfold sort_assignments. rewrite G, I, V1, V2, V3, V4. generalize (sort_components (links n)).
  reflexivity.
Qed.

Lemma links_well n : well_parsed (links n).
Proof.
  intros p I _. apply links_in in I as (i & _ & ->). split; [|apply many_a_legal].
  constructor; unfold link; cbn [members]; destruct (i =? n);
    [intros q []|intros q [Q|[]]; injection Q as <-|intros q []|intros q [Q|[]]; injection Q as <-].
  - now intros [].
  - constructor; cbn [members]; intros q [].
Qed.

Lemma links_unsorted n : n = S max_iterations ->
  ~ before (link n n) (link n max_iterations) (sort_components (links n)).
Proof.
  intros E B. unfold sort_components in B. revert E B. generalize max_iterations. intros m E B.
  assert (before (link n m) (link n n) (sort_loop m (links n))) as C.
  { assert (before (link n m) (link n (S m)) (sort_loop m (links n))) as C; [|now rewrite <- E in C].
    apply (links_loop n m 0 (links n)); [lia|reflexivity| |lia].
    intros i I. apply links_source. lia. }
  pose proof (loop_permutation m (links n) (links_nodup n)) as P.
  assert (NoDup (sort_loop m (links n))) as D.
  { apply (Permutation_NoDup P). apply (NoDup_map_inv typeref), links_nodup. }
  revert B C D. generalize (sort_loop m (links n)). intros out B C D.
  assert (exists a, nth_error out a = Some (link n m)) as (a & A).
  { destruct C as (p & s & -> & I). apply In_nth_error, in_or_app. now left. }
  assert (exists b, nth_error out b = Some (link n n)) as (b & Bb).
  { destruct B as (p & s & -> & I). apply In_nth_error, in_or_app. now left. }
  pose proof (before_lt out _ _ a b D C A Bb). pose proof (before_lt out _ _ b a D B Bb A). lia.
Qed.

Lemma links_refuted n : n = S max_iterations -> exists l out,
  distinct_names l /\ well_parsed l /\
  (forall c, chain (filter structured l) c -> List.length c <= S n) /\
  sort_assignments l = Ok out /\
  exists x y, In x l /\ In y l /\ structured x = true /\ structured y = true /\
              uses x (typeref y) /\ ~ before y x out.
Proof.
  intros E. exists (links n), (sort_components (links n)).
  split; [|split; [|split; [|split]]].
  - unfold distinct_names. rewrite links_structured. apply links_nodup.
  - apply links_well.
  - rewrite links_structured. intros c C. apply links_chain in C as (i & _ & _ & L). lia.
  - apply links_sorted.
  - pose proof (links_unsorted n E) as U. revert E U. generalize max_iterations. intros m E U.
    exists (link n m), (link n n).
    split; [apply links_in; exists m; split; [lia|reflexivity]|].
    split; [apply links_in; exists n; split; [lia|reflexivity]|].
    split; [reflexivity|]. split; [reflexivity|]. split; [|exact U].
    assert (typeref (link n n) = typeref (PT KDefined (many_a (S m)) "x" "" false None None None [])) as ->
      by (cbn [typeref link]; now rewrite E).
    apply uses_ref; [|reflexivity]. unfold link. cbn [members].
    replace (m =? n) with false by (symmetry; apply Nat.eqb_neq; lia). now left.
Qed.

(** C38 fails for a chain of 102 types in the order a reader would write them: the
    loop gives up after 100 passes (and only logs a warning). *)
Theorem C38_long_chain_refuted : exists l out,
  distinct_names l /\ well_parsed l /\
  (forall c, chain (filter structured l) c -> List.length c <= 102) /\
  sort_assignments l = Ok out /\
  exists x y, In x l /\ In y l /\ structured x = true /\ structured y = true /\
              uses x (typeref y) /\ ~ before y x out.
Proof. exact (links_refuted 101 eq_refl). Qed.

(** ** Smaller failures *)

Lemma not_before l y x i j : NoDup l -> nth_error l i = Some x -> nth_error l j = Some y -> i < j ->
  ~ before y x l.
Proof. intros D X Y L B. pose proof (before_lt l y x j i D B Y X). lia. Qed.

Ltac distinct := repeat constructor; cbn; intuition discriminate.

(** name ::= SEQUENCE { component }, with an optional reference *)
Definition seq_of_ref (name : string) (r : option string) : ptype :=
  PT KSeq name "" "" false None None None
     (match r with
      | Some r => [inr (PT KDefined r "x" "" false None None None [])]
      | None => []
      end).
(** name ::= target *)
Definition alias (name target : string) : ptype := PT KDefined target name "" false None None None [].

(** C38 fails through an alias: S ::= SEQUENCE { x F }, F ::= T, T ::= SEQUENCE { }
    is written S, T, F: the component list of S names F and so T before either
    exists. *)
Theorem C38_alias_refuted : exists l out x a y,
  distinct_names l /\ well_parsed l /\ sort_assignments l = Ok out /\
  In x l /\ In a l /\ In y l /\
  structured x = true /\ pkind a = KDefined /\ structured y = true /\
  uses x (ident a) /\ typeref a = typeref y /\
  ~ before a x out /\ ~ before y x out.
Proof.
  pose (x := seq_of_ref "S" (Some "F")). pose (y := seq_of_ref "T" None). pose (a := alias "F" "T").
  exists [x; a; y], [x; y; a], x, a, y.
  split; [unfold distinct_names; cbn; distinct|].
  split.
  { intros p I K. cbn in I. destruct I as [<-|[<-|[<-|[]]]]; try discriminate; split.
    - constructor; cbn; intros q [Q|[]]; injection Q as <-; [now intros []|].
      constructor; cbn; intros q [].
    - cbn. intuition discriminate.
    - constructor; cbn; intros q [].
    - cbn. intuition discriminate. }
  split; [vm_compute; reflexivity|].
  split; [now left|]. split; [right; now left|]. split; [right; right; now left|].
  split; [reflexivity|]. split; [reflexivity|]. split; [reflexivity|]. split.
  { apply (uses_ref x (PT KDefined "F" "x" "" false None None None [])); [now left|reflexivity]. }
  split; [reflexivity|]. split.
  - apply (not_before _ a x 0 2); [distinct|reflexivity|reflexivity|lia].
  - apply (not_before _ y x 0 1); [distinct|reflexivity|reflexivity|lia].
Qed.

(** An alias of an alias keeps its place in the source: G ::= F, F ::= T with
    T ::= INTEGER is written T, G, F. *)
Theorem C38_two_aliases_refuted : exists l out g f,
  distinct_names l /\ sort_assignments l = Ok out /\ In g l /\ In f l /\
  pkind g = KDefined /\ pkind f = KDefined /\ typeref g = ident f /\ ~ before f g out.
Proof.
  pose (t := PT KInt "T" "" "" false None None None []).
  exists [alias "G" "F"; alias "F" "T"; t], [t; alias "G" "F"; alias "F" "T"], (alias "G" "F"), (alias "F" "T").
  split; [unfold distinct_names; cbn; constructor|]. split; [vm_compute; reflexivity|].
  split; [now left|]. split; [right; now left|].
  split; [reflexivity|]. split; [reflexivity|]. split; [reflexivity|].
  apply (not_before _ _ _ 1 2); [distinct|reflexivity|reflexivity|lia].
Qed.

(** A structured type named like one of the library's classes is not sorted (and
    hides the class): hence the condition on names in [well_parsed]. *)
Theorem C38_class_name_refuted : exists l out x y,
  distinct_names l /\ sort_assignments l = Ok out /\ In x l /\ In y l /\
  structured x = true /\ structured y = true /\ parsed x /\ parsed y /\
  uses x (typeref y) /\ ~ before y x out.
Proof.
  pose (x := seq_of_ref "S" (Some "BitStringType")). pose (y := seq_of_ref "BitStringType" None).
  exists [x; y], [x; y], x, y.
  split; [unfold distinct_names; cbn; distinct|]. split; [vm_compute; reflexivity|].
  split; [now left|]. split; [right; now left|]. split; [reflexivity|]. split; [reflexivity|].
  split.
  { constructor; cbn; intros q [Q|[]]; injection Q as <-; [now intros []|].
    constructor; cbn; intros q []. }
  split; [constructor; cbn; intros q []|]. split.
  - apply (uses_ref x (PT KDefined "BitStringType" "x" "" false None None None [])); [now left|reflexivity].
  - apply (not_before _ _ _ 0 1); [distinct|reflexivity|reflexivity|lia].
Qed.

(** ** Cases *)

(** Five assignments: a value, an alias, a simple type and two structured types,
    one using the other inside an inline SEQUENCE OF CHOICE. *)
Definition case_assignments : list ptype :=
  [ PT KSeq "Top" "" "" false None None None
      [inr (PT KSeqOf "SequenceOfType" "items" "" false None None (Some ("1", "4", false))
              [inr (PT KChoice "ChoiceType" "" "" false None None None
                      [inr (PT KDefined "Item" "one" "" false None None None []); inl "...";
                       inr (PT KInt "IntegerType" "two" "" false None None None [])])])];
    alias "Same" "Item";
    PT KInt "IntegerType" "" "max" false None None None [];
    PT KOcts "Name" "" "" false None None (Some ("1", "max", false)) [];
    PT KSeq "Item" "" "" false None None None [inr (PT KDefined "Name" "n" "" true None None None [])] ].

Example C37_case : distinct_names case_assignments /\
  exists out, sort_assignments case_assignments = Ok out /\
    map (fun p => (typeref p, ident p)) out =
    [("IntegerType", ""); ("Name", ""); ("Item", ""); ("Item", "Same"); ("Top", "")].
Proof.
  split; [unfold distinct_names; cbn; distinct|].
  eexists. split; [vm_compute; reflexivity|reflexivity].
Qed.

Example C38_case :
  distinct_names (links 3) /\ well_parsed (links 3) /\
  (forall c, chain (filter structured (links 3)) c -> List.length c <= 101) /\
  sort_assignments (links 3) = Ok (rev (links 3)).
Proof.
  split; [unfold distinct_names; rewrite links_structured; apply links_nodup|].
  split; [apply links_well|]. split; [|vm_compute; reflexivity].
  rewrite links_structured. intros c C. apply links_chain in C as (i & _ & _ & L). lia.
Qed.

Example C38_case_inline :
  (exists out, sort_assignments case_assignments = Ok out) /\ well_parsed case_assignments /\
  uses (nth 0 case_assignments (alias "" "")) "Item".
Proof.
  split; [eexists; vm_compute; reflexivity|]. split.
  - intros p I K. cbn in I.
    repeat (destruct I as [<-|I]; [try discriminate K|]); [..|destruct I];
      (split; [|cbn; intuition discriminate]);
      repeat (constructor; cbn;
              intros q Q; repeat (destruct Q as [Q|Q]; [try discriminate Q; injection Q as <-|]);
              try destruct Q; try (now intros []); try (intros _; now left)).
  - eapply uses_inline; [now left|reflexivity|]. eapply uses_inline; [now left|reflexivity|].
    apply (uses_ref _ (PT KDefined "Item" "one" "" false None None None [])); [now left|reflexivity].
Qed.
