(** Generated classes and preprocessing: C36, C39 - C44. *)

From Coq Require Import ZArith List String Ascii Bool Arith Lia Permutation.
Import ListNotations.
From Verif Require Import PyBase Schema Spec Generator Ordering.

Open Scope string_scope.
Open Scope list_scope.
Open Scope nat_scope.

(** * C36: numbers of ENUMERATED items *)

Lemma enum_fold ext root adds n items : (forall i, In i items -> is_dots i = false) ->
  fold_left enum_step items (EL ext root adds n) =
  let new := combine (map item_text items) (seq n (List.length items)) in
  if ext then EL true root (adds ++ new) (n + List.length items)
  else EL false (root ++ new) adds (n + List.length items).
Proof.
  revert ext root adds n. induction items as [|i items IH]; intros ext root adds n H; cbn [fold_left].
  - cbn. rewrite !app_nil_r, Nat.add_0_r. now destruct ext.
  - unfold enum_step at 2. rewrite (H i (or_introl eq_refl)). cbn [e_ext e_root e_adds e_next].
    destruct ext; cbn [negb]; rewrite IH by (intros j J; apply H; now right);
      cbn [List.length map combine seq]; rewrite <- app_assoc, Nat.add_succ_r; reflexivity.
Qed.

Lemma combine_snd {A} (l : list A) n k : k = List.length l -> map snd (combine l (seq n k)) = seq n k.
Proof.
  intros ->. revert n. induction l as [|x l IH]; intros n; [reflexivity|].
  cbn [List.length seq combine map snd]. now rewrite IH.
Qed.

Lemma combine_fst {A} (l : list A) n k : k = List.length l -> map fst (combine l (seq n k)) = l.
Proof.
  intros ->. revert n. induction l as [|x l IH]; intros n; [reflexivity|].
  cbn [List.length seq combine map fst]. now rewrite IH.
Qed.

(** The schema text of an ENUMERATED: root items, then perhaps the marker and
    additions. *)
Definition enum_source (root : list eitem) (adds : option (list eitem)) : list eitem :=
  root ++ match adds with Some a => EName "..." :: a | None => [] end.

Definition no_dots (items : list eitem) : Prop := ~ In (EName "...") items.

Lemma no_dots_all items : no_dots items -> forall i, In i items -> is_dots i = false.
Proof.
  intros N i I. unfold is_dots. destruct i as [s|]; [|reflexivity].
  destruct (String.eqb_spec s "..."); [|reflexivity]. subst. contradiction.
Qed.

Lemma enum_result root adds : no_dots root -> no_dots (match adds with Some a => a | None => [] end) ->
  enum_fill (enum_source root adds) =
  EL (match adds with Some _ => true | None => false end)
     (combine (map item_text root) (seq 0 (List.length root)))
     (match adds with
      | Some a => combine (map item_text a) (seq (List.length root) (List.length a))
      | None => []
      end)
     (List.length root + match adds with Some a => List.length a | None => 0 end).
Proof.
  intros R A. unfold enum_fill, enum_source. rewrite fold_left_app.
  rewrite (enum_fold false [] [] 0 root (no_dots_all root R)). cbn [app plus].
  destruct adds as [a|]; cbn [fold_left].
  - unfold enum_step at 2. cbn [is_dots String.eqb Ascii.eqb Bool.eqb e_root e_adds e_next].
    rewrite (enum_fold true _ _ _ a (no_dots_all a A)). reflexivity.
  - now rewrite Nat.add_0_r.
Qed.

(** C36: root items get 0, 1, 2, ... in order, additions go on from there; the
    names keep their order; the marker is recorded; [namedValues] has every item
    once, and no two with the same number. *)
Theorem C36_numbering : forall root adds,
  let a := match adds with Some a => a | None => [] end in
  no_dots root -> no_dots a ->
  let e := enum_fill (enum_source root adds) in
  (e_ext e = true <-> adds <> None) /\
  map fst (e_root e) = map item_text root /\ map fst (e_adds e) = map item_text a /\
  (forall i x, nth_error (e_root e) i = Some x -> snd x = i) /\
  (forall i x, nth_error (e_adds e) i = Some x -> snd x = List.length root + i) /\
  map fst (named_values e) = map item_text (root ++ a) /\
  (forall i x, nth_error (named_values e) i = Some x -> snd x = i) /\
  NoDup (map snd (named_values e)).
Proof.
  intros root adds a R A e.
  assert (e_root e = combine (map item_text root) (seq 0 (List.length root))) as Er
    by (unfold e; now rewrite enum_result).
  assert (e_adds e = combine (map item_text a) (seq (List.length root) (List.length a))) as Ea.
  { unfold e. rewrite enum_result by assumption. unfold a. destruct adds; reflexivity. }
  assert (named_values e = combine (map item_text (root ++ a)) (seq 0 (List.length (root ++ a)))) as En.
  { unfold named_values. rewrite Er, Ea.
    assert (forall l m n k : nat, forall r s : list string, List.length r = m -> List.length s = k ->
              n = l + m -> combine r (seq l m) ++ combine s (seq n k) = combine (r ++ s) (seq l (m + k))) as H.
    { intros l m n k r s Hr Hs ->. revert l m Hr. induction r as [|x r IH]; intros l m Hr; subst m; cbn.
      - now rewrite Nat.add_0_r.
      - f_equal. rewrite <- IH by reflexivity. now rewrite Nat.add_succ_r. }
    destruct a as [|i0 a'] eqn:Ha.
    - cbn [map combine List.length seq]. now rewrite app_nil_r.
    - cbn [map combine List.length seq]. rewrite map_app, app_length.
      rewrite <- (H 0 (List.length root) (List.length root)); [reflexivity|apply map_length| |reflexivity].
      cbn. now rewrite map_length. }
  assert (forall i x (l : list string) n k, k = List.length l ->
            nth_error (combine l (seq n k)) i = Some x -> snd x = n + i) as N.
  { intros i x l n k K E. pose proof (map_nth_error snd i _ E) as F. rewrite combine_snd in F by exact K.
    assert (i < k) as L by (rewrite <- (seq_length k n); apply nth_error_Some; congruence).
    rewrite (nth_error_nth' _ 0), seq_nth in F by (rewrite ?seq_length; exact L).
    now injection F as <-. }
  split.
  { unfold e. rewrite enum_result by assumption. cbn [e_ext]. destruct adds; split; congruence. }
  split; [rewrite Er; apply combine_fst; now rewrite map_length|].
  split; [rewrite Ea; apply combine_fst; now rewrite map_length|].
  split; [intros i x E; rewrite Er in E; apply (N i x _ 0 _) in E; [exact E|now rewrite map_length]|].
  split; [intros i x E; rewrite Ea in E; apply N in E; [exact E|now rewrite map_length]|].
  split; [rewrite En; apply combine_fst; now rewrite map_length|].
  split; [intros i x E; rewrite En in E; apply (N i x _ 0 _) in E; [exact E|now rewrite map_length]|].
  rewrite En, combine_snd by (now rewrite map_length). apply seq_NoDup.
Qed.

(** The numbers are those the codec's ENUMERATED proofs assume. *)
Theorem C36_codec_numbers : forall root adds,
  no_dots root -> no_dots (match adds with Some a => a | None => [] end) ->
  let e := enum_fill (enum_source root adds) in
  numbered (map (fun x => Z.of_nat (snd x)) (e_root e)) (map (fun x => Z.of_nat (snd x)) (e_adds e)).
Proof.
  intros root adds R A e. destruct (C36_numbering root adds R A) as (_ & F1 & F2 & N1 & N2 & _).
  fold e in F1, F2, N1, N2. unfold numbered.
  assert (List.length (e_root e) = List.length root) as L1.
  { rewrite <- (map_length fst), F1. apply map_length. }
  assert (forall (l : list (string * nat)) n, (forall i x, nth_error l i = Some x -> snd x = n + i) ->
            map snd l = seq n (List.length l)) as H.
  { induction l as [|x l IH]; intros n H; [reflexivity|]. cbn [map List.length seq]. f_equal.
    - rewrite (H 0 x eq_refl). now rewrite Nat.add_0_r.
    - apply IH. intros i y Y. rewrite (H (S i) y Y). lia. }
  rewrite <- !(map_map snd Z.of_nat), <- map_app, map_length, app_length, !map_length. f_equal.
  rewrite (H (e_root e) 0) by exact N1. rewrite (H (e_adds e) (List.length root)) by exact N2.
  now rewrite L1, seq_app.
Qed.

Example C36_case :
  enum_fill (enum_source [EName "red"; EName "green"] (Some [EName "blue"])) =
  EL true [("red", 0); ("green", 1)] [("blue", 2)] 3.
Proof. reflexivity. Qed.

(** * C42: the numbers written in the schema *)

(** C42 is false: a number given to an item is dropped, and the item's name
    becomes the text of a dict (which is not even valid inside the quotes the
    template puts around it). *)
Theorem C42_named_numbers_refuted : exists items name number n,
  In (ENumber name number) items /\ number = "3" /\
  named_values (enum_fill items) = [(n, 0)] /\ n <> name.
Proof.
  exists [ENumber "red" "3"], "red", "3", "{'3': 'red'}".
  split; [now left|]. split; [reflexivity|]. split; [reflexivity|discriminate].
Qed.

(** Without numbers in the schema every item keeps its name and has the number
    X.680 20.5 gives it. *)
Theorem C42_names_partial : forall root adds,
  ~ In "..." (root ++ adds) ->
  let e := enum_fill (enum_source (map EName root) (Some (map EName adds))) in
  map fst (named_values e) = root ++ adds /\
  forall i s, nth_error (root ++ adds) i = Some s -> nth_error (named_values e) i = Some (s, i).
Proof.
  intros root adds N e.
  assert (no_dots (map EName root) /\ no_dots (map EName adds)) as [R A].
  { split; intros I; apply in_map_iff in I as (s & E & I); injection E as ->; apply N, in_or_app; auto. }
  destruct (C36_numbering (map EName root) (Some (map EName adds)) R A) as (_ & _ & _ & _ & _ & F & G & _).
  fold e in F, G.
  assert (map fst (named_values e) = root ++ adds) as F'.
  { rewrite F, <- map_app, map_map. apply map_id. }
  split; [exact F'|]. intros i s S. rewrite <- F' in S.
  destruct (nth_error (named_values e) i) as [[n k]|] eqn:E.
  - rewrite (map_nth_error fst i _ E) in S. injection S as <-. specialize (G i _ E). cbn in G. now subst k.
  - apply nth_error_None in E. assert (i < List.length (map fst (named_values e))) as L
      by (apply nth_error_Some; congruence). rewrite map_length in L. lia.
Qed.

(** * C39: comments *)

Definition breaks : list Z := [10; 11; 12; 13; 28; 29; 30; 133; 8232; 8233]%Z.
Definition no_break (l : list Z) : Prop := forall c, In c l -> ~ In c breaks.

(** [line_end e s]: [e], followed by [s], ends a line: CR LF, or one other
    separator (a CR not followed by LF). *)
Definition line_end (e s : list Z) : Prop :=
  e = [13; 10]%Z \/
  exists c, e = [c] /\ In c breaks /\ (c = 13%Z -> forall s', s <> 10%Z :: s').

(** [text_of s ls]: the lines of the text [s] are [ls]. *)
Inductive text_of : list Z -> list (list Z) -> Prop :=
| text_nil : text_of [] []
| text_last l : l <> [] -> no_break l -> text_of l [l]
| text_line l e s ls : no_break l -> line_end e s -> text_of s ls -> text_of (l ++ e ++ s) (l :: ls).

(** [code_of l c]: [c] is what stands before the first double hyphen of [l]. *)
Definition has_dashes (l : list Z) : Prop := exists a b, l = a ++ [45; 45]%Z ++ b.
Definition code_of (l c : list Z) : Prop :=
  (~ has_dashes l /\ c = l) \/
  exists b, l = c ++ [45; 45]%Z ++ b /\ ~ has_dashes (c ++ [45]%Z).

Lemma is_break_in c : is_break c = true <-> In c breaks.
Proof.
  unfold is_break, breaks. rewrite existsb_exists. split.
  - intros (x & I & E). apply Z.eqb_eq in E. now subst.
  - intros I. exists c. split; [exact I|apply Z.eqb_refl].
Qed.

Lemma split_run l cur s : no_break l -> split_lines cur (l ++ s) = split_lines (rev l ++ cur) s.
Proof.
  revert cur. induction l as [|c l IH]; intros cur N; [reflexivity|].
  cbn [app split_lines rev].
  assert (is_break c = false) as B.
  { destruct (is_break c) eqn:B; [|reflexivity]. apply is_break_in in B. now apply (N c (or_introl eq_refl)) in B. }
  replace (c =? 13)%Z with false.
  - rewrite B, IH by (intros d D; apply N; now right). now rewrite <- app_assoc.
  - symmetry. apply Z.eqb_neq. intros ->. now vm_compute in B.
Qed.

Lemma splitlines_text s ls : text_of s ls -> splitlines s = ls.
Proof.
  unfold splitlines. induction 1 as [|l E N|l e s ls N E T IH]; [reflexivity|..].
  - rewrite <- (app_nil_r l) at 1. rewrite split_run by exact N. rewrite app_nil_r. cbn [split_lines].
    destruct (rev l) as [|c r] eqn:R.
    + destruct E. now rewrite <- (rev_involutive l), R.
    + now rewrite <- R, rev_involutive.
  - rewrite split_run by exact N. rewrite app_nil_r. destruct E as [->|(c & -> & B & K)].
    + cbn [app split_lines]. rewrite !Z.eqb_refl. now rewrite rev_involutive, IH.
    + apply is_break_in in B. cbn [app split_lines]. destruct (Z.eqb_spec c 13) as [->|_].
      * destruct s as [|d s].
        -- now rewrite rev_involutive, <- IH.
        -- destruct (Z.eqb_spec d 10) as [->|_]; [now destruct (K eq_refl s)|].
           now rewrite rev_involutive, <- IH.
      * now rewrite B, rev_involutive, IH.
Qed.

Lemma text_exists s : exists ls, text_of s ls.
Proof.
  assert (forall n s l, List.length s <= n -> no_break l -> exists ls, text_of (l ++ s) ls) as H.
  { induction n as [|n IH]; intros s' l L N.
    - destruct s'; [|cbn in L; lia]. rewrite app_nil_r. destruct l as [|c l].
      + exists []. constructor.
      + exists [c :: l]. constructor; [discriminate|exact N].
    - destruct s' as [|c s']; [apply (IH [] l); [cbn; lia|exact N]|]. cbn in L.
      destruct (is_break c) eqn:B.
      + apply is_break_in in B. assert (no_break []) as N0 by (intros d []).
        destruct (Z.eq_dec c 13) as [->|K].
        * destruct s' as [|d s'].
          -- exists [l]. apply (text_line l [13%Z] [] []); [exact N| |constructor].
             right. exists 13%Z. split; [reflexivity|]. split; [exact B|]. discriminate.
          -- destruct (Z.eq_dec d 10) as [->|K].
             ++ destruct (IH s' [] ltac:(cbn in L; lia) N0) as (ls & T). exists (l :: ls).
                apply (text_line l [13; 10]%Z s' ls); [exact N|now left|exact T].
             ++ destruct (IH (d :: s') [] ltac:(cbn in *; lia) N0) as (ls & T). exists (l :: ls).
                apply (text_line l [13%Z] (d :: s') ls); [exact N| |exact T].
                right. exists 13%Z. split; [reflexivity|]. split; [exact B|]. intros _ r E. congruence.
        * destruct (IH s' [] ltac:(lia) N0) as (ls & T). exists (l :: ls).
          apply (text_line l [c] s' ls); [exact N| |exact T].
          right. exists c. split; [reflexivity|]. split; [exact B|]. intros E. congruence.
      + replace (l ++ c :: s') with ((l ++ [c]) ++ s') by (now rewrite <- app_assoc).
        apply IH; [lia|]. intros d D. apply in_app_or in D as [D|[<-|[]]]; [now apply N|].
        intros I. apply is_break_in in I. congruence. }
  apply (H (List.length s) s [] (le_n _)). intros c [].
Qed.

Lemma has_dashes_cons c l : has_dashes (c :: l) <->
  (c = 45%Z /\ exists r, l = 45%Z :: r) \/ has_dashes l.
Proof.
  split.
  - intros (a & b & E). destruct a as [|x a]; cbn [app] in E.
    + injection E as -> ->. left. split; [reflexivity|now exists b].
    + injection E as -> ->. right. now exists a, b.
  - intros [(-> & r & ->)|(a & b & ->)].
    + now exists [], r.
    + now exists (c :: a), b.
Qed.

Lemma no_dashes_nil : ~ has_dashes [].
Proof. intros (a & b & E). destruct a; discriminate. Qed.

Lemma cut_code l : code_of l (cut_comment l).
Proof.
  induction l as [|c l IH]; [left; split; [apply no_dashes_nil|reflexivity]|].
  cbn [cut_comment]. destruct l as [|d l].
  - left. split; [|reflexivity]. rewrite has_dashes_cons. intros [(_ & r & E)|H]; [discriminate|].
    now apply no_dashes_nil in H.
  - destruct (Z.eqb_spec c 45) as [->|C]; [destruct (Z.eqb_spec d 45) as [->|E]|]; cbn [andb].
    + right. exists l. split; [reflexivity|]. cbn [app]. rewrite has_dashes_cons.
      intros [(_ & r & H)|H]; [discriminate|now apply no_dashes_nil in H].
    + destruct IH as [(N & E')|(b & E' & N)].
      * left. split; [|now rewrite E']. rewrite has_dashes_cons. intros [(_ & r & H)|H]; [|auto].
        injection H as -> _. congruence.
      * right. exists b. split; [exact (f_equal (cons _) E')|]. cbn [app]. rewrite has_dashes_cons.
        intros [(_ & r & H)|H]; [|auto]. destruct (cut_comment (d :: l)) as [|x k] eqn:K.
        -- cbn [app] in E'. injection E' as -> _. congruence.
        -- cbn [app] in E', H. injection E' as <- _. injection H as -> _. congruence.
    + destruct IH as [(N & E')|(b & E' & N)].
      * left. split; [|now rewrite E']. rewrite has_dashes_cons. intros [(H & _)|H]; auto.
      * right. exists b. split; [exact (f_equal (cons _) E')|]. cbn [app]. rewrite has_dashes_cons.
        intros [(H & _)|H]; auto.
Qed.

Lemma code_unique l c c' : code_of l c -> code_of l c' -> c = c'.
Proof.
  assert (forall c c' b b' : list Z, c ++ [45; 45]%Z ++ b = c' ++ [45; 45]%Z ++ b' ->
            ~ has_dashes (c ++ [45]%Z) -> ~ has_dashes (c' ++ [45]%Z) -> c = c') as H.
  { clear. induction c as [|x c IH]; intros c' b b' E N N'.
    - destruct c' as [|y c']; [reflexivity|]. exfalso. apply N'. cbn [app] in E |- *.
      injection E as <- E. apply has_dashes_cons. left. split; [reflexivity|].
      destruct c' as [|z c']; cbn [app] in E |- *; [eauto|injection E as <- _; eauto].
    - destruct c' as [|y c'].
      + exfalso. apply N. cbn [app] in E |- *. injection E as -> E. apply has_dashes_cons. left.
        split; [reflexivity|]. destruct c as [|z c]; cbn [app] in E |- *; [eauto|injection E as -> _; eauto].
      + cbn [app] in E. injection E as -> E. f_equal. apply (IH c' b b' E).
        * intros F. apply N. cbn [app]. apply has_dashes_cons. now right.
        * intros F. apply N'. cbn [app]. apply has_dashes_cons. now right. }
  intros [(N & ->)|(b & E & N)] [(N' & ->)|(b' & E' & N')]; auto.
  - exfalso. apply N. now exists c', b'.
  - exfalso. apply N'. now exists c, b.
  - apply (H c c' b b'); auto. congruence.
Qed.

Lemma code_no_break l c : code_of l c -> no_break l -> no_break c.
Proof.
  intros [(_ & ->)|(b & -> & _)] N; [exact N|]. intros d D. apply N, in_or_app. now left.
Qed.

Lemma code_no_dashes l c : code_of l c -> ~ has_dashes c.
Proof.
  intros [(N & ->)|(b & _ & N)]; [exact N|]. intros (x & y & ->). apply N.
  exists x, (y ++ [45]%Z). now rewrite <- !app_assoc.
Qed.

(** C39: the output consists, line for line, of the part of each input line before
    its first double hyphen, each ended by a line feed.  This covers: number of
    lines kept, text before a comment unchanged.  (Missing: text after a comment
    that is closed on its line, and the other kind of comment, see below.) *)
Theorem C39_lines_partial : forall s,
  exists ls cs, text_of s ls /\ Forall2 code_of ls cs /\ text_of (remove_comments s) cs /\
                remove_comments s = flat_map (fun c => c ++ [10%Z]) cs.
Proof.
  intros s. destruct (text_exists s) as (ls & T). exists ls, (map cut_comment ls).
  pose proof (splitlines_text s ls T) as E.
  assert (remove_comments s = flat_map (fun c => c ++ [10%Z]) (map cut_comment ls)) as F.
  { unfold remove_comments. rewrite E. clear. induction ls as [|l ls IH]; [reflexivity|].
    cbn [flat_map map]. now rewrite IH. }
  assert (Forall2 code_of ls (map cut_comment ls)) as G.
  { clear. induction ls as [|l ls IH]; constructor; [apply cut_code|exact IH]. }
  split; [exact T|]. split; [exact G|]. split; [|exact F]. rewrite F.
  assert (Forall no_break (map cut_comment ls)) as N.
  { assert (Forall no_break ls) as N by (clear - T; induction T; repeat constructor; auto).
    clear - N G. induction G as [|l c ls cs K G IH]; [constructor|]. inversion N; subst.
    constructor; [now apply (code_no_break l)|auto]. }
  clear - N. induction N as [|c cs N' N IH]; [constructor|]. cbn [flat_map]. rewrite <- app_assoc.
  apply text_line; [exact N'| |exact IH]. right. exists 10%Z.
  split; [reflexivity|]. split; [now left|]. discriminate.
Qed.

Lemma flat_no_dashes cs : (forall c, In c cs -> ~ has_dashes c) ->
  ~ has_dashes (flat_map (fun c => c ++ [10%Z]) cs).
Proof.
  induction cs as [|c cs IH]; intros H; [apply no_dashes_nil|]. cbn [flat_map].
  specialize (IH (fun d D => H d (or_intror D))). specialize (H c (or_introl eq_refl)).
  induction c as [|x c IHc]; cbn [app].
  - rewrite has_dashes_cons. intros [(E & _)|K]; [discriminate|auto].
  - rewrite has_dashes_cons. intros [(-> & r & E)|K].
    + destruct c as [|y c]; cbn [app] in E; [discriminate|]. injection E as -> _.
      apply H. now exists [], c.
    + apply IHc in K; auto. intros F. apply H. apply has_dashes_cons. now right.
Qed.

(** C39: no double hyphen is left. *)
Theorem C39_none_left : forall s, ~ has_dashes (remove_comments s).
Proof.
  intros s. destruct (C39_lines_partial s) as (ls & cs & _ & G & _ & ->). apply flat_no_dashes.
  clear - G. induction G as [|l c ls cs K G IH]; intros d D; [destruct D|].
  destruct D as [<-|D]; [now apply (code_no_dashes l)|now apply IH].
Qed.

(** C39: doing it twice is doing it once. *)
Theorem C39_idempotent : forall s, remove_comments (remove_comments s) = remove_comments s.
Proof.
  intros s. destruct (C39_lines_partial s) as (ls & cs & _ & G & T & E).
  unfold remove_comments at 1. rewrite (splitlines_text _ cs T), E.
  assert (forall c, In c cs -> cut_comment c = c) as H.
  { intros c I. assert (~ has_dashes c) as N.
    { clear - G I. induction G as [|l d ls cs K G IH]; [destruct I|]. destruct I as [<-|I]; [now apply (code_no_dashes l)|auto]. }
    apply (code_unique c); [apply cut_code|]. left. auto. }
  clear - H. induction cs as [|c cs IH]; [reflexivity|]. cbn [flat_map].
  rewrite (H c (or_introl eq_refl)), IH by (intros d D; apply H; now right). reflexivity.
Qed.

(** What follows a comment closed on its line (X.680 12.6.3) goes too, on every
    such line. *)
Theorem C39_rest_lost : forall code note rest : list Z,
  no_break (code ++ note ++ rest) -> ~ has_dashes (code ++ [45]%Z) ->
  remove_comments (code ++ [45; 45]%Z ++ note ++ [45; 45]%Z ++ rest) = code ++ [10]%Z.
Proof.
  intros code note rest N D. set (l := code ++ _).
  assert (text_of l [l]) as T.
  { constructor; [unfold l; destruct code; discriminate|].
    intros c C. unfold l in C. rewrite !in_app_iff in C. cbn [In] in C.
    assert (~ In 45%Z breaks) as B by (vm_compute; intuition discriminate).
    assert (forall d, In d (code ++ note ++ rest) -> ~ In d breaks) as K by exact N.
    destruct C as [C|[[<-|[<-|[]]]|[C|[[<-|[<-|[]]]|C]]]]; try exact B; apply K; rewrite !in_app_iff; auto. }
  unfold remove_comments. rewrite (splitlines_text l [l] T). cbn [flat_map]. rewrite app_nil_r.
  f_equal. apply (code_unique l); [apply cut_code|]. right. exists (note ++ [45; 45]%Z ++ rest).
  split; [reflexivity|exact D].
Qed.

Definition codes (s : string) : list Z :=
  map (fun c => Z.of_N (N_of_ascii c)) (list_ascii_of_string s).

(** C39 is false for a comment closed on its line: the component b of
    [a INTEGER, -- first -- b INTEGER] is lost. *)
Theorem C39_closed_comment_refuted : exists code note rest : list Z,
  no_break (code ++ note ++ rest) /\ ~ has_dashes code /\ ~ has_dashes note /\ ~ has_dashes rest /\
  rest = codes " b INTEGER" /\
  remove_comments (code ++ [45; 45]%Z ++ note ++ [45; 45]%Z ++ rest) = code ++ [10]%Z.
Proof.
  exists (codes "a INTEGER, "), (codes " first "), (codes " b INTEGER").
  assert (forall l, forallb (fun c => negb (Z.eqb c 45)) l = true -> ~ has_dashes l) as H.
  { intros l F (x & y & ->). rewrite forallb_app in F. apply andb_true_iff in F as [_ F]. discriminate. }
  split.
  { assert (forallb (fun c => negb (is_break c)) (codes "a INTEGER, " ++ codes " first " ++ codes " b INTEGER") = true)
      as F by reflexivity.
    intros c C B. rewrite forallb_forall in F. specialize (F c C). apply is_break_in in B.
    now rewrite B in F. }
  split; [apply H; reflexivity|]. split; [apply H; reflexivity|]. split; [apply H; reflexivity|].
  split; reflexivity.
Qed.

(** C39 is false for the other kind of comment (X.680 12.6.4), which stays. *)
Theorem C39_block_comment_refuted : exists code note rest : string,
  remove_comments (codes (code ++ "/*" ++ note ++ "*/" ++ rest)) =
  codes (code ++ "/*" ++ note ++ "*/" ++ rest) ++ [10]%Z.
Proof. exists "a INTEGER, ", " first ", " b INTEGER". reflexivity. Qed.

(** C39 is false for a double hyphen inside a character string, which is cut. *)
Theorem C39_string_refuted : exists before_it inside rest : string,
  remove_comments (codes (before_it ++ """" ++ inside ++ "--" ++ rest ++ """")) =
  codes (before_it ++ """" ++ inside) ++ [10]%Z.
Proof. exists "x IA5String ::= ", "a", "b". reflexivity. Qed.

Example C39_case :
  remove_comments (codes "A ::= INTEGER -- note" ++ [13; 10]%Z ++ codes "B ::= BOOLEAN") =
  codes "A ::= INTEGER " ++ [10]%Z ++ codes "B ::= BOOLEAN" ++ [10]%Z.
Proof. reflexivity. Qed.

(** * C40: component lists *)

(** C40: whatever the three lists are, [componentType] is the root, then the
    additions, then the components of the groups. *)
Theorem C40_component_order : forall root adds groups cur inside ext,
  component_type (Lists root adds groups cur inside ext) = root ++ adds ++ List.concat groups.
Proof.
  assert (forall acc gs, fold_left (fun acc g => acc ++ g) gs acc = acc ++ @List.concat named gs) as H.
  { intros acc gs. revert acc. induction gs as [|g gs IH]; intros acc; cbn [fold_left List.concat].
    - now rewrite app_nil_r.
    - now rewrite IH, app_assoc. }
  intros root adds groups cur inside ext. unfold component_type, add_groups, add_types.
  cbn [l_adds l_groups l_root]. rewrite H. destruct adds, groups; cbn [app List.concat];
    rewrite ?app_nil_r, <- ?app_assoc; reflexivity.
Qed.

(** * C41: extension structure follows the schema *)

(** An extension addition as written: a component, or [[ ... ]]. *)
Inductive addition : Type :=
| One (p : ptype)
| Many (ps : list ptype).

Definition addition_tokens (a : addition) : list (string + ptype) :=
  match a with
  | One p => [inr p]
  | Many ps => inl "[[" :: map inr ps ++ [inl "]]"]
  end.

(** SEQUENCE { root }, { root, ..., additions }, { root, ..., additions, ... } and
    { root, ..., additions, ..., second root }. *)
Inductive body : Type :=
| Fixed (root : list ptype)
| Open (root : list ptype) (adds : list addition)
| Closed (root : list ptype) (adds : list addition) (second : list ptype).

Definition body_tokens (b : body) : list (string + ptype) :=
  match b with
  | Fixed root => map inr root
  | Open root adds => map inr root ++ inl "..." :: flat_map addition_tokens adds
  | Closed root adds second =>
    map inr root ++ inl "..." :: flat_map addition_tokens adds ++ inl "..." :: map inr second
  end.

Definition body_root (b : body) : list ptype :=
  match b with Fixed r => r | Open r _ => r | Closed r _ s => r ++ s end.
Definition body_adds (b : body) : list addition :=
  match b with Fixed _ => [] | Open _ a => a | Closed _ a _ => a end.
Definition added (a : addition) : list ptype := match a with One p => [p] | Many ps => ps end.

(** All components, root first, then the additions as they are written: the order
    of X.691 19.2-19.9 on the wire. *)
Definition body_components (b : body) : list ptype :=
  body_root b ++ flat_map added (body_adds b).

Definition singles (adds : list addition) : list ptype :=
  flat_map (fun a => match a with One p => [p] | Many _ => [] end) adds.
Definition groups (adds : list addition) : list (list ptype) :=
  flat_map (fun a => match a with One _ => [] | Many ps => [ps] end) adds.

Lemma loop_app st a b : lists_loop st (a ++ b) =
  match lists_loop st a with Ok st' => lists_loop st' b | Err e => Err e end.
Proof.
  revert st. induction a as [|m a IH]; intros st; cbn [app lists_loop]; [reflexivity|].
  destruct (lists_step st m); [apply IH|reflexivity].
Qed.

Lemma loop_items ps root adds gs cur i e :
  lists_loop (Lists root adds gs cur i e) (map inr ps) =
  Ok (if i then Lists root adds gs (cur ++ map fill_named ps) i e
      else if e then Lists root (adds ++ map fill_named ps) gs cur i e
      else Lists (root ++ map fill_named ps) adds gs cur i e).
Proof.
  revert root adds cur. induction ps as [|p ps IH]; intros root adds cur; cbn [map lists_loop].
  - rewrite !app_nil_r. destruct i; [|destruct e]; reflexivity.
  - unfold lists_step. cbn [l_root l_adds l_groups l_open l_in l_ext].
    destruct i; [|destruct e]; cbn [negb]; rewrite IH, <- app_assoc; reflexivity.
Qed.

Lemma loop_additions al root adds gs :
  lists_loop (Lists root adds gs [] false true) (flat_map addition_tokens al) =
  Ok (Lists root (adds ++ map fill_named (singles al))
            (gs ++ map (map fill_named) (groups al)) [] false true).
Proof.
  revert adds gs. induction al as [|a al IH]; intros adds gs; cbn [flat_map singles groups].
  - cbn. now rewrite !app_nil_r.
  - rewrite loop_app. destruct a as [p|ps]; cbn [addition_tokens].
    + cbn [lists_loop]. unfold lists_step. cbn [l_root l_adds l_groups l_open l_in l_ext negb].
      rewrite IH. fold (singles al) (groups al). cbn [map app]. rewrite <- app_assoc. reflexivity.
    + cbn [lists_loop]. unfold lists_step at 1.
      cbn [String.eqb Ascii.eqb Bool.eqb l_root l_adds l_groups l_open l_in l_ext].
      rewrite loop_app, loop_items. cbn [lists_loop app]. unfold lists_step at 1.
      cbn [String.eqb Ascii.eqb Bool.eqb l_root l_adds l_groups l_open l_in l_ext].
      rewrite IH. fold (singles al) (groups al). cbn [map app]. rewrite <- app_assoc. reflexivity.
Qed.

(** What the classification makes of each kind of body. *)
Lemma fill_body p b : members p = body_tokens b ->
  fill_lists p =
  Ok (match b with
      | Fixed r => Lists (map fill_named r) [] [] [] false false
      | Open r a => Lists (map fill_named r) (map fill_named (singles a))
                          (map (map fill_named) (groups a)) [] false true
      | Closed r a s => Lists (map fill_named r) (map fill_named (singles a ++ s))
                              (map (map fill_named) (groups a)) [] false true
      end).
Proof.
  intros M. unfold fill_lists. rewrite M. destruct b as [r|r a|r a s]; cbn [body_tokens].
  - rewrite loop_items. reflexivity.
  - rewrite loop_app, loop_items. cbn [lists_loop]. unfold lists_step at 1.
    cbn [String.eqb Ascii.eqb Bool.eqb l_root l_adds l_groups l_open l_in l_ext].
    rewrite loop_additions. reflexivity.
  - rewrite loop_app, loop_items. cbn [lists_loop]. unfold lists_step at 1.
    cbn [String.eqb Ascii.eqb Bool.eqb l_root l_adds l_groups l_open l_in l_ext].
    rewrite loop_app, loop_additions. cbn [lists_loop]. unfold lists_step at 1.
    cbn [String.eqb Ascii.eqb Bool.eqb l_root l_adds l_groups l_open l_in l_ext].
    rewrite loop_items. now rewrite map_app.
Qed.

Lemma singles_groups adds : Permutation (flat_map added adds) (singles adds ++ List.concat (groups adds)).
Proof.
  induction adds as [|a adds IH]; [reflexivity|]. cbn [flat_map singles groups].
  fold (singles adds) (groups adds). destruct a as [p|ps]; cbn [added app List.concat].
  - now apply perm_skip.
  - rewrite IH. apply Permutation_app_swap_app.
Qed.

(** C40, from the schema text on: every component of the SEQUENCE or CHOICE is in
    the component list exactly once. *)
Theorem C40_each_once : forall p b l,
  members p = body_tokens b -> fill_lists p = Ok l ->
  Permutation (component_type l) (map fill_named (body_components b)).
Proof.
  intros p b l M F. rewrite (fill_body p b M) in F. injection F as <-.
  unfold body_components. rewrite map_app.
  destruct b as [r|r a|r a s]; rewrite C40_component_order; cbn [body_root body_adds flat_map map List.concat].
  - reflexivity.
  - apply Permutation_app_head. rewrite singles_groups, map_app, concat_map. reflexivity.
  - rewrite singles_groups, !map_app, concat_map, <- !app_assoc. apply Permutation_app_head.
    apply Permutation_app_swap_app.
Qed.

(** A group cannot be told from a component when the order is that of the text. *)
Definition groups_last (adds : list addition) : Prop :=
  exists os gs, adds = map One os ++ map Many gs.

(** C41, for bodies without a second root and with the groups after the single
    additions: root, additions and groups are those written, in the order
    written. *)
Theorem C41_structure_partial : forall p b l,
  members p = body_tokens b ->
  match b with Closed _ _ s => s = [] | _ => True end -> groups_last (body_adds b) ->
  fill_lists p = Ok l ->
  l_root l = map fill_named (body_root b) /\
  (l_ext l = true <-> match b with Fixed _ => False | _ => True end) /\
  map inl (l_adds l) ++ map inr (l_groups l) =
    map (fun a => match a with One q => inl (fill_named q) | Many qs => inr (map fill_named qs) end)
        (body_adds b) /\
  component_type l = map fill_named (body_components b).
Proof.
  intros p b l M N (os & gs & G) F. rewrite (fill_body p b M) in F. injection F as <-.
  assert (singles (body_adds b) = os /\ groups (body_adds b) = gs) as [S1 S2].
  { rewrite G. unfold singles, groups. rewrite !flat_map_app. clear. split.
    - assert (flat_map (fun a => match a with One p => [p] | Many _ => [] end) (map Many gs) = []) as ->
        by (induction gs; auto).
      rewrite app_nil_r. induction os as [|o os IH]; [reflexivity|]. cbn. now rewrite IH.
    - assert (flat_map (fun a => match a with One _ => [] | Many ps => [ps] end) (map One os) = []) as ->
        by (induction os; auto).
      cbn [app]. induction gs as [|g gs IH]; [reflexivity|]. cbn. now rewrite IH. }
  assert (flat_map added (body_adds b) = os ++ List.concat gs) as S3.
  { rewrite G, flat_map_app. f_equal.
    - clear. induction os as [|o os IH]; [reflexivity|]. cbn. now rewrite IH.
    - clear. induction gs as [|g gs IH]; [reflexivity|]. cbn. now rewrite IH. }
  assert (map inl (map fill_named os) ++ map inr (map (map fill_named) gs) =
          map (fun a => match a with One q => inl (fill_named q) | Many qs => inr (map fill_named qs) end)
              (body_adds b)) as S4.
  { rewrite G, map_app, !map_map. reflexivity. }
  destruct b as [r|r a|r a s]; cbn [body_root body_adds] in *.
  - destruct os; [|discriminate]. destruct gs; [|discriminate]. cbn.
    split; [reflexivity|]. split; [split; [discriminate|tauto]|]. split; [reflexivity|].
    unfold body_components. cbn. now rewrite app_nil_r.
  - rewrite S1, S2. cbn [l_root l_ext l_adds l_groups]. split; [reflexivity|].
    split; [tauto|]. split; [exact S4|].
    rewrite C40_component_order. unfold body_components. cbn [body_root body_adds].
    now rewrite S3, !map_app, concat_map.
  - subst s. rewrite !app_nil_r, S1, S2. cbn [l_root l_ext l_adds l_groups]. split; [reflexivity|].
    split; [tauto|]. split; [exact S4|].
    rewrite C40_component_order. unfold body_components. cbn [body_root body_adds].
    now rewrite app_nil_r, S3, !map_app, concat_map.
Qed.

Definition int_comp (n : string) : ptype := PT KInt "IntegerType" n "" false None None None [].
Definition seq_type (b : body) : ptype := PT KSeq "S" "" "" false None None None (body_tokens b).

(** C41 is false with a second root list: SEQUENCE { a, ..., b, ..., c } gets c as
    an addition, so it moves behind the extension bit map. *)
Theorem C41_second_root_refuted : exists p b l,
  members p = body_tokens b /\ fill_lists p = Ok l /\ groups_last (body_adds b) /\
  l_root l <> map fill_named (body_root b) /\
  In (fill_named (int_comp "c")) (l_adds l) /\ In (int_comp "c") (body_root b).
Proof.
  pose (b := Closed [int_comp "a"] [One (int_comp "b")] [int_comp "c"]).
  exists (seq_type b), b, (Lists [fill_named (int_comp "a")]
    [fill_named (int_comp "b"); fill_named (int_comp "c")] [] [] false true).
  split; [reflexivity|]. split; [vm_compute; reflexivity|].
  split; [exists [int_comp "b"], []; reflexivity|]. split; [vm_compute; discriminate|].
  split; [right; now left|right; now left].
Qed.

(** C41 is false with a group before a single addition:
    SEQUENCE { a, ..., [[ b ]], d } sends d's presence bit before that of [[ b ]]. *)
Theorem C41_group_first_refuted : exists p b l,
  members p = body_tokens b /\ fill_lists p = Ok l /\
  body_adds b = [Many [int_comp "b"]; One (int_comp "d")] /\
  component_type l <> map fill_named (body_components b) /\
  map field_name (component_type l) = ["a"; "d"; "b"].
Proof.
  pose (b := Open [int_comp "a"] [Many [int_comp "b"]; One (int_comp "d")]).
  exists (seq_type b), b, (Lists [fill_named (int_comp "a")]
    [fill_named (int_comp "d")] [[fill_named (int_comp "b")]] [] false true).
  split; [reflexivity|]. split; [vm_compute; reflexivity|].
  split; [reflexivity|]. split; [vm_compute; discriminate|vm_compute; reflexivity].
Qed.

Example C41_case :
  let b := Open [int_comp "a"; PT KDefined "T" "b" "" true None None None []]
                [One (int_comp "c"); Many [int_comp "d"; int_comp "e"]] in
  groups_last (body_adds b) /\
  exists l, fill_lists (seq_type b) = Ok l /\
            map field_name (component_type l) = ["a"; "b"; "c"; "d"; "e"] /\
            map n_optional (component_type l) = [false; true; false; false; false].
Proof.
  split; [exists [int_comp "c"], [[int_comp "d"; int_comp "e"]]; reflexivity|].
  exists (Lists [fill_named (int_comp "a"); Named "b" "T" true None]
    [fill_named (int_comp "c")] [[fill_named (int_comp "d"); fill_named (int_comp "e")]] [] false true).
  split; [vm_compute; reflexivity|]. split; vm_compute; reflexivity.
Qed.

(** * C43: values are defined before they are used *)

(** The constraint of [p] names [v] as an end point. *)
Definition bound_by (p : ptype) (v : string) : Prop :=
  exists lo hi e, constraint p = Some (lo, hi, e) /\ (lo = v \/ hi = v).

(** C43, for values of builtin types ([max INTEGER ::= 4]): written before every
    type, so before every use. *)
Theorem C43_values_partial : forall l out,
  distinct_names l -> sort_assignments l = Ok out ->
  forall v p, In v l -> In p l -> is_simple v = true -> valref v <> "" -> valref p = "" ->
  bound_by p (valref v) -> before v p out.
Proof.
  intros l out D S v p V P K N E _. pose proof (C37_permutation l out D S) as Q.
  apply (Permutation_in _ Q) in P as P'.
  apply sort_ok in S as (F & types & comps & A & ->).
  assert (In v (values_of l)) as V'.
  { apply filter_In. split; [exact V|]. unfold has_value. rewrite K.
    destruct (String.eqb_spec (valref v) ""); [contradiction|reflexivity]. }
  apply in_app_or in P' as [P'|P']; [|now apply before_across].
  exfalso. apply filter_In in P' as [_ P']. unfold has_value in P'. rewrite E in P'.
  rewrite andb_false_r in P'. discriminate.
Qed.

(** C43 is false for a value of a defined type: Small ::= INTEGER (0..9),
    max Small ::= 4, Name ::= OCTET STRING (SIZE (1..max)) is written Small, Name,
    max, so that the module fails on the undefined [max]. *)
Theorem C43_constants_refuted : exists l out v p,
  distinct_names l /\ sort_assignments l = Ok out /\ In v l /\ In p l /\
  valref v <> "" /\ valref p = "" /\ bound_by p (valref v) /\ ~ before v p out.
Proof.
  pose (t := PT KInt "Small" "" "" false None None (Some ("0", "9", false)) []).
  pose (v := PT KDefined "Small" "" "max" false None None None []).
  pose (p := PT KOcts "Name" "" "" false None None (Some ("1", "max", false)) []).
  exists [t; v; p], [t; p; v], v, p.
  split; [unfold distinct_names; cbn; constructor|]. split; [vm_compute; reflexivity|].
  split; [right; now left|]. split; [right; right; now left|].
  split; [discriminate|]. split; [reflexivity|]. split.
  - exists "1", "max", false. split; [reflexivity|now right].
  - apply (not_before _ _ _ 1 2); [distinct|reflexivity|reflexivity|lia].
Qed.

Example C43_case : exists out,
  sort_assignments case_assignments = Ok out /\
  bound_by (nth 3 case_assignments (alias "" "")) (valref (nth 2 case_assignments (alias "" ""))).
Proof.
  eexists. split; [vm_compute; reflexivity|]. exists "1", "max", false. split; [reflexivity|now right].
Qed.

(** * C44: names *)

Definition hyphen : ascii := "-"%char.
Definition underline : ascii := "_"%char.
(** ASN.1 names (X.680 12.2, 12.3) hold letters, digits and hyphens. *)
Definition asn_name (s : string) : Prop := ~ In underline (list_ascii_of_string s).

(** C44: distinct ASN.1 names stay distinct as Python names. *)
Theorem C44_names_distinct : forall s t,
  asn_name s -> asn_name t -> underscore s = underscore t -> s = t.
Proof.
  induction s as [|c s IH]; intros [|d t] A B E; try discriminate; [reflexivity|].
  cbn [underscore] in E. injection E as E1 E2.
  assert (asn_name s /\ asn_name t /\ c <> underline /\ d <> underline) as (A' & B' & C & D').
  { unfold asn_name in *. cbn [list_ascii_of_string In] in *. tauto. }
  f_equal; [|now apply IH].
  destruct (Ascii.eqb_spec c "-"%char) as [->|Nc], (Ascii.eqb_spec d "-"%char) as [->|Nd]; try congruence;
    unfold underline in *; congruence.
Qed.

(** The Python names hold no hyphen (which Python would read as a minus). *)
Theorem C44_no_hyphen : forall s, ~ In hyphen (list_ascii_of_string (underscore s)).
Proof.
  induction s as [|c s IH]; [intros []|]. cbn [underscore list_ascii_of_string In].
  intros [E|I]; [|auto]. destruct (Ascii.eqb_spec c "-"%char) as [->|N]; [discriminate|].
  unfold hyphen in E. contradiction.
Qed.

Example C44_case : asn_name "Rrc-Setup-v2" /\ underscore "Rrc-Setup-v2" = "Rrc_Setup_v2".
Proof. split; [vm_compute; intuition discriminate|reflexivity]. Qed.
