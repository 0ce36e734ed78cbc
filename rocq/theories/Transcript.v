(** Nothing is invented: whatever the text, the words of which the parsed objects
    consist stand in it, in the same order. *)

From Coq Require Import ZArith List String Ascii Bool Arith Lia.
Import ListNotations.
From Verif Require Import PyBase Generator Emit Exec Meaning Grammar Fast Texts Tokens Settled GrammarFaults.

Open Scope string_scope.
Open Scope list_scope.
Open Scope nat_scope.

(** * Words in a text *)

Definition solid (s : string) : bool := all_chars (fun c => negb (is_white c)) s.
Definition letter (c : ascii) : bool := is_upper c || is_lower c.

(** The fixed words of the grammar that begin with a letter.  They are found without
    a look at what follows; names are not. *)
Definition keywords : list string :=
  ["BOOLEAN"; "INTEGER"; "ENUMERATED"; "BIT"; "OCTET"; "STRING"; "SEQUENCE"; "OF"; "SET"; "CHOICE"; "DATE"; "REAL"; "NULL";
   "IA5String"; "NumericString"; "UTF8String"; "VisibleString"; "OPTIONAL"; "DEFAULT"; "TRUE"; "FALSE"; "CONTAINING";
   "PLUS-INFINITY"; "MINUS-INFINITY"; "NOT-A-NUMBER"; "MIN"; "MAX"; "SIZE"; "INTERSECTION"; "UNION"; "EXCEPT"; "ALL";
   "UNIVERSAL"; "APPLICATION"; "PRIVATE"; "IMPLICIT"; "EXPLICIT"; "DEFINITIONS"; "AUTOMATIC"; "TAGS"; "BEGIN"; "END"].
Definition whole (w b : string) : Prop :=
  type_word w || value_word w = true -> ~ In w keywords -> starts is_word b = false.

(** [spans ws s r]: the text [s] ends with [r], and the words [ws] stand in front of
    it, in this order and apart from each other; a hyphen in the text may be an
    underscore in the word. *)
Inductive spans : list string -> string -> string -> Prop :=
| spans_nil a r : spans [] (a ++ r) r
| spans_cons a w w' b ws r : w = w' \/ w = underscore w' -> solid w' = true -> whole w' b -> spans ws b r ->
    spans (w :: ws) (a ++ w' ++ b) r.
Definition found (ws : list string) (s : string) : Prop := exists r, spans ws s r.

(** The words of an object, in the order in which X.680 writes them.  Numbers,
    strings and the end points of constraints are left out, and so is a reference
    with the name of a class of the library. *)
Fixpoint split (q : ascii) (s : string) : list string :=
  match s with
  | EmptyString => [EmptyString]
  | String c r =>
    if Ascii.eqb c q then EmptyString :: split q r
    else match split q r with p :: l => String c p :: l | [] => [String c EmptyString] end
  end.
Definition pieces (s : string) : list string := split " " s.
Definition keep (s : string) : list string := if starts letter s && solid s then [s] else [].
Definition said (s : string) : list string := flat_map keep (pieces s).
Definition kind_words (k : kind) : list string :=
  match k with
  | KInt => ["INTEGER"] | KBool => ["BOOLEAN"] | KOcts => ["OCTET"; "STRING"] | KBits => ["BIT"; "STRING"]
  | KEnum => ["ENUMERATED"] | KSeq | KSeqOf => ["SEQUENCE"] | KChoice => ["CHOICE"]
  | KText | KPlain | KDefined => []
  end.
Definition given : list string := builtin_types ++ ["REAL"; "DATE"].
(** The name in the text of a named item, [{'1': 'name'}]. *)
Definition item_name (s : string) : string :=
  match prefixed "{'" s, rev (split "'" s) with Some _, _ :: n :: _ => n | _, _ => s end.
Definition listed (k : kind) (s : string) : list string :=
  match k with KSeqOf => [] | KEnum => said (item_name s) | _ => said s end.
Fixpoint names (p : ptype) : list string :=
  let 'PT k tr id vr o d v c ms := p in
  said vr ++ said id ++ (if mem tr given then [] else said tr) ++ kind_words k ++
  flat_map (fun m => match m with inl s => listed k s | inr q => names q end) ms ++
  (if o then ["OPTIONAL"] else []) ++
  (match d with Some x => "DEFAULT" :: said x | None => [] end) ++
  (match v with Some x => said x | None => [] end).

(** ** Lemmas *)

Lemma spans_more : forall ws s r x, spans ws s r -> spans ws (x ++ s) r.
Proof.
  intros ws s r x SP. destruct SP as [a r|a w w' b ws r E SO W SP]; rewrite <- app_assoc_s; [constructor|now constructor].
Qed.
Lemma spans_app : forall a s r, spans a s r -> forall b t, spans b r t -> spans (a ++ b) s t.
Proof.
  intros a s r SP. induction SP as [a r|a w w' b ws r E SO W SP IH]; intros l t SP2; [now apply spans_more|]. cbn [app]. constructor; auto.
Qed.
Lemma spans_refl : forall s, spans [] s s.
Proof. intros s. exact (spans_nil "" s). Qed.
Lemma spans_skip : forall ws s r, spans ws (skip s) r -> spans ws s r.
Proof. intros ws s r SP. destruct (skip_split s) as (g & _ & E). rewrite E. now apply spans_more. Qed.

Inductive le : list string -> list string -> Prop :=
| le_nil l : le [] l
| le_skip a b w : le a b -> le a (w :: b)
| le_keep a b w : le a b -> le (w :: a) (w :: b)
| le_under a b w : le a b -> le (underscore w :: a) (w :: b).
Lemma underscore_twice : forall s, underscore (underscore s) = underscore s.
Proof. induction s as [|c s IH]; [reflexivity|]. cbn [underscore]. rewrite IH. f_equal. destruct (Ascii.eqb c "-") eqn:E; [reflexivity|now rewrite E]. Qed.
Lemma spans_le : forall l s r, spans l s r -> forall l', le l' l -> spans l' s r.
Proof.
  intros l s r SP. induction SP as [a r|a w w' b ws r E SO W SP IH]; intros l' L.
  - inversion L; subst. constructor.
  - inversion L as [x|x y z L'|x y z L'|x y z L']; subst.
    + assert (spans [] b r) as SB by (apply IH; constructor). rewrite <- app_assoc_s. now apply spans_more.
    + rewrite <- app_assoc_s. apply spans_more. now apply IH.
    + constructor; auto.
    + constructor; auto. right. destruct E as [->| ->]; [reflexivity|apply underscore_twice].
Qed.
Lemma le_refl : forall l, le l l.
Proof. induction l; now constructor. Qed.
Lemma le_app : forall a b, le a b -> forall c d, le c d -> le (a ++ c) (b ++ d).
Proof.
  intros a b L. induction L as [l|a b w L IH|a b w L IH|a b w L IH]; intros c d L2; cbn [app]; try (constructor; auto; fail).
  induction l as [|x l IHl]; [exact L2|]. cbn [app]. now constructor.
Qed.
Lemma le_trans : forall b c, le b c -> forall a, le a b -> le a c.
Proof.
  intros b c L. induction L as [l|b c w L IH|b c w L IH|b c w L IH]; intros a L2; [inversion L2; constructor|apply le_skip; now apply IH| |];
    (inversion L2 as [|x y z L'|x y z L'|x y z L']; subst; rewrite ?underscore_twice;
     first [apply le_nil|apply le_keep; now apply IH|apply le_under; now apply IH|apply le_skip; now apply IH]).
Qed.
Lemma le_left : forall a b c, le a b -> le a (b ++ c).
Proof. intros a b c L. rewrite <- (app_nil_r a). apply le_app; [exact L|constructor]. Qed.
Lemma le_right : forall a b c, le a c -> le a (b ++ c).
Proof. intros a b c L. change a with ([] ++ a). apply le_app; [constructor|exact L]. Qed.

(** Pieces. *)
Lemma split_not_nil : forall q s, split q s <> [].
Proof. destruct s as [|c s]; cbn [split]; [discriminate|]. destruct (Ascii.eqb c q); [discriminate|]. now destruct (split q s). Qed.
Lemma split_one : forall q s, all_chars (fun c => negb (Ascii.eqb c q)) s = true -> split q s = [s].
Proof.
  induction s as [|c s IH]; intros A; [reflexivity|]. cbn [all_chars split] in *. apply andb_prop in A as [C A]. apply negb_true_iff in C. now rewrite C, (IH A).
Qed.
Lemma split_app : forall q a b, split q (a ++ String q b) = split q a ++ split q b.
Proof.
  induction a as [|c a IH]; intros b; cbn [append split]; [now rewrite Ascii.eqb_refl|]. rewrite IH. destruct (Ascii.eqb c q); [reflexivity|].
  pose proof (split_not_nil q a). now destruct (split q a).
Qed.
Lemma split_inv : forall q s p l, split q s = p :: l -> (l = [] /\ s = p) \/ (exists s', s = (p ++ String q s')%string /\ split q s' = l).
Proof.
  induction s as [|c s IH]; intros p l E; cbn [split] in E; [injection E as <- <-; now left|]. destruct (Ascii.eqb_spec c q) as [->|N].
  - injection E as <- <-. right. now exists s.
  - destruct (split q s) as [|p' l'] eqn:SP; [now destruct (split_not_nil q s)|]. injection E as <- <-. destruct (IH p' l' eq_refl) as [[-> ->]|(s' & -> & E)]; [now left|].
    right. now exists s'.
Qed.
Lemma pieces_underscore : forall s, pieces (underscore s) = map underscore (pieces s).
Proof.
  unfold pieces. induction s as [|c s IH]; [reflexivity|]. cbn [underscore split]. rewrite IH. destruct (Ascii.eqb_spec c "-") as [->|N]; cbn [Ascii.eqb].
  - change (Ascii.eqb "_" " ") with false. change (Ascii.eqb "-" " ") with false. cbn [map]. destruct (split " " s); reflexivity.
  - destruct (Ascii.eqb c " "); cbn [map]; [reflexivity|]. destruct (split " " s); cbn [map underscore]; now rewrite (proj2 (Ascii.eqb_neq _ _) N).
Qed.
Lemma solid_underscore : forall s, solid (underscore s) = solid s.
Proof.
  unfold solid. induction s as [|c s IH]; [reflexivity|]. cbn [underscore all_chars]. rewrite IH. destruct (Ascii.eqb_spec c "-") as [->|N]; reflexivity.
Qed.
Lemma said_underscore : forall s, le (said (underscore s)) (said s).
Proof.
  intros s. unfold said. rewrite pieces_underscore. induction (pieces s) as [|p l IH]; [constructor|]. cbn [map flat_map]. apply le_app; [|exact IH].
  unfold keep. rewrite solid_underscore. destruct p as [|c p]; [constructor|]. cbn [underscore starts]. destruct (Ascii.eqb_spec c "-") as [->|N]; [constructor|].
  destruct (letter c && solid (String c p)); [|constructor]. pose proof (le_under [] [] (String c p) (le_nil _)) as X. cbn [underscore] in X.
  rewrite (proj2 (Ascii.eqb_neq _ _) N) in X. exact X.
Qed.

(** * Tokens *)

Fixpoint words (t : tok) : list string :=
  match t with
  | Str s => said s
  | Obj p => names p
  | Grp l => flat_map words l
  | Con _ => []
  end.
Definition all_words (l : list tok) : list string := flat_map words l.

Definition fresh (p : ptype) : Prop :=
  let 'PT _ _ id vr o d v _ _ := p in id = "" /\ vr = "" /\ o = false /\ d = None /\ v = None.
Definition plain (s : string) : bool := all_chars (fun c => negb (is_white c) && negb (Ascii.eqb c "'")) s.
Definition head_ok (l : list tok) : Prop :=
  match l with Obj p :: _ => fresh p | Str n :: _ => plain n = true | _ => True end.
Fixpoint tidy (t : tok) : Prop :=
  match t with
  | Str s => prefixed "{'" s = None
  | Grp l => head_ok l /\ (fix go l := match l with [] => True | x :: r => tidy x /\ go r end) l
  | _ => True
  end.
Lemma tidy_grp : forall l, tidy (Grp l) <-> head_ok l /\ Forall tidy l.
Proof.
  intros l. cbn [tidy]. split; intros [H1 H2]; split; auto.
  - clear H1. induction l as [|x l IH]; constructor; [apply H2|apply IH, H2].
  - clear H1. induction H2; auto.
Qed.

Lemma all_words_app : forall a b, all_words (a ++ b) = all_words a ++ all_words b.
Proof. intros. apply flat_map_app. Qed.

(** * Actions *)

Lemma said_sign : forall n, le (said (String "-" n)) (said n).
Proof.
  intros n. unfold said, pieces. cbn [split]. change (Ascii.eqb "-" " ") with false. destruct (split " " n) as [|p l]; [constructor|]. cbn [flat_map].
  apply le_app; [constructor|apply le_refl].
Qed.
Lemma names_set_ident : forall n p, fresh p -> names (set_ident n p) = said n ++ names p.
Proof. intros n [k tr id vr o d v c ms] (-> & -> & -> & -> & ->). reflexivity. Qed.
Lemma names_set_optional : forall n p, fresh p -> names (set_optional (set_ident n p)) = said n ++ names p ++ ["OPTIONAL"].
Proof. intros n [k tr id vr o d v c ms] (-> & -> & -> & -> & ->). cbn. rewrite ?app_nil_r, <- ?app_assoc. reflexivity. Qed.
Lemma names_set_default : forall n d p, fresh p -> names (set_default d (set_ident n p)) = said n ++ names p ++ "DEFAULT" :: said d.
Proof. intros n d [k tr id vr o d' v c ms] (-> & -> & -> & -> & ->). cbn. rewrite ?app_nil_r, <- ?app_assoc. reflexivity. Qed.
Lemma names_set_con : forall c p, names (set_con c p) = names p.
Proof. intros c [k tr id vr o d v c' ms]. reflexivity. Qed.
Lemma names_set_value : forall n v p, fresh p -> names (set_value n v p) = said (underscore n) ++ names p ++ said v.
Proof. intros n v [k tr id vr o d v' c ms] (-> & -> & -> & -> & ->). cbn. rewrite ?app_nil_r, <- ?app_assoc. reflexivity. Qed.
Lemma mem_given : forall s, mem s builtin_types = true -> mem s given = true.
Proof. intros s M. unfold given, mem in *. rewrite existsb_app, M. reflexivity. Qed.
Lemma names_set_ref : forall n p, fresh p -> mem (typeref p) builtin_types = true -> le (names (set_ref n p)) (said n ++ names p).
Proof.
  intros n [k tr id vr o d v c ms] (-> & -> & -> & -> & ->) M. cbn [typeref] in M. cbn [set_ref names]. rewrite (mem_given _ M). change (said "") with (@nil string). cbn [app].
  apply le_app; [|apply le_refl]. destruct (mem n given); [constructor|apply le_refl].
Qed.

Lemma first_words : forall t p, tidy t -> first_obj t = Ok p -> fresh p /\ le (names p) (words t).
Proof.
  intros [s|q|[|[s|q|l|c] r]|c] p T E; try discriminate. cbn [first_obj] in E. injection E as ->. apply tidy_grp in T as [T _]. split; [exact T|].
  cbn [words flat_map]. apply le_left, le_refl.
Qed.
Lemma member_words : forall l ms, member_list l = Ok ms ->
  forall k, listed k = said -> le (flat_map (fun m => match m with inl s => listed k s | inr q => names q end) ms) (all_words l).
Proof.
  induction l as [|[s|p|q|c] l IH]; intros ms E k L; cbn [member_list] in E; try discriminate; [injection E as <-; constructor| |];
    (destruct (member_list l) as [ms'|]; cbn [bind] in E; [|discriminate]; injection E as <-; cbn [flat_map all_words words]; apply le_app; [|now apply IH]).
  - rewrite L. apply le_refl.
  - apply le_refl.
Qed.
Lemma item_word : forall n v, plain n = true -> item_name (item_text (ENumber n v)) = n.
Proof.
  intros n v P. unfold item_name. cbn [item_text]. change (prefixed "{'" ("{'" ++ v ++ "': '" ++ n ++ "'}")) with (Some (v ++ "': '" ++ n ++ "'}")%string).
  replace ("{'" ++ v ++ "': '" ++ n ++ "'}")%string with (("{'" ++ v ++ "': ") ++ String "'" (n ++ String "'" "}"))%string
    by (cbn [append]; rewrite !app_assoc_s; reflexivity).
  rewrite split_app, split_app. rewrite (split_one "'" n).
  - rewrite !rev_app_distr. reflexivity.
  - clear - P. unfold plain in P. induction n as [|c n IH]; [reflexivity|]. cbn [all_chars] in *. apply andb_prop in P as [P1 P2]. apply andb_prop in P1 as [_ P1]. now rewrite P1, IH.
Qed.
Lemma enum_words : forall l ms, Forall tidy l -> enum_items l = Ok ms ->
  le (flat_map (fun m => match m with inl s => listed KEnum s | inr q => names q end) ms) (all_words l).
Proof.
  induction l as [|t l IH]; intros ms T E; [injection E as <-; constructor|]. inversion T as [|? ? T1 T2]; subst. destruct t as [s|p|q|c]; cbn [enum_items] in E; try discriminate.
  - destruct (enum_items l) as [ms'|]; cbn [bind] in E; [|discriminate]. injection E as <-. cbn [flat_map all_words words]. apply le_app; [|now apply IH].
    cbn [listed]. unfold item_name. cbn [tidy] in T1. rewrite T1. apply le_refl.
  - destruct q as [|[s|p|q|c] [|[s2|p2|q2|c2] [|x r]]]; try discriminate. destruct (enum_items l) as [ms'|]; cbn [bind] in E; [|discriminate].
    injection E as <-. cbn [flat_map all_words words]. apply le_app; [|now apply IH]. apply tidy_grp in T1 as [T1 _]. cbn [head_ok] in T1. cbn [listed].
    match goal with |- context [item_name ?x] => change x with (item_text (ENumber s s2)) end. rewrite item_word by exact T1. apply le_left, le_refl.
Qed.
Lemma pairs_words : forall n l l', List.length l <= n -> Forall tidy l -> pairs l = Ok l' -> le (all_words l') (all_words l) /\ Forall tidy l'.
Proof.
  induction n as [|n IH]; intros l l' L T E; [destruct l; [injection E as <-; split; constructor|cbn in L; lia]|].
  destruct l as [|[s|p|q|c] [|t r]]; cbn [pairs] in E; try discriminate; try (injection E as <-; split; constructor).
  inversion T as [|? ? T1 T2]; subst. inversion T2 as [|? ? T3 T4]; subst. destruct (first_obj t) as [p|] eqn:F; cbn [bind] in E; [|discriminate].
  destruct (pairs r) as [ps|] eqn:PR; cbn [bind] in E; [|discriminate]. injection E as <-. apply first_words in F as [F1 F2]; [|exact T3].
  apply IH in PR as [P1 P2]; [|cbn [List.length] in L; lia|exact T4]. split; [|constructor; [exact Logic.I|exact P2]]. cbn [all_words flat_map words].
  rewrite names_set_ident by exact F1. rewrite <- app_assoc. apply le_app; [apply le_refl|]. now apply le_app.
Qed.
Lemma drop_words : forall s l, le (all_words (drop_first s l)) (all_words l) /\ (Forall tidy l -> Forall tidy (drop_first s l)).
Proof.
  intros s l. induction l as [|t l [IH1 IH2]]; [split; [constructor|auto]|]. cbn [drop_first]. destruct (is_str s t).
  - split; [apply le_right, le_refl|]. intros T. now inversion T.
  - split; [cbn [all_words flat_map]; apply le_app; [apply le_refl|exact IH1]|]. intros T. inversion T; subst. constructor; auto.
Qed.

(** What the actions that ignore their tokens are given first. *)
Definition kind_lit (a : action) : option string :=
  match a with
  | ToBoolean => Some "BOOLEAN" | ToInteger => Some "INTEGER" | ToEnumerated => Some "ENUMERATED" | ToBits => Some "BIT STRING"
  | ToOctets => Some "OCTET STRING" | ToSequence => Some "SEQUENCE" | ToSequenceOf => Some "SEQUENCE OF" | ToChoice => Some "CHOICE"
  | _ => None
  end.
Definition started (o : option string) (l : list tok) : Prop := match o with Some k => exists l', l = Str k :: l' | None => True end.

Lemma seqof_words : forall t p, seqof_obj t = Ok p -> le (names p) ("SEQUENCE" :: words t).
Proof.
  intros [[|c s]|q|[|[s|q|l|c] r]|c] p E; try discriminate; cbn [seqof_obj] in E; injection E as <-; cbn [set_members new_obj names kind_words flat_map listed];
    change (said "") with (@nil string); change (mem "SequenceOfType" given) with true; cbv iota; rewrite ?app_nil_r; cbn [app]; apply le_keep; try constructor.
  cbn [words flat_map]. apply le_left, le_refl.
Qed.

Lemma ok_inj : forall A (a b : A), Ok a = Ok b -> b = a.
Proof. intros A a b E. now injection E. Qed.

(** The result of an action has no words but those of its tokens. *)
Lemma act_words : forall a l l', Forall tidy l -> started (kind_lit a) l ->
  match a with ToSigned | ToSizedList | ToConstrained | ToModule => False | _ => True end ->
  act_on a l = Ok l' -> le (all_words l') (all_words l) /\ Forall tidy l'.
Proof.
  intros a l l' T ST NA E. destruct a; try contradiction; cbn [act_on kind_lit started] in *; try discriminate;
    try (injection E as <-; split; [apply le_nil|repeat constructor]; fail);
    try (destruct ST as (l0 & ->); injection E as <-; split; [cbn [all_words flat_map words]; apply le_left, le_refl|repeat constructor]; fail).
  - destruct l as [|[s|p|q|c] r]; try discriminate. injection E as <-. split; [|repeat constructor]. cbn [all_words flat_map words]. apply le_app; [|constructor].
    cbn [new_obj names kind_words flat_map]. change (said "") with (@nil string). cbn [app]. rewrite ?app_nil_r. destruct (mem s given); [constructor|apply le_refl].
  - destruct ST as (l0 & ->). cbn [tl] in E. inversion T as [|? ? _ T0]; subst. destruct (enum_items l0) as [ms|] eqn:EI; cbn [bind] in E; [|discriminate].
    injection E as <-. split; [|repeat constructor]. apply enum_words in EI; [|exact T0]. cbn [all_words flat_map words set_members new_obj names kind_words].
    change (said "") with (@nil string). change (mem "EnumeratedType" given) with true. cbv iota. change (said "ENUMERATED") with ["ENUMERATED"]. cbn [app]. apply le_keep.
    rewrite ?app_nil_r. exact EI.
  - destruct l as [|[n|p|q|c] [|t r]]; try discriminate. inversion T as [|? ? T1 T2]; subst. inversion T2 as [|? ? T3 T4]; subst.
    destruct (first_obj t) as [p|] eqn:F; cbn [bind] in E; [|discriminate]. apply first_words in F as [F1 F2]; [|exact T3]. cbv zeta in E.
    assert (forall p', l' = [Obj p'] -> le (names p') (said n ++ words t ++ all_words r) -> le (all_words l') (all_words (Str n :: t :: r)) /\ Forall tidy l') as DONE.
    { intros p' -> L. split; [|repeat constructor]. cbn [all_words flat_map words]. now rewrite app_nil_r. }
    destruct r as [|[m|p2|q2|c2] r]; try discriminate.
    + injection E as <-. eapply DONE; [reflexivity|]. rewrite names_set_ident by exact F1. apply le_app; [apply le_refl|apply le_left, F2].
    + destruct (String.eqb_spec m "OPTIONAL") as [->|N1].
      { injection E as <-. eapply DONE; [reflexivity|]. rewrite names_set_optional by exact F1. apply le_app; [apply le_refl|]. apply le_app; [exact F2|].
        cbn [all_words flat_map words]. change (said "OPTIONAL") with ["OPTIONAL"]. apply le_left, le_refl. }
      destruct (String.eqb_spec m "DEFAULT") as [->|N2].
      { destruct r as [|[d|p2|q2|c2] r]; try discriminate; injection E as <-; (eapply DONE; [reflexivity|]).
        - rewrite names_set_ident by exact F1. apply le_app; [apply le_refl|apply le_left, F2].
        - rewrite names_set_default by exact F1. apply le_app; [apply le_refl|]. apply le_app; [exact F2|]. cbn [all_words flat_map words]. change (said "DEFAULT") with ["DEFAULT"].
          cbn [app]. apply le_keep, le_left, le_refl. }
      injection E as <-. eapply DONE; [reflexivity|]. rewrite names_set_ident by exact F1. apply le_app; [apply le_refl|apply le_left, F2].
  - destruct ST as (l0 & ->). cbn [tl] in E. destruct (member_list l0) as [ms|] eqn:EI; cbn [bind] in E; [|discriminate].
    injection E as <-. split; [|repeat constructor]. apply member_words with (k := KSeq) in EI; [|reflexivity]. cbn [all_words flat_map words set_members new_obj names kind_words].
    change (said "") with (@nil string). change (mem "SequenceType" given) with true. cbv iota. change (said "SEQUENCE") with ["SEQUENCE"]. cbn [app]. apply le_keep.
    rewrite ?app_nil_r. exact EI.
  - destruct ST as (l0 & ->). destruct l0 as [|t r]; [discriminate|]. unfold obj_only in E. destruct (seqof_obj t) as [p|] eqn:SO; cbn [bind] in E; [|discriminate].
    injection E as <-. split; [|repeat constructor]. apply seqof_words in SO. cbn [all_words flat_map words]. change (said "SEQUENCE OF") with ["SEQUENCE"; "OF"].
    rewrite app_nil_r. eapply le_trans; [|exact SO]. cbn [app]. apply le_keep, le_skip, le_left, le_refl.
  - eapply pairs_words; eauto.
  - unfold additions in E. destruct (existsb (is_str "[[") l); [|eapply pairs_words; eauto].
    destruct (pairs _) as [ps|] eqn:PR; cbn [bind] in E; [|discriminate]. injection E as <-. destruct (drop_words "[[" l) as [D1 D2]. destruct (drop_words "]]" (drop_first "[[" l)) as [D3 D4].
    eapply pairs_words in PR as [P1 P2]; [|apply Nat.le_refl|auto]. split.
    + cbn [all_words flat_map words]. change (said "[[") with (@nil string). cbn [app]. rewrite flat_map_app. cbn [flat_map words]. change (said "]]") with (@nil string). cbn [app].
      rewrite app_nil_r. eapply le_trans; [exact D1|]. eapply le_trans; [exact D3|]. exact P1.
    + constructor; [reflexivity|]. apply Forall_app. split; [exact P2|repeat constructor].
  - destruct ST as (l0 & ->). cbn [tl] in E. destruct (member_list l0) as [ms|] eqn:EI; cbn [bind] in E; [|discriminate].
    injection E as <-. split; [|repeat constructor]. apply member_words with (k := KChoice) in EI; [|reflexivity]. cbn [all_words flat_map words set_members new_obj names kind_words].
    change (said "") with (@nil string). change (mem "ChoiceType" given) with true. cbv iota. change (said "CHOICE") with ["CHOICE"]. cbn [app]. apply le_keep.
    rewrite ?app_nil_r. exact EI.
  - destruct l as [|[n|p|q|c] [|x [|t r]]]; try discriminate. inversion T as [|? ? T1 T2]; subst. inversion T2 as [|? ? T3 T4]; subst. inversion T4 as [|? ? T5 T6]; subst.
    destruct (first_obj t) as [p|] eqn:F; cbn [bind] in E; [|discriminate]. apply first_words in F as [F1 F2]; [|exact T5]. apply ok_inj in E. subst l'. split; [|repeat constructor].
    cbn [all_words flat_map words]. rewrite app_nil_r.
    assert (le (said n ++ names p) (said n ++ words x ++ words t ++ flat_map words r)) as L by (apply le_app; [apply le_refl|apply le_right, le_left, F2]).
    destruct (mem (typeref p) builtin_types) eqn:M; [eapply le_trans; [exact L|now apply names_set_ref]|]. rewrite names_set_ident by exact F1. exact L.
  - destruct l as [|[n|p|q|c] [|t r]]; try discriminate. inversion T as [|? ? T1 T2]; subst. inversion T2 as [|? ? T3 T4]; subst.
    destruct (first_obj t) as [p|] eqn:F; cbn [bind] in E; [|discriminate]. destruct (last (Str n :: t :: r) t) as [v| | |] eqn:LA; try discriminate. injection E as <-.
    assert (exists r', r = r' ++ [Str v]) as (r' & ->).
    { destruct (exists_last (l := Str n :: t :: r)) as (r0 & x & EX); [discriminate|]. rewrite EX, last_last in LA. subst x. destruct r0 as [|y0 [|y1 r0]].
      - discriminate.
      - cbn [app] in EX. injection EX as _ -> _. discriminate.
      - cbn [app] in EX. injection EX as _ _ ->. now exists r0. }
    apply first_words in F as [F1 F2]; [|exact T3]. split; [|repeat constructor]. cbn [all_words flat_map words]. rewrite app_nil_r, names_set_value by exact F1.
    apply le_app; [apply said_underscore|]. apply le_app; [exact F2|]. rewrite flat_map_app. apply le_right. cbn [flat_map words]. apply le_left, le_refl.
Qed.

(** * Terminals *)

Lemma span_inv : forall f s a b, span f s = (a, b) -> s = (a ++ b)%string /\ all_chars f a = true /\ starts f b = false.
Proof.
  intros f. induction s as [|c s IH]; intros a b E; cbn [span] in E; [injection E as <- <-; auto|]. destruct (f c) eqn:C.
  - destruct (span f s) as [a' b'] eqn:SP. injection E as <- <-. destruct (IH a' b' eq_refl) as (-> & A & ST). repeat split; [cbn [all_chars]; now rewrite C, A|exact ST].
  - injection E as <- <-. now repeat split.
Qed.
Lemma word_inv : forall f g s m r, word f g s = Some (m, r) -> exists c a, m = String c a /\ f c = true /\ all_chars g a = true /\ s = (m ++ r)%string /\ starts g r = false.
Proof.
  intros f g [|c s] m r E; cbn [word] in E; [discriminate|]. destruct (f c) eqn:C; [|discriminate]. destruct (span g s) as [a b] eqn:SP. injection E as <- <-.
  apply span_inv in SP as (-> & A & ST). exists c, a. repeat split; auto.
Qed.
Lemma quoted_inv : forall q f close s m r, quoted q f close s = Some (m, r) -> exists a, m = String q (a ++ String q close) /\ s = (m ++ r)%string.
Proof.
  intros q f close [|c s] m r E; cbn [quoted] in E; [discriminate|]. destruct (Ascii.eqb_spec c q) as [->|]; [|discriminate]. destruct (span f s) as [a b] eqn:SP.
  destruct (prefixed (String q close) b) as [r'|] eqn:P; [|discriminate]. injection E as <- <-. apply span_inv in SP as (-> & _ & _). apply prefixed_inv in P as ->.
  exists a. split; [reflexivity|]. cbn [append]. now rewrite app_assoc_s.
Qed.

(** Without blanks a text is one piece. *)
Lemma all_chars_imp : forall (f g : ascii -> bool) s, (forall c, f c = true -> g c = true) -> all_chars f s = true -> all_chars g s = true.
Proof. intros f g s FG. induction s as [|c s IH]; [auto|]. cbn [all_chars]. intros E. apply andb_prop in E as [E1 E2]. now rewrite (FG _ E1), IH. Qed.
Lemma word_plain : forall c, is_word c = true -> negb (is_white c) && negb (Ascii.eqb c "'") = true.
Proof. intros [[] [] [] [] [] [] [] []]; vm_compute; congruence. Qed.
Lemma nest_plain : forall c, in_nest c = true -> negb (is_white c) && negb (Ascii.eqb c "'") = true.
Proof. intros [[] [] [] [] [] [] [] []]; vm_compute; congruence. Qed.
Lemma word_nest : forall c, is_word c = true -> in_nest c = true.
Proof. intros [[] [] [] [] [] [] [] []]; vm_compute; congruence. Qed.
Lemma plain_one : forall s, plain s = true -> pieces s = [s].
Proof.
  intros s P. apply split_one. revert P. apply all_chars_imp. intros c E. apply andb_prop in E as [E _]. destruct (Ascii.eqb_spec c " ") as [->|]; [discriminate|reflexivity].
Qed.
Lemma plain_solid : forall s, plain s = true -> solid s = true.
Proof. intros s. apply all_chars_imp. intros c E. now apply andb_prop in E as [E _]. Qed.
Lemma said_plain : forall s, plain s = true -> said s = if starts letter s then [s] else [].
Proof. intros s P. unfold said. rewrite plain_one by exact P. cbn [flat_map]. unfold keep. rewrite (plain_solid _ P), andb_true_r, app_nil_r. reflexivity. Qed.

Lemma spans_one : forall w b, solid w = true -> whole w b -> spans [w] (w ++ b) b.
Proof. intros w b SO W. apply (spans_cons "" w w b [] b); auto. apply spans_refl. Qed.
Lemma spans_none : forall w b, spans [] (w ++ b) b.
Proof. intros. constructor. Qed.
Lemma spans_plain : forall w b, plain w = true -> whole w b -> spans (said w) (w ++ b) b.
Proof.
  intros w b P W. rewrite said_plain by exact P. destruct (starts letter w); [|apply spans_none]. apply spans_one; [now apply plain_solid|exact W].
Qed.
(** Any text: a piece is followed by a blank, but for the last. *)
Lemma spans_pieces : forall n m b, List.length (pieces m) <= n -> (forall w, In w (pieces m) -> keep w <> [] -> w = last (pieces m) "" -> whole w b) -> spans (said m) (m ++ b) b.
Proof.
  induction n as [|n IH]; intros m b L W; unfold pieces in *; [pose proof (split_not_nil " " m); destruct (split " " m); [contradiction|cbn in L; lia]|].
  unfold said. unfold pieces. destruct (split " " m) as [|p l] eqn:SP; [now destruct (split_not_nil " " m)|]. destruct (split_inv _ _ _ _ SP) as [[-> ->]|(m' & -> & E)].
  - cbn [flat_map]. rewrite app_nil_r. destruct (keep p) as [|x k] eqn:KE; [apply spans_none|]. assert (x :: k = [p] /\ solid p = true) as [-> SO].
    { unfold keep in KE. destruct (starts letter p); [|discriminate]. destruct (solid p) eqn:SO; [|discriminate]. now injection KE as <- <-. }
    apply spans_one; [exact SO|]. apply W; [now left|congruence|reflexivity].
  - assert (spans (said m') (m' ++ b) b) as SM.
    { apply IH; unfold pieces; rewrite E; [cbn [List.length] in L; lia|]. intros w IN KE LA. apply W; [now right|exact KE|]. rewrite LA. destruct l as [|y l]; [contradiction|reflexivity]. }
    cbn [flat_map]. unfold said, pieces in SM. rewrite E in SM. rewrite app_assoc_s. cbn [append].
    assert (spans (flat_map keep l) (String " " (m' ++ b)) b) as SM2 by exact (spans_more _ _ _ " " SM).
    destruct (keep p) as [|x k] eqn:KE; [now apply spans_more|]. assert (x :: k = [p] /\ solid p = true) as [-> SO].
    { unfold keep in KE. destruct (starts letter p); [|discriminate]. destruct (solid p) eqn:SO; [|discriminate]. now injection KE as <- <-. }
    cbn [app]. apply (spans_cons "" p p); auto. intros _ _. reflexivity.
Qed.

Lemma last_tail : forall x y, all_chars (fun c => negb (Ascii.eqb c " ")) y = true -> exists z, last (pieces (x ++ y)) "" = (z ++ y)%string.
Proof.
  unfold pieces. intros x y N. induction x as [|c x (z & IH)]; [exists ""; cbn [append]; now rewrite split_one|]. cbn [append split].
  pose proof (split_not_nil " " (x ++ y)) as NN. destruct (split " " (x ++ y)) as [|p l]; [contradiction|]. destruct (Ascii.eqb c " ").
  - exists z. exact IH.
  - destruct l as [|p' l]; [|exists z; exact IH]. exists (String c z). cbn [last append] in *. now rewrite IH.
Qed.
Lemma name_chars : forall w, type_word w || value_word w = true -> all_chars is_word w = true.
Proof.
  intros [|c w] E; [discriminate|]. cbn [type_word value_word all_chars] in *. apply orb_prop in E as [E|E]; apply andb_prop in E as [E1 E2]; unfold is_word at 1; rewrite E1, ?orb_true_r; exact E2.
Qed.
Lemma spans_quoted : forall a q close b, is_word q = false -> all_chars (fun c => negb (Ascii.eqb c " ")) (String q close) = true ->
  let m := String q (a ++ String q close) in spans (said m) (m ++ b) b.
Proof.
  intros a q close b Q N m. apply (spans_pieces (List.length (pieces m))); [lia|]. intros w IN KE LA. destruct (last_tail (String q a) (String q close) N) as (z & E).
  assert (w = (z ++ String q close)%string) as -> by (rewrite LA; exact E). intros NC _. exfalso. apply name_chars in NC. clear - NC Q.
  induction z as [|c z IH]; cbn [append all_chars] in NC; apply andb_prop in NC as [N1 N2]; [congruence|auto].
Qed.

(** The literals of the grammar. *)
Definition lit_ok (k : string) : bool :=
  forallb (fun w => mem w keywords) (said k) && match prefixed "{'" k with None => true | Some _ => false end.
Definition term_ok (t : terminal) : bool := match t with ULit k => lit_ok k | UEncoding => false | _ => true end.
Lemma lit_spans : forall k b, lit_ok k = true -> spans (said k) (k ++ b) b.
Proof.
  intros k b OK. apply (spans_pieces (List.length (pieces k))); [lia|]. intros w IN KE _ _ NI. exfalso. apply NI. unfold lit_ok in OK. apply andb_prop in OK as [OK _].
  rewrite forallb_forall in OK. assert (In w (said k)) as IS.
  { unfold said. apply in_flat_map. exists w. split; [exact IN|]. unfold keep in *. destruct (starts letter w && solid w); [now left|contradiction]. }
  apply OK in IS. unfold mem in IS. apply existsb_exists in IS as (x & IX & EX). apply String.eqb_eq in EX as ->. exact IX.
Qed.
Lemma digit_plain : forall c, is_digit c = true -> negb (is_white c) && negb (Ascii.eqb c "'") = true.
Proof. intros c D'. apply word_plain. unfold is_word. rewrite D'. now rewrite orb_true_r. Qed.
Lemma brace_upper : forall c, is_word c = true -> Ascii.eqb "{" c = false.
Proof. intros [[] [] [] [] [] [] [] []]; vm_compute; congruence. Qed.
Lemma no_brace : forall c s, is_word c = true -> prefixed "{'" (String c s) = None.
Proof. intros c s W. cbn [prefixed]. now rewrite (brace_upper _ W). Qed.
Lemma digit_letter : forall c, is_digit c = true -> letter c = false.
Proof. intros [[] [] [] [] [] [] [] []]; vm_compute; congruence. Qed.
Lemma upper_word : forall c, is_upper c = true -> is_word c = true.
Proof. intros c U. unfold is_word. now rewrite U. Qed.
Lemma lower_word : forall c, is_lower c = true -> is_word c = true.
Proof. intros c U. unfold is_word. now rewrite U, orb_true_r. Qed.
Lemma digit_word : forall c, is_digit c = true -> is_word c = true.
Proof. intros c U. unfold is_word. now rewrite U, !orb_true_r. Qed.
Lemma words_plain : forall s, all_chars is_word s = true -> plain s = true.
Proof. intros s. apply all_chars_imp, word_plain. Qed.

Lemma name_spans : forall f s m r, (forall c, f c = true -> is_word c = true) -> word f is_word s = Some (m, r) ->
  spans (said m) s r /\ prefixed "{'" m = None /\ plain m = true.
Proof.
  intros f s m r FW E. apply word_inv in E as (c & a & -> & C & A & -> & ST). assert (plain (String c a) = true) as P by (apply words_plain; cbn [all_chars]; now rewrite (FW _ C), A).
  split; [apply spans_plain; [exact P|intros _ _; exact ST]|]. split; [apply no_brace; auto|exact P].
Qed.
Lemma number_inv : forall s m r, word is_digit is_digit s = Some (m, r) -> exists c a, m = String c a /\ is_digit c = true /\ all_chars is_digit a = true /\ s = (m ++ r)%string.
Proof. intros s m r E. apply word_inv in E as (c & a & -> & C & A & -> & ST). exists c, a. auto. Qed.
Lemma number_spans : forall c a r, is_digit c = true -> plain (String c a) = true -> spans (said (String c a)) (String c a ++ r) r.
Proof. intros c a r C P. rewrite said_plain by exact P. cbn [starts]. rewrite (digit_letter _ C). apply spans_none. Qed.
Lemma all_chars_app : forall f a b, all_chars f (a ++ b) = all_chars f a && all_chars f b.
Proof. intros f a b. induction a as [|c a IH]; [reflexivity|]. cbn [append all_chars]. now rewrite IH, andb_assoc. Qed.

Lemma term_spans : forall t s m r, term_ok t = true -> term t s = Some (m, r) -> spans (said m) s r /\ prefixed "{'" m = None.
Proof.
  intros [k| | | | | | | |] s m r OK E; cbn [term term_ok] in *; try discriminate.
  - destruct (prefixed k s) as [x|] eqn:P; [|discriminate]. injection E as <- <-. apply prefixed_inv in P as ->. split; [now apply lit_spans|].
    unfold lit_ok in OK. apply andb_prop in OK as [_ OK]. now destruct (prefixed "{'" k).
  - apply name_spans in E; [tauto|apply upper_word].
  - apply name_spans in E; [tauto|apply lower_word].
  - apply number_inv in E as (c & a & -> & C & A & ->). split; [|apply no_brace, digit_word, C]. apply number_spans; [exact C|].
    apply (all_chars_imp is_digit); [apply digit_plain|]. cbn [all_chars]. now rewrite C, A.
  - unfold real in E. destruct (word is_digit is_digit s) as [[a [|c x]]|] eqn:W; try discriminate. destruct (Ascii.eqb_spec c ".") as [->|]; [|discriminate].
    destruct (word is_digit is_digit x) as [[b y]|] eqn:W2; [|discriminate]. injection E as <- <-. apply number_inv in W as (c & a' & -> & C & A & ->).
    apply number_inv in W2 as (c2 & b' & -> & C2 & B' & ->). split; [|cbn [append]; apply no_brace, digit_word, C].
    replace (String c a' ++ String "." (String c2 b' ++ y))%string with (String c (a' ++ String "." (String c2 b')) ++ y)%string by (cbn [append]; now rewrite app_assoc_s).
    apply number_spans; [exact C|]. unfold plain. cbn [all_chars]. rewrite (digit_plain _ C), all_chars_app, (all_chars_imp _ _ _ digit_plain A). cbn [all_chars].
    rewrite (digit_plain _ C2), (all_chars_imp _ _ _ digit_plain B'). reflexivity.
  - apply quoted_inv in E as (a & -> & ->). split; [|reflexivity]. now apply (spans_quoted a "'" "B").
  - apply quoted_inv in E as (a & -> & ->). split; [|reflexivity]. now apply (spans_quoted a "'" "H").
  - apply quoted_inv in E as (a & -> & ->). split; [|reflexivity]. now apply (spans_quoted a """" "").
Qed.

(** * Running *)

Section Or.
Variable f : bool -> pexp -> string -> outcome (list tok).
Lemma longest_true : forall (l0 : list pexp) l s best r a, (forall n e, In (n, e) l -> In e l0) ->
  (forall x y, best = Some (x, y) -> exists e, In e l0 /\ f true e s = Match x y) ->
  longest f l s best = Match r a -> exists e, In e l0 /\ f true e s = Match r a.
Proof.
  intros l0 l. induction l as [|[n e] l IH]; intros s best r a IN BS E; cbn [longest] in E.
  - destruct best as [[x y]|]; [|discriminate]. injection E as <- <-. auto.
  - destruct (match best with Some (b0, _) => len b0 <=? n | None => false end).
    { destruct best as [[x y]|]; [|discriminate]. injection E as <- <-. auto. }
    destruct (f true e s) as [s1 q| |] eqn:X; [| |discriminate].
    + assert (exists e', In e' l0 /\ f true e' s = Match s1 q) as HE by (exists e; split; [apply (IN n); now left|exact X]).
      destruct (len s1 <=? n); [injection E as <- <-; exact HE|]. revert E. apply IH; [intros n' e' I'; apply (IN n'); now right|].
      intros x y BE. destruct best as [[b0 y0]|]; [destruct (len s1 <? len b0)|]; injection BE as <- <-; auto.
    + revert E. apply IH; auto. intros n' e' I'. apply (IN n'). now right.
Qed.
Lemma or_true : forall l s r a, run_or f true l s = Match r a -> exists e, In e l /\ f true e s = Match r a.
Proof.
  intros l s r a E. unfold run_or in E. destruct (tries f l s) as [m|] eqn:T; [|discriminate].
  assert (forall n e, In (n, e) (sort_matches m) -> In e l) as IN by (intros n e I'; eapply tries_in; [exact T|]; apply sort_in; exact I').
  destruct (sort_matches m) as [|[n e] k]; [discriminate|]. revert E. apply longest_true; [exact IN|discriminate].
Qed.
End Or.

Lemma run_term : forall n t s r a, run n true (PTerm t) s = Match r a -> exists m, term t (skip s) = Some (m, r) /\ a = [Str m].
Proof.
  intros [|n] t s r a E; cbn [run step] in E; [discriminate|]. destruct (term t (skip s)) as [[m x]|]; [|discriminate]. injection E as <- <-. eauto.
Qed.

(** ** The literal an expression begins with *)
Fixpoint lead (e : pexp) : option string :=
  match e with
  | PTerm (ULit k) => Some k
  | PAnd l => match l with x :: _ => lead x | [] => None end
  | POr l => match l with
             | x :: r => match lead x with
                         | Some k => if forallb (fun y => match lead y with Some k' => String.eqb k' k | None => false end) r then Some k else None
                         | None => None
                         end
             | [] => None
             end
  | _ => None
  end.
Lemma lead_first : forall n e k s r a, lead e = Some k -> run n true e s = Match r a -> exists a', a = Str k :: a'.
Proof.
  induction n as [|n IH]; intros e k s r a L E; [discriminate|]. destruct e as [t| | |l|l| | | | | | |]; try discriminate.
  - destruct t as [k'| | | | | | | |]; try discriminate. injection L as ->. apply run_term in E as (m & E & ->). cbn [term] in E. destruct (prefixed k (skip s)); [|discriminate].
    injection E as <- <-. eauto.
  - destruct l as [|x l]; [discriminate|]. cbn [lead] in L. cbn [run step run_and] in E. destruct (run n true x (skip s)) as [s1 b| |] eqn:X; try discriminate.
    destruct (run_and (run n) true l s1) as [s2 b2| |]; try discriminate. injection E as <- <-. destruct (IH _ _ _ _ _ L X) as (a' & ->). cbn [app]. eauto.
  - cbn [run step] in E. apply or_true in E as (e & IN & E). apply (IH e k _ _ _) in E; [exact E|]. destruct l as [|x l]; [contradiction|]. cbn [lead] in L.
    destruct (lead x) as [k0|] eqn:LX; [|discriminate]. destruct (forallb _ l) eqn:F; [|discriminate]. injection L as ->. destruct IN as [<-|IN]; [exact LX|].
    rewrite forallb_forall in F. specialize (F e IN). destruct (lead e) as [k'|]; [|discriminate]. apply String.eqb_eq in F as ->. reflexivity.
Qed.
(** ** One token, or two of which the first is a hyphen *)
Fixpoint dash (e : pexp) : bool :=
  match e with
  | PTerm _ => true
  | PAnd l => match l with x :: _ => match lead x with Some k => String.eqb k "-" | None => false end | [] => false end
  | POr l => forallb dash l
  | _ => false
  end.
Lemma dash_first : forall n e s r a, dash e = true -> run n true e s = Match r a -> (exists m, a = [Str m]) \/ (exists a', a = Str "-" :: a').
Proof.
  induction n as [|n IH]; intros e s r a L E; [discriminate|]. destruct e as [t| | |l|l| | | | | | |]; try discriminate.
  - apply run_term in E as (m & E & ->). left. eauto.
  - right. apply (lead_first (S n) (PAnd l) "-" s r a); [|exact E]. destruct l as [|x l]; [discriminate|]. cbn [dash lead] in *. destruct (lead x) as [k|]; [|discriminate].
    now apply String.eqb_eq in L as ->.
  - cbn [run step] in E. apply or_true in E as (e & IN & E). cbn [dash] in L. rewrite forallb_forall in L. eauto.
Qed.

(** ** Expressions whose first token is a new object *)
Definition creates (a : action) : bool :=
  match a with
  | ToDefined | ToReal | ToBoolean | ToInteger | ToEnumerated | ToBits | ToOctets | ToSequence | ToSequenceOf | ToChoice
  | ToDate | ToIA5 | ToNumeric | ToUTF8 | ToVisible | ToSizedList => true
  | _ => false
  end.
Fixpoint new (e : pexp) : bool :=
  match e with
  | PTerm t => match t with ULit k => plain k | UType | UIdent => true | _ => false end
  | PAnd l => match l with x :: _ => new x | [] => false end
  | POr l => forallb new l
  | PAct ToConstrained e => new e
  | PAct a _ => creates a
  | _ => false
  end.
Lemma seqof_new : forall t p, seqof_obj t = Ok p -> fresh p.
Proof. intros [[|c s]|q|[|[s|q|l|c] r]|c] p E; try discriminate; injection E as <-; repeat split. Qed.
Lemma act_new : forall a l l', creates a = true -> act_on a l = Ok l' -> exists p l'', l' = Obj p :: l'' /\ fresh p.
Proof.
  intros a l l' C E. destruct a; try discriminate; cbn [act_on] in E; try (injection E as <-; eexists; eexists; split; [reflexivity|repeat split]; fail).
  - destruct l as [|[s|p|q|c] r]; try discriminate. injection E as <-. eexists; eexists; split; [reflexivity|repeat split].
  - destruct (enum_items (tl l)) as [ms|]; [|discriminate]. injection E as <-. eexists; eexists; split; [reflexivity|repeat split].
  - destruct (member_list (tl l)) as [ms|]; [|discriminate]. injection E as <-. eexists; eexists; split; [reflexivity|repeat split].
  - destruct l as [|x [|t r]]; try discriminate. unfold obj_only in E. destruct (seqof_obj t) as [p|] eqn:SO; [|discriminate]. injection E as <-.
    exists p, []. split; [reflexivity|]. eapply seqof_new, SO.
  - destruct (member_list (tl l)) as [ms|]; [|discriminate]. injection E as <-. eexists; eexists; split; [reflexivity|repeat split].
  - destruct l as [|[s|p|q|c] [|c' [|x [|t r]]]]; try discriminate. destruct (s =? "SEQUENCE")%string; [|discriminate]. destruct (seqof_obj t) as [p|] eqn:SO; [|discriminate].
    injection E as <-. exists p, [c']. split; [reflexivity|]. eapply seqof_new, SO.
Qed.
Lemma new_first : forall n e s r a, new e = true -> run n true e s = Match r a -> a <> [] /\ head_ok a.
Proof.
  induction n as [|n IH]; intros e s r a L E; [discriminate|]. destruct e as [t| | |l|l| | | | |ac e| |]; try discriminate.
  - apply run_term in E as (m & E & ->). split; [discriminate|]. cbn [head_ok]. cbn [new] in L. destruct t as [k| | | | | | | |]; try discriminate; cbn [term] in E.
    + destruct (prefixed k (skip s)); [|discriminate]. now injection E as <- <-.
    + apply name_spans in E; [tauto|apply upper_word].
    + apply name_spans in E; [tauto|apply lower_word].
  - destruct l as [|x l]; [discriminate|]. cbn [new] in L. cbn [run step run_and] in E. destruct (run n true x (skip s)) as [s1 b| |] eqn:X; try discriminate.
    destruct (run_and (run n) true l s1) as [s2 b2| |]; try discriminate. injection E as <- <-. destruct (IH _ _ _ _ L X) as [N H1]. destruct b as [|t b]; [contradiction|].
    split; [discriminate|exact H1].
  - cbn [run step] in E. apply or_true in E as (e & IN & E). cbn [new] in L. rewrite forallb_forall in L. eauto.
  - assert (ac = ToConstrained /\ new e = true \/ creates ac = true) as [[-> NE]|C] by (destruct ac; auto; discriminate).
    + cbn [run step] in E. destruct (run n true e (skip s)) as [s1 b| |] eqn:X; try discriminate. destruct (IH _ _ _ _ NE X) as [N H1].
      cbn [act_on] in E. destruct b as [|[s2|p|q|c] [|[s3|p2|q2|c2] b]]; try discriminate. injection E as <- <-. split; [discriminate|]. cbn [head_ok] in *. now destruct p.
    + assert (exists b, act_on ac b = Ok a) as (b & E').
      { destruct ac; try discriminate; cbn [run step] in E; (destruct (run n true e (skip s)) as [s1 b| |]; try discriminate; exists b;
          match type of E with context [act_on ?x b] => destruct (act_on x b) as [l'|]; [|discriminate] end; now injection E as <- <-). }
      apply act_new in E' as (p & l'' & -> & F); [|exact C]. split; [discriminate|exact F].
Qed.

(** ** Constraints *)
Definition leaf (t : tok) : Prop := match t with Str w => plain w = true | Con _ => True | _ => False end.
Lemma leaf_tidy : forall t, leaf t -> tidy t.
Proof.
  intros [s|p|q|c] L; try exact Logic.I; [|contradiction]. cbn [leaf tidy] in *. destruct (prefixed "{'" s) as [r|] eqn:P; [|reflexivity]. apply prefixed_inv in P as ->. discriminate.
Qed.
Lemma leaves_head : forall l, Forall leaf l -> head_ok l.
Proof. intros [|t l] L; [exact Logic.I|]. inversion L as [|? ? L1 L2]; subst. destruct t; cbn [leaf head_ok] in *; auto. contradiction. Qed.
Lemma constraint_words : forall p g x t, Forall leaf g -> constraint_of p g = Match x t -> leaf t /\ le (words t) (all_words g).
Proof.
  intros p [|t g] x t' L E; cbn [constraint_of] in E; [discriminate|]. inversion L as [|? ? L1 L2]; subst. destruct (is_str "SIZE" t).
  - destruct g as [|y g]; [discriminate|]. injection E as <- <-. inversion L2; subst. split; [assumption|]. cbn [all_words flat_map]. apply le_right, le_left, le_refl.
  - destruct (join_words (t :: g)); [|discriminate]. destruct (p _) as [y ts| |]; try discriminate. destruct (all_str ts) as [ws|]; [|discriminate].
    destruct (remove_word "..." ws); [discriminate|]. injection E as <- <-. split; [exact Logic.I|constructor].
Qed.
Lemma starts_nest : forall b, starts in_nest b = false -> starts is_word b = false.
Proof. intros [|c b] E; [reflexivity|]. cbn [starts] in *. destruct (is_word c) eqn:W; [|reflexivity]. apply word_nest in W. congruence. Qed.
Lemma nested_words : forall p n s r g, nested p n true s = Match r g -> spans (all_words g) s r /\ Forall leaf g.
Proof.
  intros p. induction n as [|n IH]; intros s r g E; cbn [nested] in E; [discriminate|].
  cut (spans (all_words g) (skip s) r /\ Forall leaf g). { intros [SP L]. split; [now apply spans_skip|exact L]. }
  destruct (skip s) as [|c t]; [discriminate|]. destruct (Ascii.eqb c ")"%char); [injection E as <- <-; split; [exact (spans_none (String c "") t)|constructor]|].
  destruct (Ascii.eqb c "("%char).
  - destruct (nested p n true t) as [r1 q| |] eqn:X; try discriminate. apply IH in X as [X1 X2].
    destruct (constraint_of p q) as [z u| |] eqn:CO; try discriminate. destruct (nested p n true r1) as [r2 q2| |] eqn:Y; try discriminate. injection E as <- <-. apply IH in Y as [Y1 Y2].
    apply constraint_words in CO as [C1 C2]; [|exact X2]. split; [|now constructor]. cbn [all_words flat_map]. apply (spans_more _ _ _ (String c "")).
    eapply spans_app; [|exact Y1]. eapply spans_le; eauto.
  - destruct (is_quote c); [discriminate|]. destruct (span in_nest (String c t)) as [w r1] eqn:SP. apply span_inv in SP as (-> & A & ST).
    destruct (nested p n true r1) as [r2 q2| |] eqn:Y; try discriminate. injection E as <- <-. apply IH in Y as [Y1 Y2].
    assert (plain w = true) as P by (revert A; apply all_chars_imp, nest_plain). split; [|now constructor]. cbn [all_words flat_map words].
    eapply spans_app; [|exact Y1]. apply spans_plain; [exact P|]. intros _ _. now apply starts_nest.
Qed.

(** ** The invariant *)
Definition colon (l : list pexp) : bool := match l with PTerm (ULit k) :: _ => String.eqb k ":" | _ => false end.
Fixpoint sane (full : bool) (e : pexp) : bool :=
  match e with
  | PTerm t => term_ok t
  | PEmpty | PNest | PRule _ => true
  | PSup e | PMany e | PMore e | POpt e => sane true e
  | PAnd l => (fix go l := match l with
                           | [] => true
                           | x :: r => match x with PTerm UEncoding => colon r | _ => sane true x end && go r
                           end) l
  | POr l => forallb (sane full) l
  | PGroup e => sane true e && new e
  | PAct a e =>
    match a with
    | ToSigned => sane true e && dash e
    | ToSizedList => negb full && sane true e
    | ToConstrained => sane false e
    | ToConstraint => match e with PNest => true | _ => false end
    | ToModule => false
    | _ => sane true e && match kind_lit a with
                          | Some k => match lead e with Some k' => String.eqb k' k | None => false end
                          | None => true
                          end
    end
  end.
Definition sane_all (l : list pexp) : bool :=
  (fix go l := match l with
               | [] => true
               | x :: r => match x with PTerm UEncoding => colon r | _ => sane true x end && go r
               end) l.
Lemma rules_sane : forall r, sane true (body r) = true.
Proof. intros []; vm_compute; reflexivity. Qed.
Lemma body_sane : sane true g_body = true.
Proof. vm_compute. reflexivity. Qed.

Definition Said (full : bool) (s r : string) (a : list tok) : Prop :=
  spans (all_words (if full then a else firstn 1 a)) s r /\ Forall tidy a.
Lemma said_full : forall full s r a, Said true s r a -> Said full s r a.
Proof.
  intros [] s r a [X Y]; [now split|]. split; [|exact Y]. eapply spans_le; [exact X|]. destruct a as [|t a]; [constructor|]. cbn [firstn all_words flat_map]. apply le_app; [apply le_refl|constructor].
Qed.

Lemma enc_word : forall c, is_upper c || is_hyphen c = true -> is_word c = true.
Proof. intros c E. unfold is_word. apply orb_prop in E as [E|E]; rewrite E, ?orb_true_r; reflexivity. Qed.
Lemma encoding_spans : forall n n' s s1 s2 a b, run n true (PTerm UEncoding) s = Match s1 a -> run n' true (PTerm (ULit ":")) s1 = Match s2 b -> Said true s s1 a.
Proof.
  intros n n' s s1 s2 a b X Y. apply run_term in X as (m & E & ->). apply run_term in Y as (m' & Y & _). cbn [term] in *. destruct (prefixed ":" (skip s1)) as [x|] eqn:P; [|discriminate].
  assert (starts is_word s1 = false) as ST.
  { destruct s1 as [|c s1]; [reflexivity|]. cbn [skip] in P. cbn [starts]. destruct (is_white c) eqn:W.
    - destruct (is_word c) eqn:C; [|reflexivity]. apply word_plain in C. rewrite W in C. discriminate.
    - cbn [prefixed] in P. destruct (Ascii.eqb_spec ":" c) as [<-|]; [reflexivity|discriminate]. }
  apply word_inv in E as (c & w & -> & C & A & E & _).
  assert (all_chars is_word (String c w) = true) as AW by (cbn [all_chars]; rewrite (upper_word _ C); apply (all_chars_imp _ _ _ enc_word A)).
  split; [|constructor; [apply no_brace, upper_word, C|constructor]]. cbn [all_words flat_map words]. rewrite app_nil_r. apply spans_skip. rewrite E.
  apply spans_plain; [now apply words_plain|]. intros _ _. exact ST.
Qed.

Section Main.
Variable n : nat.
Hypothesis IH : forall full e s r a, sane full e = true -> run n true e s = Match r a -> Said full s r a.

Lemma said_app : forall s s1 s2 a b, Said true s s1 a -> Said true s1 s2 b -> Said true s s2 (a ++ b).
Proof. intros s s1 s2 a b [X1 X2] [Y1 Y2]. split; [rewrite all_words_app; eapply spans_app; eauto|apply Forall_app; auto]. Qed.
Lemma and_said : forall l s r a, sane_all l = true -> run_and (run n) true l s = Match r a -> Said true s r a.
Proof.
  induction l as [|e l IHl]; intros s r a SA E; cbn [run_and] in E; [injection E as <- <-; split; [apply spans_refl|constructor]|].
  destruct (run n true e s) as [s1 b| |] eqn:X; try discriminate. destruct (run_and (run n) true l s1) as [s2 b2| |] eqn:Y; try discriminate. injection E as <- <-.
  cbn [sane_all] in SA. fold (sane_all l) in SA. apply andb_prop in SA as [S1 S2]. apply (said_app _ s1); [|now apply IHl].
  assert (sane true e = true -> Said true s s1 b) as PLAIN by (intros SE; eapply IH; eauto).
  destruct e as [[| | | | | | | |]| | | | | | | | | | |]; auto.
  destruct l as [|[[k| | | | | | | |]| | | | | | | | | | |] l]; try discriminate. cbn [colon] in S1. apply String.eqb_eq in S1 as ->. cbn [run_and] in Y.
  destruct (run n true (PTerm (ULit ":")) s1) as [s3 b3| |] eqn:Z'; try discriminate. eapply encoding_spans; eauto.
Qed.
Lemma more_said : forall m e s s0 a r b, sane true e = true -> Said true s0 s a -> more (run n) m true e s a = Match r b -> Said true s0 r b.
Proof.
  induction m as [|m IHm]; intros e s s0 a r b SE SA E; cbn [more] in E; [discriminate|]. destruct (run n true e s) as [s1 b1| |] eqn:X; try discriminate.
  - eapply IHm; [exact SE| |exact E]. eapply said_app; [exact SA|]. eapply IH; eauto.
  - now injection E as <- <-.
Qed.
Lemma step_said : forall full e s r a, sane full e = true -> step (run n) (run_or (run n)) n true e s = Match r a -> Said full s r a.
Proof.
  intros full e s r a SE E. destruct e as [t| |e|l|l|e|e|e|e|ac e|ru|]; cbn [step] in E.
  - apply said_full. cbn [sane] in SE. destruct (term t s) as [[m x]|] eqn:X; [|discriminate]. injection E as <- <-. apply term_spans in X as [X1 X2]; [|exact SE].
    split; [cbn [all_words flat_map words]; now rewrite app_nil_r|constructor; [exact X2|constructor]].
  - injection E as <- <-. apply said_full. split; [apply spans_refl|constructor].
  - destruct (run n true e s) as [s1 b| |] eqn:X; try discriminate. injection E as <- <-. apply said_full. apply (IH true) in X as [X _]; [|exact SE].
    split; [|constructor]. eapply spans_le; [exact X|constructor].
  - apply said_full. now apply and_said in E.
  - apply or_true in E as (e & IN & E). cbn [sane] in SE. rewrite forallb_forall in SE. eapply IH; eauto.
  - apply said_full. cbn [sane] in SE. destruct (run n true e s) as [s1 b| |] eqn:X; try discriminate.
    + eapply more_said; [exact SE|eapply IH; eauto|exact E].
    + injection E as <- <-. split; [apply spans_refl|constructor].
  - apply said_full. cbn [sane] in SE. destruct (run n true e s) as [s1 b| |] eqn:X; try discriminate. eapply more_said; [exact SE|eapply IH; eauto|exact E].
  - apply said_full. cbn [sane] in SE. destruct (run n true e s) as [s1 b| |] eqn:X; try discriminate; injection E as <- <-; [eapply IH; eauto|split; [apply spans_refl|constructor]].
  - apply said_full. cbn [sane] in SE. apply andb_prop in SE as [S1 S2]. destruct (run n true e s) as [s1 b| |] eqn:X; try discriminate. injection E as <- <-.
    destruct (new_first _ _ _ _ _ S2 X) as [_ HO]. apply (IH true) in X as [X1 X2]; [|exact S1]. split; [cbn [all_words flat_map words]; now rewrite app_nil_r|].
    constructor; [|constructor]. now apply tidy_grp.
  - assert (ac = ToSigned \/ ac = ToSizedList \/ ac = ToConstrained \/ ac = ToConstraint \/ ac = ToModule \/
            (match ac with ToSigned | ToSizedList | ToConstrained | ToModule => False | _ => True end /\ ac <> ToConstraint)) as CASES
      by (destruct ac; auto 6; repeat right; split; auto; discriminate).
    destruct CASES as [->|[->|[->|[->|[->|[NA NC]]]]]].
    + apply said_full. cbn [sane] in SE. apply andb_prop in SE as [S1 S2]. destruct (run n true e s) as [s1 b| |] eqn:X; try discriminate.
      destruct (act_on ToSigned b) as [l'|] eqn:AC; [|discriminate]. injection E as <- <-. pose proof (dash_first _ _ _ _ _ S2 X) as DA. apply (IH true) in X as [X1 X2]; [|exact S1].
      cbn [act_on] in AC. destruct b as [|[h|p|q|c] [|[m|p2|q2|c2] [|t b]]]; try discriminate; injection AC as <-; [now split|].
      destruct DA as [[? DA]|[? DA]]; [discriminate|]. injection DA as -> _. split; [|repeat constructor].
      eapply spans_le; [exact X1|]. cbn [all_words flat_map words]. rewrite !app_nil_r. change (said "-") with (@nil string). apply said_sign.
    + cbn [sane] in SE. apply andb_prop in SE as [S1 S2]. destruct full; [discriminate|]. destruct (run n true e s) as [s1 b| |] eqn:X; try discriminate.
      destruct (act_on ToSizedList b) as [l'|] eqn:AC; [|discriminate]. injection E as <- <-. apply (IH true) in X as [X1 X2]; [|exact S2].
      cbn [act_on] in AC. destruct b as [|[h|p|q|c] [|c' [|x [|t b]]]]; try discriminate. destruct (String.eqb_spec h "SEQUENCE") as [->|]; [|discriminate].
      destruct (seqof_obj t) as [p|] eqn:SO; [|discriminate]. cbn [bind] in AC. injection AC as <-. apply seqof_words in SO. split.
      * cbn [firstn all_words flat_map words]. rewrite app_nil_r. eapply spans_le; [exact X1|]. eapply le_trans; [|exact SO]. cbn [all_words flat_map words].
        change (said "SEQUENCE") with ["SEQUENCE"]. cbn [app]. apply le_keep, le_right, le_right, le_left, le_refl.
      * inversion X2 as [|? ? _ X3]; subst. inversion X3; subst. repeat constructor. assumption.
    + apply said_full. cbn [sane] in SE. destruct (run n true e s) as [s1 b| |] eqn:X; try discriminate.
      destruct (act_on ToConstrained b) as [l'|] eqn:AC; [|discriminate]. injection E as <- <-. apply (IH false) in X as [X1 X2]; [|exact SE].
      cbn [act_on] in AC. destruct b as [|[h|p|q|c] [|[m|p2|q2|c2] b]]; try discriminate. injection AC as <-. split; [|repeat constructor].
      cbn [firstn all_words flat_map words] in *. now rewrite names_set_con.
    + apply said_full. cbn [sane] in SE. destruct e; try discriminate. destruct (run n true PNest s) as [s1 b| |] eqn:X; try discriminate.
      destruct b as [|[h|p|g|c] [|t b]]; try discriminate. destruct (constraint_of (run n true g_constraint) g) as [y t| |] eqn:CO; try discriminate. injection E as <- <-.
      assert (Forall leaf g) as LG.
      { destruct n as [|n']; [discriminate|]. cbn [run step] in X. destruct (skip s) as [|c0 t0]; [discriminate|]. destruct (Ascii.eqb c0 "("); [|discriminate].
        destruct (nested (run n' true g_constraint) n' true t0) as [r' g'| |] eqn:NE; try discriminate. injection X as <- <-. now apply nested_words in NE. }
      apply (IH true) in X as [X1 _]; [|reflexivity]. apply constraint_words in CO as [C1 C2]; [|exact LG]. split; [|constructor; [now apply leaf_tidy|constructor]].
      eapply spans_le; [exact X1|]. cbn [all_words flat_map words]. rewrite !app_nil_r. exact C2.
    + discriminate.
    + apply said_full. assert (sane true e = true /\ (forall k, kind_lit ac = Some k -> lead e = Some k)) as [S1 S2].
      { destruct ac; try contradiction; cbn [sane kind_lit] in *; apply andb_prop in SE as [S1 S2]; (split; [exact S1|]); try discriminate;
          intros k EK; injection EK as <-; destruct (lead e) as [k'|]; try discriminate; now apply String.eqb_eq in S2 as ->. }
      assert (exists b, run n true e s = Match r b /\ act_on ac b = Ok a) as (b & X & AC).
      { destruct ac; try contradiction; destruct (run n true e s) as [s1 b| |]; try discriminate; exists b;
          match type of E with context [act_on ?x b] => destruct (act_on x b) as [l'|]; [|discriminate] end; now injection E as <- <-. }
      assert (started (kind_lit ac) b) as ST by (unfold started; destruct (kind_lit ac) as [k|]; [eapply lead_first; eauto|exact Logic.I]).
      apply (IH true) in X as [X1 X2]; [|exact S1]. apply act_words in AC as [A1 A2]; auto. split; [eapply spans_le; eauto|exact A2].
  - apply said_full. eapply IH; [apply rules_sane|exact E].
  - apply said_full. destruct s as [|c t]; [discriminate|]. destruct (Ascii.eqb c "("%char); [|discriminate].
    destruct (nested (run n true g_constraint) n true t) as [r' q| |] eqn:X; try discriminate. injection E as <- <-. apply nested_words in X as [X1 X2]. split.
    + cbn [all_words flat_map words]. rewrite app_nil_r. now apply (spans_more _ _ _ (String c "")).
    + constructor; [|constructor]. apply tidy_grp. split; [now apply leaves_head|]. eapply Forall_impl; [|exact X2]. apply leaf_tidy.
Qed.
End Main.

Theorem run_said : forall n full e s r a, sane full e = true -> run n true e s = Match r a -> Said full s r a.
Proof.
  induction n as [|n IH]; intros full e s r a SE E; [discriminate|]. cbn [run] in E. apply (step_said n IH full) in E as [X Y]; [|exact SE]. split; [now apply spans_skip|exact Y].
Qed.

(** * The module *)

Lemma and_inv : forall f act e l s r a, run_and f act (e :: l) s = Match r a ->
  exists s1 b c, f act e s = Match s1 b /\ run_and f act l s1 = Match r c /\ a = b ++ c.
Proof.
  intros f act e l s r a E. cbn [run_and] in E. destruct (f act e s) as [s1 b| |]; try discriminate. destruct (run_and f act l s1) as [s2 c| |] eqn:Y; try discriminate.
  injection E as <- <-. eauto 6.
Qed.
Lemma run_lit : forall n k s r a, run n true (lit k) s = Match r a -> a = [Str k].
Proof. intros n k s r a E. apply run_term in E as (m & E & ->). cbn [term] in E. destruct (prefixed k (skip s)); [|discriminate]. now injection E as <- <-. Qed.
Lemma run_empty : forall n s r a, run n true PEmpty s = Match r a -> a = [].
Proof. intros [|n] s r a E; [discriminate|]. cbn [run step] in E. now injection E as <- <-. Qed.
Lemma run_one_of : forall n l s r a, run n true (POr l) s = Match r a -> exists n' s' e, In e l /\ run n' true e s' = Match r a.
Proof. intros [|n] l s r a E; [discriminate|]. cbn [run step] in E. apply or_true in E as (e & IN & E). eauto. Qed.
Lemma no_groups : forall n s r a, run n true (POr [PEmpty]) s = Match r a -> a = [].
Proof. intros n s r a E. apply run_one_of in E as (n' & s' & e & [<-|[]] & E). now apply run_empty in E. Qed.
Lemma objs_words : forall l ps, only_objs l = Some ps -> all_words l = flat_map names ps.
Proof.
  unfold only_objs. induction l as [|t l IH]; intros ps E; cbn [all_some] in E; [injection E as <-; reflexivity|]. destruct t as [s|p|q|c]; try discriminate.
  destruct (all_some _ l) as [ps'|]; [|discriminate]. injection E as <-. change (names p ++ all_words l = names p ++ flat_map names ps'). now rewrite (IH ps' eq_refl).
Qed.

Lemma run_words : forall n e s r a, run n true e s = Match r a -> sane true e = true -> spans (all_words a) s r.
Proof. intros n e s r a E SE. now destruct (run_said _ true _ _ _ _ SE E). Qed.

Definition frame (m : string) (ps : list ptype) : list string :=
  m :: "DEFINITIONS" :: "BEGIN" :: flat_map names ps ++ ["END"].
Lemma module_spans : forall n s r l ps, run n true g_module s = Match r l -> only_objs l = Some ps -> exists m, type_word m = true /\ spans (frame m ps) s r.
Proof.
  intros n s r l ps E OB. destruct n as [|n]; [discriminate|]. unfold g_module in E. cbn [run step] in E.
  match type of E with match run n true ?e ?x with _ => _ end = _ => destruct (run n true e x) as [r0 a| |] eqn:X; try discriminate end.
  destruct (act_on ToModule a) as [l'|] eqn:AC; [|discriminate]. injection E as -> ->. destruct n as [|n]; [discriminate|]. cbn [run step] in X. rewrite ?skip_skip in X.
  apply and_inv in X as (s1 & a1 & c1 & X1 & X & ->). apply and_inv in X as (s2 & a2 & c2 & X2 & X & ->). apply and_inv in X as (s3 & a3 & c3 & X3 & X & ->).
  apply and_inv in X as (s4 & a4 & c4 & X4 & X & ->). apply and_inv in X as (s5 & a5 & c5 & X5 & X & ->). apply and_inv in X as (s6 & a6 & c6 & X6 & X & ->).
  apply and_inv in X as (s7 & a7 & c7 & X7 & X & ->). apply and_inv in X as (s8 & a8 & c8 & X8 & X & ->). apply and_inv in X as (s9 & a9 & c9 & X9 & X & ->).
  cbn [run_and] in X. injection X as -> <-.
  pose proof (run_words _ _ _ _ _ X1 eq_refl) as P1. pose proof (run_words _ _ _ _ _ X2 eq_refl) as P2. pose proof (run_words _ _ _ _ _ X3 eq_refl) as P3.
  pose proof (run_words _ _ _ _ _ X4 eq_refl) as P4. pose proof (run_words _ _ _ _ _ X5 eq_refl) as P5. pose proof (run_words _ _ _ _ _ X6 eq_refl) as P6.
  pose proof (run_words _ _ _ _ _ X7 eq_refl) as P7. pose proof (run_words _ _ _ _ _ X9 eq_refl) as P9.
  assert (exists bd, a8 = [Grp bd] /\ spans (all_words bd) s7 s8) as (bd & -> & P8).
  { destruct n as [|n']; [discriminate|]. cbn [run step] in X8. destruct (run n' true g_body (skip s7)) as [y b| |] eqn:Y; try discriminate. injection X8 as <- <-.
    exists b. split; [reflexivity|]. apply spans_skip. now destruct (run_said _ true _ _ _ _ body_sane Y). }
  assert (exists m, a1 = [Str m] /\ type_word m = true) as (m & -> & TW).
  { destruct n as [|n']; [discriminate|]. cbn [run step] in X1. apply and_inv in X1 as (y1 & b1 & d1 & Y1 & Y & ->). cbn [run_and] in Y. injection Y as _ <-.
    apply run_term in Y1 as (m & Y1 & ->). exists m. split; [reflexivity|]. cbn [term] in Y1. apply word_inv in Y1 as (c & w & -> & C & A & _). cbn [type_word]. now rewrite C. }
  apply run_lit in X2 as ->. apply no_groups in X3 as ->. apply no_groups in X5 as ->. apply run_lit in X6 as ->. apply run_lit in X7 as ->. apply run_lit in X9 as ->.
  assert (a4 = [Str "AUTOMATIC TAGS"] \/ a4 = []) as A4.
  { apply run_one_of in X4 as (n' & s' & e & [<-|[<-|[]]] & E); [left; now apply run_lit in E|right; now apply run_empty in E]. }
  assert (l = bd) as -> by (destruct A4 as [-> | ->]; cbn [app act_on filter] in AC; now injection AC as <-).
  exists m. split; [exact TW|]. apply spans_skip. apply objs_words in OB. unfold frame.
  assert (said m = [m]) as SM.
  { unfold type_word in TW. destruct m as [|c w]; [discriminate|]. apply andb_prop in TW as [U W]. rewrite said_plain; [cbn [starts]; unfold letter; now rewrite U|].
    apply words_plain. cbn [all_chars]. now rewrite (upper_word _ U). }
  cbn [all_words flat_map words] in P1, P2, P7, P9. rewrite app_nil_r in P1, P2, P7, P9. rewrite SM in P1. change (said "DEFINITIONS") with ["DEFINITIONS"] in P2.
  change (said "BEGIN") with ["BEGIN"] in P7. change (said "END") with ["END"] in P9. rewrite OB in P8.
  change (m :: "DEFINITIONS" :: "BEGIN" :: flat_map names ps ++ ["END"]) with ([m] ++ ["DEFINITIONS"] ++ [] ++ [] ++ [] ++ [] ++ ["BEGIN"] ++ flat_map names ps ++ ["END"]).
  eapply spans_app; [exact P1|]. eapply spans_app; [exact P2|]. eapply spans_app; [eapply spans_le; [exact P3|constructor]|]. eapply spans_app; [eapply spans_le; [exact P4|constructor]|].
  eapply spans_app; [eapply spans_le; [exact P5|constructor]|]. eapply spans_app; [eapply spans_le; [exact P6|constructor]|]. eapply spans_app; [exact P7|].
  eapply spans_app; [exact P8|]. exact P9.
Qed.

(** ** Tabs *)
Definition blanks (k : nat) : string := string_of_list_ascii (repeat " "%char k).
Inductive tabbed : string -> string -> Prop :=
| tab_nil : tabbed "" ""
| tab_same c t u : tabbed t u -> tabbed (String c t) (String c u)
| tab_tab k t u : tabbed t u -> tabbed (blanks (S k) ++ t) (String (ascii_of_nat 9) u).
Lemma tabbed_expand : forall u col, tabbed (expandtabs col u) u.
Proof.
  induction u as [|c u IH]; intros col; cbn [expandtabs]; [constructor|]. destruct (Ascii.eqb_spec c (ascii_of_nat 9)) as [->|N].
  - cbv zeta. pose proof (Nat.mod_upper_bound col 8 ltac:(lia)) as L. destruct (8 - col mod 8) as [|k] eqn:K'; [lia|]. apply tab_tab, IH.
  - destruct (_ || _); apply tab_same, IH.
Qed.
Definition loose (t u : string) : Prop := exists k t', t = (blanks k ++ t')%string /\ tabbed t' u.
Lemma tabbed_loose : forall t u, tabbed t u -> loose t u.
Proof. intros t u T. now exists 0, t. Qed.
Lemma loose_cut : forall a b u, loose (a ++ b) u -> exists a' u', u = (a' ++ u')%string /\ loose b u'.
Proof.
  induction a as [|c a IH]; intros b u L; [now exists "", u|]. destruct L as (k & t & E & T). destruct k as [|k].
  - cbn [blanks repeat string_of_list_ascii append] in E. subst t. cbn [append] in T. inversion T as [|c' t u' T'|k t u' T' EQ]; subst.
    + destruct (IH b u' (tabbed_loose _ _ T')) as (a' & x & -> & L). exists (String c a'), x. auto.
    + match goal with EQ : _ = (a ++ b)%string |- _ => destruct (IH b u') as (a' & x & -> & L); [now exists k, t|] end. eexists (String _ a'), x. split; [reflexivity|exact L].
  - cbn [blanks repeat string_of_list_ascii append] in E. injection E as _ E. apply IH. now exists k, t.
Qed.
Lemma tabbed_word : forall w b u, solid w = true -> tabbed (w ++ b) u -> exists u', u = (w ++ u')%string /\ tabbed b u'.
Proof.
  induction w as [|c w IH]; intros b u SO T; [now exists u|]. cbn [append] in T. unfold solid in SO. cbn [all_chars] in SO. apply andb_prop in SO as [S1 S2].
  inversion T as [|c' t u' T'|k t u' T' EQ]; subst.
  - destruct (IH b u' S2 T') as (x & -> & T2). exists x. auto.
  - discriminate.
Qed.
Lemma tabbed_starts : forall b u, tabbed b u -> starts is_word b = false -> starts is_word u = false.
Proof. intros b u T ST. destruct T; [reflexivity|exact ST|reflexivity]. Qed.
Lemma found_tabs : forall ws t r, spans ws t r -> forall u, loose t u -> found ws u.
Proof.
  intros ws t r SP. induction SP as [a r|a w w' b ws r E SO W SP IH]; intros u L; [exists u; apply spans_refl|].
  apply loose_cut in L as (a' & u1 & -> & (k & t & EQ & T)).
  assert (exists u2, u1 = (w' ++ u2)%string /\ (w' = "" /\ loose b u2 \/ tabbed b u2)) as (u2 & -> & T2).
  { destruct w' as [|c w']; [exists u1; split; [reflexivity|left; split; [reflexivity|now exists k, t]]|]. destruct k as [|k].
    - cbn [blanks repeat string_of_list_ascii append] in EQ. subst t. destruct (tabbed_word (String c w') b u1 SO T) as (u2 & -> & T2). eauto.
    - cbn [blanks repeat string_of_list_ascii append] in EQ. injection EQ as -> _. discriminate. }
  destruct (IH u2) as [r' SP']; [destruct T2 as [[_ T2]|T2]; [exact T2|now apply tabbed_loose]|]. exists r'. apply (spans_cons a' w w'); auto.
  intros NW NK. destruct T2 as [[-> _]|T2]; [discriminate|]. eapply tabbed_starts; [exact T2|]. now apply W.
Qed.

(** * Nothing is invented *)

(** Whatever the text: if the parser answers with objects, the words of which they
    consist stand in the text (without its comments) in the same order, between
    BEGIN and END. *)
Theorem C53_found : forall n s r ps, read_schema n s = Match r ps ->
  exists m, type_word m = true /\ found (frame m ps) (of_codes (remove_comments (to_codes s))).
Proof.
  intros n s r ps E. unfold read_schema, parse_module in E. set (u := of_codes (remove_comments (to_codes s))) in *.
  destruct (run n true g_module (expandtabs 0 u)) as [r0 l| |] eqn:X; try discriminate. destruct (only_objs l) as [ps0|] eqn:OB; [|discriminate]. injection E as <- <-.
  destruct (module_spans _ _ _ _ _ X OB) as (m & TW & SP). exists m. split; [exact TW|]. eapply found_tabs; [exact SP|]. apply tabbed_loose, tabbed_expand.
Qed.
