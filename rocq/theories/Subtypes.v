(** Constraints of a schema (C48): what parse_Constraint makes of the text between
    the parentheses, against the values X.680 says the constraint allows.
    Sources: classes/parse_actions.py 179-189, asn_definitions/constraint_def.py,
    asn_definitions/type_def.py 19. *)

From Coq Require Import ZArith List String Ascii Bool Arith Lia.
Import ListNotations.
From Verif Require Import PyBase Schema Generator Emit Exec Meaning.

Open Scope string_scope.
Open Scope list_scope.
Open Scope nat_scope.

(** * The code *)

(** type_def.py 19: nestedExpr groups what stands between matching parentheses.
    The words are given as lexical items here (the text is put together again and
    split into them by constraint_def.py, parse_actions.py 183-184). *)
Inductive nest : Type := Word (s : string) | Nest (l : list nest).

(** lexical_items.py: a comma is suppressed. *)
Definition not_comma (s : string) : bool := negb (String.eqb s ",").

(** parse_actions.py 186-188, list.remove: the first one only. *)
Fixpoint remove_first (s : string) (l : list string) : list string :=
  match l with [] => [] | x :: r => if String.eqb x s then r else x :: remove_first s r end.

(** parse_actions.py 184-189; parsed[0] of an empty list is an IndexError. *)
Definition end_points (l : list string) : res (string * string * bool) :=
  let parsed := remove_first "..." l in
  match parsed with
  | [] => Err PyIndexError
  | lo :: _ => Ok (lo, last parsed lo, mem "..." l)
  end.

(** What the items of a group are when parse_Constraint sees them: the action has
    run for the groups inside (177-189); [' '.join] wants strings (182), SIZE
    takes the second item, whatever else there is (180-181).  Which lexical items
    constraint_def.py accepts is in Grammar.v. *)
Inductive item : Type := IWord (s : string) | ITuple (c : string * string * bool).

Fixpoint words (l : list item) : res (list string) :=
  match l with
  | [] => Ok []
  | IWord s :: r => let* w := words r in Ok (s :: w)
  | ITuple _ :: _ => Err PyTypeError
  end.

Definition parse_group (l : list item) : res item :=
  match l with
  | IWord s :: r =>
    if String.eqb s "SIZE" then
      match r with x :: _ => Ok x | [] => Err PyIndexError end
    else let* w := words l in let* c := end_points (filter not_comma w) in Ok (ITuple c)
  | [] => Err PyIndexError
  | _ => let* w := words l in let* c := end_points (filter not_comma w) in Ok (ITuple c)
  end.

Fixpoint parse_nest (n : nest) : res item :=
  match n with
  | Word s => Ok (IWord s)
  | Nest l =>
    let* r := (fix loop (l : list nest) : res (list item) :=
                 match l with
                 | [] => Ok []
                 | x :: r => let* y := parse_nest x in let* ys := loop r in Ok (y :: ys)
                 end) l in
    parse_group r
  end.

(** The constraint of the type (parse_actions.py 124-128). *)
Definition parse_constraint (l : list nest) : res (string * string * bool) :=
  let* r := parse_nest (Nest l) in
  match r with ITuple c => Ok c | IWord _ => Err PyAttributeError end.

(** * The language (X.680 49-51) *)

(** 51.2, 51.4: a value; a range, whose ends can be excluded by "<". *)
Inductive element : Type :=
| Single (b : bound)
| Between (lo : bound) (above : bool) (below : bool) (hi : bound).

(** 50.1: unions of intersections of elements, an element can exclude another. *)
Record inter := Inter { i_elem : element; i_except : option element }.
Inductive set : Type := Union (l : list (list inter)) | AllExcept (e : element).

(** 50.1 ElementSetSpecs: the root, "..." and more behind it. *)
Inductive marker : Type := NoMarker | Marker | Additional (s : set).
Record cspec := CSpec { c_root : set; c_marker : marker }.

(** Its lexical items. *)
Definition element_items (e : element) : list string :=
  match e with
  | Single b => [bound_text b]
  | Between lo a b hi =>
    [bound_text lo] ++ (if a then ["<"] else []) ++ [".."] ++ (if b then ["<"] else []) ++ [bound_text hi]
  end.
Definition inter_items (i : inter) : list string :=
  element_items (i_elem i) ++ match i_except i with Some e => "EXCEPT" :: element_items e | None => [] end.
Fixpoint joined (sep : string) (l : list (list string)) : list string :=
  match l with [] => [] | [x] => x | x :: r => x ++ sep :: joined sep r end.
Definition set_items (s : set) : list string :=
  match s with
  | Union l => joined "|" (map (fun i => joined "^" (map inter_items i)) l)
  | AllExcept e => "ALL" :: "EXCEPT" :: element_items e
  end.
Definition items (c : cspec) : list string :=
  set_items (c_root c) ++
  match c_marker c with
  | NoMarker => []
  | Marker => [","; "..."]
  | Additional s => [","; "..."; ","] ++ set_items s
  end.

(** (…) and (SIZE (…)). *)
Definition value_constraint (c : cspec) : list nest := map Word (items c).
Definition size_constraint (c : cspec) : list nest := [Word "SIZE"; Nest (map Word (items c))].

(** The values of the root, [least] being the least value of the type if any
    (0 for sizes). *)
Section Sets.
Variable S : schema.
Variable least : option Z.

Definition value_is (b : bound) (z : Z) : Prop :=
  match b with BMin => least = Some z | BMax => False | _ => bound_is S b z end.
Definition from (b : bound) (open : bool) (z : Z) : Prop :=
  match b with
  | BMin => open = true -> forall l, least = Some l -> (l < z)%Z
  | _ => exists w, value_is b w /\ if open then (w < z)%Z else (w <= z)%Z
  end.
Definition up_to (b : bound) (open : bool) (z : Z) : Prop :=
  match b with
  | BMax => True
  | _ => exists w, value_is b w /\ if open then (z < w)%Z else (z <= w)%Z
  end.
Definition in_element (e : element) (z : Z) : Prop :=
  match e with
  | Single b => value_is b z
  | Between lo a b hi => from lo a z /\ up_to hi b z
  end.
Definition in_inter (z : Z) (i : inter) : Prop :=
  in_element (i_elem i) z /\ forall e, i_except i = Some e -> ~ in_element e z.
Definition in_set (s : set) (z : Z) : Prop :=
  (forall l, least = Some l -> (l <= z)%Z) /\
  match s with
  | Union l => exists i, In i l /\ Forall (in_inter z) i
  | AllExcept e => ~ in_element e z
  end.

(** The values of a class with the given end points. *)
Definition in_range (lo hi : bound) (z : Z) : Prop :=
  (forall l, least = Some l -> (l <= z)%Z) /\ from lo false z /\ up_to hi false z.
End Sets.

(** * C48 *)

(** A constraint is [read_as] a range. *)
Definition read_as (l : list nest) (lo hi : bound) (ext : bool) : Prop :=
  parse_constraint l = Ok (bound_text lo, bound_text hi, ext).

Definition is_marker (m : marker) : bool := match m with NoMarker => false | _ => true end.

(** An end point is not a word of the syntax: a number, MIN, MAX or a name. *)
Definition plain_bound (b : bound) : Prop := match b with BRef n => value_word n = true | _ => True end.

Lemma empty_digits c : forall w, In c (list_ascii_of_string (DecimalString.NilEmpty.string_of_uint w)) -> is_digit c = true.
Proof.
  induction w; cbn [DecimalString.NilEmpty.string_of_uint list_ascii_of_string In]; intros I;
    [contradiction|..]; (destruct I as [E|I]; [rewrite <- E; reflexivity|now apply IHw]).
Qed.
Lemma zero_digits c w : In c (list_ascii_of_string (DecimalString.NilZero.string_of_uint w)) -> is_digit c = true.
Proof.
  destruct w; cbn [DecimalString.NilZero.string_of_uint]; try apply empty_digits.
  cbn [list_ascii_of_string In]. intros [E|[]]. rewrite <- E. reflexivity.
Qed.
Lemma num_text_chars z : forall c, In c (list_ascii_of_string (num_text z)) -> is_digit c = true \/ c = "-"%char.
Proof.
  unfold num_text. intros c. destruct (Z.to_int z) as [u|u]; cbn [DecimalString.NilZero.string_of_int].
  - intros I. left. now apply (zero_digits c u).
  - cbn [list_ascii_of_string In]. intros [E|I]; [now right|left]. now apply (zero_digits c u).
Qed.
Lemma bound_text_words b : plain_bound b -> bound_text b <> "..." /\ bound_text b <> "," /\ bound_text b <> "SIZE".
Proof.
  destruct b as [| |z|n]; cbn [bound_text plain_bound]; intros P; try (repeat split; discriminate).
  - assert (forall s c, In c (list_ascii_of_string s) -> is_digit c = false -> c <> "-"%char -> num_text z <> s) as H.
    { intros s c I D N E. subst s. apply num_text_chars in I as [I|I]; congruence. }
    repeat split; [apply (H _ "."%char)|apply (H _ ","%char)|apply (H _ "S"%char)]; try reflexivity; try discriminate; now left.
  - repeat split; intros ->; discriminate.
Qed.

Lemma parse_words l : parse_nest (Nest (map Word l)) = parse_group (map IWord l).
Proof.
  cbn [parse_nest]. replace ((fix loop (l : list nest) : res (list item) :=
                 match l with
                 | [] => Ok []
                 | x :: r => let* y := parse_nest x in let* ys := loop r in Ok (y :: ys)
                 end) (map Word l)) with (Ok (map IWord l)); [reflexivity|].
  induction l as [|x l IH]; [reflexivity|]. cbn [map parse_nest bind]. rewrite <- IH. reflexivity.
Qed.
Lemma words_ok l : words (map IWord l) = Ok l.
Proof. induction l as [|x l IH]; [reflexivity|]. cbn [map words]. rewrite IH. reflexivity. Qed.
Lemma parse_flat x l : x <> "SIZE" ->
  parse_constraint (map Word (x :: l)) = end_points (filter not_comma (x :: l)).
Proof.
  intros N. unfold parse_constraint. rewrite parse_words. cbn [map parse_group].
  destruct (String.eqb_spec x "SIZE") as [E|_]; [contradiction|].
  change (IWord x :: map IWord l) with (map IWord (x :: l)). rewrite words_ok. cbn [bind].
  destruct (end_points _); reflexivity.
Qed.
Lemma parse_size x l : x <> "SIZE" ->
  parse_constraint [Word "SIZE"; Nest (map Word (x :: l))] = parse_constraint (map Word (x :: l)).
Proof.
  intros N. unfold parse_constraint.
  change (parse_nest (Nest [Word "SIZE"; Nest (map Word (x :: l))])) with
    (let* r := (let* ys := (let* y := parse_nest (Nest (map Word (x :: l))) in Ok [y]) in Ok (IWord "SIZE" :: ys)) in parse_group r).
  destruct (parse_nest (Nest (map Word (x :: l)))) as [y|e]; reflexivity.
Qed.

(** ** Plain constraints *)

Definition plain (e : element) (m : bool) : cspec :=
  CSpec (Union [[Inter e None]]) (if m then Marker else NoMarker).

Lemma mem_spec s l : mem s l = true <-> In s l.
Proof.
  unfold mem. rewrite existsb_exists. split.
  - intros (x & I & E). apply String.eqb_eq in E. now subst x.
  - intros I. exists s. split; [exact I|apply String.eqb_refl].
Qed.
Lemma remove_none s l : ~ In s l -> remove_first s l = l.
Proof.
  induction l as [|x l IH]; intros N; [reflexivity|]. cbn [remove_first].
  destruct (String.eqb_spec x s) as [->|_]; [elim N; now left|]. rewrite IH; [reflexivity|]. intros I. apply N. now right.
Qed.
Lemma remove_last s l : ~ In s l -> remove_first s (l ++ [s]) = l.
Proof.
  induction l as [|x l IH]; intros N; cbn [app remove_first]; [now rewrite String.eqb_refl|].
  destruct (String.eqb_spec x s) as [->|_]; [elim N; now left|]. rewrite IH; [reflexivity|]. intros I. apply N. now right.
Qed.
Definition marks (m : bool) : list string := if m then [","; "..."] else [].

Lemma last_other {A} (x : A) l d d' : last (x :: l) d = last (x :: l) d'.
Proof. revert x. induction l as [|y l IH]; intros x; [reflexivity|]. cbn [last] in *. apply IH. Qed.

Lemma last_shift {A} (x : A) l d : last (x :: l) d = last l x.
Proof. destruct l as [|y l]; [reflexivity|]. change (last (x :: y :: l) d) with (last (y :: l) d). apply last_other. Qed.

(** What is read of items without marks among them. *)
Lemma end_points_plain x l m : Forall (fun s => s <> "..." /\ s <> ",") (x :: l) ->
  end_points (filter not_comma ((x :: l) ++ marks m)) = Ok (x, last l x, m).
Proof.
  intros F. assert (~ In "..." (x :: l)) as N.
  { intros I. rewrite Forall_forall in F. apply F in I as [I _]. now elim I. }
  assert (filter not_comma (x :: l) = x :: l) as FC.
  { clear N. induction F as [|y r [_ Y] F IH]; [reflexivity|]. cbn [filter]. rewrite IH. unfold not_comma.
    destruct (String.eqb_spec y ",") as [|_]; [contradiction|reflexivity]. }
  rewrite filter_app, FC. unfold end_points. destruct m; cbn [marks].
  - change (filter not_comma [","; "..."]) with ["..."]. rewrite remove_last by exact N.
    replace (mem "..." ((x :: l) ++ ["..."])) with true
      by (symmetry; apply mem_spec, in_or_app; right; now left).
    f_equal. f_equal. f_equal. destruct l; reflexivity.
  - cbn [filter]. rewrite app_nil_r, remove_none by exact N.
    destruct (mem "..." (x :: l)) eqn:M; [apply mem_spec in M; contradiction|].
    f_equal. f_equal. f_equal. destruct l; reflexivity.
Qed.

Definition closed_element (e : element) : Prop :=
  match e with Single b => plain_bound b | Between lo a b hi => plain_bound lo /\ plain_bound hi end.
Definition first_end (e : element) : bound := match e with Single b => b | Between lo _ _ _ => lo end.
Definition last_end (e : element) : bound := match e with Single b => b | Between _ _ _ hi => hi end.
Definition word_ok (s : string) : Prop := s <> "..." /\ s <> ",".

Lemma element_words e : closed_element e -> Forall word_ok (element_items e) /\
  exists l, element_items e = bound_text (first_end e) :: l /\ last l (bound_text (first_end e)) = bound_text (last_end e).
Proof.
  destruct e as [b|lo a b hi]; cbn [closed_element element_items first_end last_end].
  - intros P. apply bound_text_words in P as (A & B & _). split; [repeat constructor; assumption|]. exists []. split; reflexivity.
  - intros [P Q]. apply bound_text_words in P as (A & B & _). apply bound_text_words in Q as (C & D & _). split.
    + destruct a, b; cbn [app]; repeat constructor; try assumption; discriminate.
    + destruct a, b; cbn [app]; eexists; (split; [reflexivity|reflexivity]).
Qed.

Definition plain_marker (m : bool) : marker := if m then Marker else NoMarker.
Lemma items_plain s m : items (CSpec s (plain_marker m)) = set_items s ++ marks m.
Proof. destruct m; reflexivity. Qed.

(** A union of elements. *)
Definition union_of (l : list element) : set := Union (map (fun e => [Inter e None]) l).
Lemma union_items l : set_items (union_of l) = joined "|" (map element_items l).
Proof.
  unfold union_of. cbn [set_items]. f_equal. rewrite map_map. apply map_ext. intros e.
  cbn [map joined inter_items i_elem i_except]. apply app_nil_r.
Qed.
Lemma union_words e l : Forall closed_element (e :: l) ->
  Forall word_ok (set_items (union_of (e :: l))) /\
  exists r, set_items (union_of (e :: l)) = bound_text (first_end e) :: r /\
            last r (bound_text (first_end e)) = bound_text (last_end (last l e)).
Proof.
  rewrite union_items. revert e. induction l as [|f l IH]; intros e F; inversion F as [|? ? C F']; subst;
    destruct (element_words e C) as (W & r & E & L).
  - cbn [map joined last]. split; [exact W|]. exists r. now split.
  - destruct (IH f F') as (W' & r' & E' & L').
    change (joined "|" (map element_items (e :: f :: l))) with (element_items e ++ "|" :: joined "|" (map element_items (f :: l))).
    split.
    + apply Forall_app. split; [exact W|]. constructor; [split; discriminate|exact W'].
    + rewrite E, E'. exists (r ++ "|" :: bound_text (first_end f) :: r'). split; [reflexivity|].
      transitivity (last (bound_text (first_end f) :: r') (bound_text (first_end e))).
      * clear. induction r as [|x r IH]; [reflexivity|].
        change ((x :: r) ++ "|" :: bound_text (first_end f) :: r') with (x :: (r ++ "|" :: bound_text (first_end f) :: r')).
        cbn [last]. destruct (r ++ "|" :: bound_text (first_end f) :: r') eqn:Q; [destruct r; discriminate|exact IH].
      * rewrite (last_shift f l e).
        rewrite <- L'. apply last_shift.
Qed.

(** What the code reads of any union of elements, extensible or not: the first end
    of the first and the last end of the last. *)
Lemma union_read e l m : Forall closed_element (e :: l) ->
  read_as (value_constraint (CSpec (union_of (e :: l)) (plain_marker m))) (first_end e) (last_end (last l e)) m /\
  read_as (size_constraint (CSpec (union_of (e :: l)) (plain_marker m))) (first_end e) (last_end (last l e)) m.
Proof.
  intros F. destruct (union_words e l F) as (W & r & E & L).
  assert (bound_text (first_end e) <> "SIZE") as N.
  { inversion F as [|? ? C _]; subst. destruct e as [b|lo a b hi]; cbn [first_end closed_element] in *; [|destruct C as [C _]]; now apply bound_text_words in C as (_ & _ & C). }
  assert (parse_constraint (map Word (items (CSpec (union_of (e :: l)) (plain_marker m)))) =
          Ok (bound_text (first_end e), bound_text (last_end (last l e)), m)) as R.
  { rewrite items_plain, E. change ((bound_text (first_end e) :: r) ++ marks m) with (bound_text (first_end e) :: (r ++ marks m)).
    rewrite parse_flat by exact N.
    change (bound_text (first_end e) :: (r ++ marks m)) with ((bound_text (first_end e) :: r) ++ marks m).
    rewrite E in W. rewrite (end_points_plain _ r m W), L. reflexivity. }
  split; [exact R|]. unfold read_as, size_constraint. rewrite <- R, items_plain, E.
  change ((bound_text (first_end e) :: r) ++ marks m) with (bound_text (first_end e) :: (r ++ marks m)). now apply parse_size.
Qed.

(** ** Theorems *)

(** A range with both ends included, with or without "...", is read as the range
    with the same values, for values and for sizes.  (Missing: single values, next
    theorem; unions, the theorem after it; everything else: the refutations.) *)
Theorem C48_range_partial : forall S least lo hi m, plain_bound lo -> plain_bound hi ->
  let c := CSpec (union_of [Between lo false false hi]) (plain_marker m) in
  read_as (value_constraint c) lo hi m /\ read_as (size_constraint c) lo hi m /\
  forall z, in_set S least (c_root c) z <-> in_range S least lo hi z.
Proof.
  intros S least lo hi m L H c. destruct (union_read (Between lo false false hi) [] m) as [V Z'].
  { constructor; [split; assumption|constructor]. }
  split; [exact V|]. split; [exact Z'|]. intros z. unfold c, union_of, in_set, in_range. cbn [c_root map]. split.
  - intros (G & i & [<-|[]] & F). inversion F as [|? ? [X _] _]; subst. split; [exact G|exact X].
  - intros (G & X). split; [exact G|]. exists [Inter (Between lo false false hi) None]. split; [now left|].
    constructor; [|constructor]. split; [exact X|discriminate].
Qed.

(** A single value is read as the range from it to it.  A name stands for one
    value. *)
Theorem C48_single_partial : forall S least b m, plain_bound b -> b <> BMin -> b <> BMax ->
  (forall z w, value_is S least b z -> value_is S least b w -> z = w) ->
  let c := CSpec (union_of [Single b]) (plain_marker m) in
  read_as (value_constraint c) b b m /\ read_as (size_constraint c) b b m /\
  forall z, in_set S least (c_root c) z <-> in_range S least b b z.
Proof.
  intros S least b m L N1 N2 U c. destruct (union_read (Single b) [] m) as [V Z'].
  { constructor; [assumption|constructor]. }
  split; [exact V|]. split; [exact Z'|]. intros z. unfold c, union_of, in_set, in_range. cbn [c_root map]. split.
  - intros (G & i & [<-|[]] & F). inversion F as [|? ? [X _] _]; subst. cbn [i_elem in_element] in X. split; [exact G|].
    split; (destruct b; [now elim N1|now elim N2|..]; exists z; (split; [exact X|lia])).
  - intros (G & X & Y). split; [exact G|]. exists [Inter (Single b) None]. split; [now left|].
    constructor; [|constructor]. split; [|discriminate]. cbn [i_elem in_element].
    destruct b; [now elim N1|now elim N2|..]; destruct X as (w & W1 & W2); destruct Y as (w' & W3 & W4);
      rewrite (U w' w W3 W1) in W4; assert (z = w) as -> by lia; exact W1.
Qed.

(** A union is read as the range from its first to its last end.  If these are the
    least and the greatest value of the union, that is the smallest range with all
    its values (which is all PER wants, X.691 10.3.21), but a class then also takes
    the values in the gaps.  (Missing: the gaps; unions in another order, see the
    refutations.) *)
Theorem C48_union_partial : forall S least e l m, Forall closed_element (e :: l) ->
  let c := CSpec (union_of (e :: l)) (plain_marker m) in
  let lo := first_end e in let hi := last_end (last l e) in
  read_as (value_constraint c) lo hi m /\ read_as (size_constraint c) lo hi m /\
  forall a b, value_is S least lo a -> value_is S least hi b -> in_set S least (c_root c) a -> in_set S least (c_root c) b ->
    (forall z, in_set S least (c_root c) z -> (a <= z <= b)%Z) ->
    (forall z, in_set S least (c_root c) z -> in_range S least lo hi z) /\
    forall x y, (forall z, in_set S least (c_root c) z -> (x <= z <= y)%Z) ->
    forall z, (a <= z <= b)%Z -> (x <= z <= y)%Z.
Proof.
  intros S least e l m F c lo hi. destruct (union_read e l m F) as [V Z'].
  split; [exact V|]. split; [exact Z'|]. intros a b A B IA IB H. split.
  - intros z I. pose proof (H z I) as R. destruct I as [G _]. split; [exact G|]. split.
    + destruct lo; try (exists a; split; [exact A|lia]). cbn [from]. discriminate.
    + destruct hi; try (exists b; split; [exact B|lia]). exact I.
  - intros x y X z R. pose proof (X a IA). pose proof (X b IB). lia.
Qed.

(** The values of Meaning.v: what is read of a range is the constraint there. *)
Theorem C48_meaning : forall r, plain_bound (lower r) -> plain_bound (upper r) ->
  parse_constraint (value_constraint (CSpec (union_of [Between (lower r) false false (upper r)]) (plain_marker (extensible r)))) =
  match range_con (Some r) with Some c => Ok c | None => Err PyIndexError end.
Proof. intros r A B. exact (proj1 (C48_range_partial [] None (lower r) (upper r) (extensible r) A B)). Qed.

(** Concrete cases. *)
Definition num (z : Z) : bound := BNum z.
Definition rng (a b : Z) : element := Between (BNum a) false false (BNum b).
Example C48_range_case : let c := CSpec (union_of [Between (BRef "low") false false BMax]) Marker in
  items c = ["low"; ".."; "MAX"; ","; "..."] /\ read_as (value_constraint c) (BRef "low") BMax true /\
  in_set [ValueA "low" (AInteger None) (LNum (-4))] None (c_root c) 12.
Proof.
  split; [reflexivity|]. split; [reflexivity|]. split; [discriminate|]. exists [Inter (Between (BRef "low") false false BMax) None].
  split; [now left|]. constructor; [|constructor]. split; [|discriminate]. split; [|exact I].
  exists (-4)%Z. split; [|lia]. econstructor. now left.
Qed.
Example C48_union_case : let c := CSpec (union_of [Single (num 1); rng 5 7; Single (num 9)]) NoMarker in
  read_as (size_constraint c) (num 1) (num 9) false /\
  in_set [] (Some 0%Z) (c_root c) 1 /\ in_set [] (Some 0%Z) (c_root c) 9 /\ in_set [] (Some 0%Z) (c_root c) 6 /\
  forall z, in_set [] (Some 0%Z) (c_root c) z -> (1 <= z <= 9)%Z.
Proof.
  split; [reflexivity|].
  assert (forall e z, In e [Single (num 1); rng 5 7; Single (num 9)] -> in_element [] (Some 0%Z) e z -> (0 <= z)%Z ->
          in_set [] (Some 0%Z) (union_of [Single (num 1); rng 5 7; Single (num 9)]) z) as H.
  { intros e z I E G. split; [intros l X; injection X as <-; exact G|]. exists [Inter e None]. split; [now apply (in_map (fun e => [Inter e None]))|].
    constructor; [split; [exact E|discriminate]|constructor]. }
  split; [|split; [|split]].
  - apply (H (Single (num 1))); [now left| |lia]. constructor.
  - apply (H (Single (num 9))); [right; right; now left| |lia]. constructor.
  - apply (H (rng 5 7)); [right; now left| |lia]. split; [exists 5%Z|exists 7%Z]; (split; [constructor|lia]).
  - intros z (_ & i & I & F). cbn [map union_of In] in I.
    destruct I as [<-|[<-|[<-|[]]]]; inversion F as [|? ? [X _] _]; subst; cbn [i_elem in_element rng] in X.
    + inversion X; subst; lia.
    + destruct X as ((w & W & W') & (v & V & V')). inversion W; inversion V; subst; lia.
    + inversion X; subst; lia.
Qed.

(** ** What the claim says and the code does not do *)

(** (1 | 5 | 3): 5 is a value, the class refuses it. *)
Theorem C48_union_order_refuted : exists c lo hi z,
  read_as (value_constraint c) lo hi false /\ c_marker c = NoMarker /\
  in_set [] None (c_root c) z /\ ~ in_range [] None lo hi z.
Proof.
  exists (CSpec (union_of [Single (num 1); Single (num 5); Single (num 3)]) NoMarker), (num 1), (num 3), 5%Z.
  split; [reflexivity|]. split; [reflexivity|]. split.
  - split; [discriminate|]. exists [Inter (Single (num 5)) None]. split; [right; now left|]. constructor; [|constructor].
    split; [constructor|discriminate].
  - intros (_ & _ & w & W & L). inversion W; subst. lia.
Qed.

(** (1 | 5): 3 is no value, the class takes it. *)
Theorem C48_gap_refuted : exists c lo hi z,
  read_as (value_constraint c) lo hi false /\ c_marker c = NoMarker /\
  ~ in_set [] None (c_root c) z /\ in_range [] None lo hi z.
Proof.
  exists (CSpec (union_of [Single (num 1); Single (num 5)]) NoMarker), (num 1), (num 5), 3%Z.
  split; [reflexivity|]. split; [reflexivity|]. split.
  - intros (_ & i & I & F). cbn [map union_of In c_root] in I.
    destruct I as [<-|[<-|[]]]; inversion F as [|? ? [X _] _]; subst; inversion X.
  - split; [discriminate|]. split; [exists 1%Z|exists 5%Z]; (split; [constructor|lia]).
Qed.

(** (1..10 EXCEPT 5): 7 is a value, the class refuses it. *)
Theorem C48_except_refuted : exists c lo hi z,
  read_as (value_constraint c) lo hi false /\ c_marker c = NoMarker /\
  in_set [] None (c_root c) z /\ ~ in_range [] None lo hi z.
Proof.
  exists (CSpec (Union [[Inter (rng 1 10) (Some (Single (num 5)))]]) NoMarker), (num 1), (num 5), 7%Z.
  split; [reflexivity|]. split; [reflexivity|]. split.
  - split; [discriminate|]. exists [Inter (rng 1 10) (Some (Single (num 5)))]. split; [now left|]. constructor; [|constructor].
    split; [split; [exists 1%Z|exists 10%Z]; (split; [constructor|lia])|]. intros e E H. injection E as <-. inversion H.
  - intros (_ & _ & w & W & L). inversion W; subst. lia.
Qed.

(** (1..10 ^ 5..20): 15 is no value, the class takes it; (5..20 ^ 1..10) is refused
    or takes 5..10 by luck. *)
Theorem C48_intersection_refuted : exists c lo hi z,
  read_as (value_constraint c) lo hi false /\ c_marker c = NoMarker /\
  ~ in_set [] None (c_root c) z /\ in_range [] None lo hi z.
Proof.
  exists (CSpec (Union [[Inter (rng 1 10) None; Inter (rng 5 20) None]]) NoMarker), (num 1), (num 20), 15%Z.
  split; [reflexivity|]. split; [reflexivity|]. split.
  - intros (_ & i & [<-|[]] & F). inversion F as [|? ? [X _] _]; subst.
    cbn [i_elem in_element rng up_to] in X. destruct X as (_ & w & W & L). inversion W; subst. lia.
  - split; [discriminate|]. split; [exists 1%Z|exists 20%Z]; (split; [constructor|lia]).
Qed.

(** (1<..<10): 1 is no value, the class takes it, and PER counts from 2. *)
Theorem C48_open_ends_refuted : exists c lo hi z,
  read_as (value_constraint c) lo hi false /\ c_marker c = NoMarker /\
  ~ in_set [] None (c_root c) z /\ in_range [] None lo hi z.
Proof.
  exists (CSpec (union_of [Between (num 1) true true (num 10)]) NoMarker), (num 1), (num 10), 1%Z.
  split; [reflexivity|]. split; [reflexivity|]. split.
  - intros (_ & i & [<-|[]] & F). inversion F as [|? ? [X _] _]; subst.
    cbn [i_elem in_element from num] in X. destruct X as ((w & W & L) & _). inversion W; subst. lia.
  - split; [discriminate|]. split; [exists 1%Z|exists 10%Z]; (split; [constructor|lia]).
Qed.

(** (1..10, ..., 20..30): 25 is no value of the root, the class counts it as one. *)
Theorem C48_additional_refuted : exists c lo hi z,
  read_as (value_constraint c) lo hi true /\ is_marker (c_marker c) = true /\
  ~ in_set [] None (c_root c) z /\ in_range [] None lo hi z.
Proof.
  exists (CSpec (union_of [rng 1 10]) (Additional (union_of [rng 20 30]))), (num 1), (num 30), 25%Z.
  split; [reflexivity|]. split; [reflexivity|]. split.
  - intros (_ & i & [<-|[]] & F). inversion F as [|? ? [X _] _]; subst.
    cbn [i_elem in_element rng up_to] in X. destruct X as (_ & w & W & L). inversion W; subst. lia.
  - split; [discriminate|]. split; [exists 1%Z|exists 30%Z]; (split; [constructor|lia]).
Qed.

(** (SIZE (1..4), ...), the usual form: the marker is lost. *)
Theorem C48_size_marker_refuted : exists c, is_marker (c_marker c) = true /\
  read_as ([Word "SIZE"; Nest (map Word (set_items (c_root c)))] ++ [Word ","; Word "..."]) (num 1) (num 4) false.
Proof. exists (CSpec (union_of [rng 1 4]) Marker). split; reflexivity. Qed.

(** (SIZE (1..4) | SIZE (8..9)): only the first counts. *)
Theorem C48_size_union_refuted :
  read_as [Word "SIZE"; Nest (map Word (set_items (union_of [rng 1 4]))); Word "|";
           Word "SIZE"; Nest (map Word (set_items (union_of [rng 8 9])))] (num 1) (num 4) false.
Proof. reflexivity. Qed.

(** Parentheses inside, ((1..4) | (8..9)): an exception. *)
Theorem C48_nested_refuted : parse_constraint
  [Nest (map Word (set_items (union_of [rng 1 4]))); Word "|"; Nest (map Word (set_items (union_of [rng 8 9])))] = Err PyTypeError.
Proof. reflexivity. Qed.

(** (ALL EXCEPT 5): the class would run from a name ALL. *)
Theorem C48_all_except_refuted :
  parse_constraint (value_constraint (CSpec (AllExcept (Single (num 5))) NoMarker)) = Ok ("ALL", "5", false).
Proof. reflexivity. Qed.
