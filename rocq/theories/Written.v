(** Writing schemas: every schema in the notation of Texts.v has a text (so the
    theorems about texts speak about every such schema), and from the text of a
    schema to the module generated for it. *)

From Coq Require Import ZArith List String Ascii Bool Arith Lia.
Import ListNotations.
From Verif Require Import PyBase Schema Generator Emit Exec Meaning Subtypes Modules Generated Grammar Texts Tokens ReadModules ReadTexts.

Open Scope string_scope.
Open Scope list_scope.
Open Scope nat_scope.

(** * Every schema has a text *)

Definition single (r : range) : bool :=
  match lower r, upper r with BNum a, BNum b => (a =? b)%Z | _, _ => false end.
Definition range_toks (r : range) : list token :=
  bound_toks (lower r) ++
  if single r then if extensible r then [K ","; K "..."] else []
  else K ".." :: bound_toks (upper r) ++ if extensible r then [K ","; K "..."] else [].
Definition values_toks (r : option range) : list token :=
  match r with Some r => K "(" :: range_toks r ++ [K ")"] | None => [] end.
Definition size_toks (r : option range) : list token :=
  match r with Some r => K "(" :: K "SIZE" :: K "(" :: range_toks r ++ [K ")"; K ")"] | None => [] end.
Definition status_toks (s : status) : list token :=
  match s with Mandatory => [] | Optional => [K "OPTIONAL"] | Default l => K "DEFAULT" :: lit_toks l end.

Fixpoint type_toks (t : asn) : list token :=
  let one (p : part asn) := match p with Part n s t => I n :: type_toks t ++ status_toks s end in
  let adds_toks (adds : list (part asn)) (groups : list (list (part asn))) :=
    flat_map (fun p => K "," :: one p) adds ++
    flat_map (fun g => K "," :: K "[[" :: with_mark "," (map one g) ++ [K "]]"]) groups in
  let body (ext : bool) root adds groups :=
    with_mark "," (map one root) ++
    (if ext then (match root with [] => [] | _ => [K ","] end) ++ K "..." :: adds_toks adds groups else []) in
  match t with
  | AInteger r => K "INTEGER" :: values_toks r
  | ABoolean => [K "BOOLEAN"]
  | AOctets r => K "OCTET STRING" :: size_toks r
  | ABitstr r => K "BIT STRING" :: size_toks r
  | AEnumer root adds =>
    K "ENUMERATED" :: K "{" :: with_mark "," (map (fun n => [I n]) root) ++
    match adds with
    | None => []
    | Some l => K "," :: K "..." :: flat_map (fun n => [K ","; I n]) l
    end ++ [K "}"]
  | ASequence ext root adds groups => K "SEQUENCE" :: K "{" :: body ext root adds groups ++ [K "}"]
  | AChoice ext root adds groups => K "CHOICE" :: K "{" :: body ext root adds groups ++ [K "}"]
  | ASeqOf None e => K "SEQUENCE OF" :: type_toks e
  | ASeqOf r e => K "SEQUENCE" :: size_toks r ++ K "OF" :: type_toks e
  | ARef n _ => [R n]
  end.
Definition assignment_toks (a : assignment) : list token :=
  match a with
  | TypeA n t => R n :: K "::=" :: type_toks t
  | ValueA n t v => I n :: type_toks t ++ K "::=" :: lit_toks v
  end.
Definition module_toks (tags : bool) (name : string) (S : schema) : list token :=
  R name :: K "DEFINITIONS" :: (if tags then [K "AUTOMATIC TAGS"] else []) ++ K "::=" :: K "BEGIN" :: flat_map assignment_toks S ++ [K "END"].
(** A blank in front of each item. *)
Fixpoint written (l : list token) : string :=
  match l with [] => "" | t :: r => (" " ++ t_text t ++ written r)%string end.

(** What can be written.  Names are names; a range runs from something that is not
    MAX to something that is not MIN; the lists of X.680 are not empty; components
    of a CHOICE are neither optional nor with a default; no constraint on a
    reference and no reference to a word of the library's own. *)
Definition good_range (r : option range) : Prop :=
  match r with
  | Some r => good_bound (lower r) /\ good_bound (upper r) /\ lower r <> BMax /\ upper r <> BMin
  | None => True
  end.
Definition good_status (choice : bool) (s : status) : Prop :=
  match s with Mandatory => True | Optional => choice = false | Default l => choice = false /\ good_lit l end.
Inductive writable : asn -> Prop :=
| w_integer r : good_range r -> writable (AInteger r)
| w_boolean : writable ABoolean
| w_octets r : good_range r -> writable (AOctets r)
| w_bitstr r : good_range r -> writable (ABitstr r)
| w_enumer root adds : root <> [] -> Forall (fun n => value_word n = true) root ->
    (forall l, adds = Some l -> Forall (fun n => value_word n = true) l) -> writable (AEnumer root adds)
| w_sequence ext root adds groups : Forall (writable_part false) root -> Forall (writable_part false) adds ->
    Forall (fun g => g <> [] /\ Forall (writable_part false) g) groups ->
    (ext = false -> adds = [] /\ groups = []) -> writable (ASequence ext root adds groups)
| w_choice ext root adds groups : root <> [] -> Forall (writable_part true) root -> Forall (writable_part true) adds ->
    Forall (fun g => g <> [] /\ Forall (writable_part true) g) groups ->
    (ext = false -> adds = [] /\ groups = []) -> writable (AChoice ext root adds groups)
| w_seqof r e : good_range r -> writable e -> writable (ASeqOf r e)
| w_ref n : type_word n = true -> ~ In n reserved -> writable (ARef n None)
with writable_part : bool -> part asn -> Prop :=
| w_part choice n s t : value_word n = true -> writable t -> good_status choice s -> writable_part choice (Part n s t).
Definition writable_assignment (a : assignment) : Prop :=
  match a with
  | TypeA n t => type_word n = true /\ writable t /\ (forall m r, t = ARef m r -> ~ In m builtin_types)
  | ValueA n t v => value_word n = true /\ writable t /\ good_lit v
  end.

Lemma range_spells : forall r, good_range (Some r) -> spells_range r (range_toks r).
Proof.
  intros r (A & C & D' & E). unfold range_toks. destruct (single r) eqn:SG; [|now apply sp_range]. unfold single in SG.
  destruct (lower r) as [| |a|] eqn:L; try discriminate. destruct (upper r) as [| |b|] eqn:U; try discriminate. apply Z.eqb_eq in SG as ->.
  rewrite <- L. apply sp_single; rewrite ?L; congruence || exact A.
Qed.
Lemma values_spells : forall r, good_range r -> spells_values r (values_toks r).
Proof. intros [r|] G; constructor. now apply range_spells. Qed.
Lemma size_spells : forall r, good_range r -> spells_size r (size_toks r).
Proof. intros [r|] G; constructor. now apply range_spells. Qed.
Lemma status_spells : forall choice s, good_status choice s -> spells_status s (status_toks s) /\ (choice = true -> s = Mandatory).
Proof. intros choice [| |l] G; cbn [good_status status_toks] in *; (split; [constructor; tauto|]); intros E; subst; try reflexivity; [discriminate|now destruct G]. Qed.
Lemma names_spell : forall n ns, Forall (fun n => value_word n = true) (n :: ns) -> spells_names (n :: ns) (with_mark "," (map (fun n => [I n]) (n :: ns))).
Proof.
  intros n ns. revert n. induction ns as [|m ns IH]; intros n F; inversion F as [|? ? W FS]; subst; [now constructor|].
  change (with_mark "," (map (fun n => [I n]) (n :: m :: ns))) with (I n :: K "," :: with_mark "," (map (fun n => [I n]) (m :: ns))). constructor; auto.
Qed.

Definition one_toks (p : part asn) : list token := match p with Part n s t => I n :: type_toks t ++ status_toks s end.
Lemma marks_more : forall x y l, with_mark "," (x :: y :: l) = x ++ K "," :: with_mark "," (y :: l).
Proof. reflexivity. Qed.

Section Bodies.
Variable choice : bool.
Lemma parts_spell : forall p ps, Forall (fun p => spells_part choice p (one_toks p)) (p :: ps) -> spells_parts choice (p :: ps) (with_mark "," (map one_toks (p :: ps))).
Proof.
  intros p ps. revert p. induction ps as [|q ps IH]; intros p F; inversion F as [|? ? P PS]; subst; [now constructor|].
  cbn [map]. rewrite marks_more. constructor; [exact P|]. now apply IH.
Qed.
Lemma adds_spell : forall adds groups, Forall (fun p => spells_part choice p (one_toks p)) adds ->
  Forall (fun g => g <> [] /\ Forall (fun p => spells_part choice p (one_toks p)) g) groups ->
  spells_adds choice adds groups (flat_map (fun p => K "," :: one_toks p) adds ++
    flat_map (fun g => K "," :: K "[[" :: with_mark "," (map one_toks g) ++ [K "]]"]) groups).
Proof.
  intros adds groups FA FG. induction FA as [|p adds P FA IH].
  - cbn [flat_map app]. induction FG as [|g groups [N G] FG IH]; [constructor|]. cbn [flat_map]. cbn [app]. rewrite <- app_assoc. cbn [app].
    constructor; [|exact IH]. destruct g as [|p ps]; [congruence|]. now apply parts_spell.
  - cbn [flat_map app]. rewrite <- app_assoc. now constructor.
Qed.
End Bodies.

Section Ind.
Variable P : asn -> Prop.
Hypothesis HI : forall r, good_range r -> P (AInteger r).
Hypothesis HB : P ABoolean.
Hypothesis HO : forall r, good_range r -> P (AOctets r).
Hypothesis HBS : forall r, good_range r -> P (ABitstr r).
Hypothesis HE : forall root adds, root <> [] -> Forall (fun n => value_word n = true) root ->
    (forall l, adds = Some l -> Forall (fun n => value_word n = true) l) -> P (AEnumer root adds).
Definition Q (choice : bool) (p : part asn) : Prop :=
  match p with Part n s t => value_word n = true /\ P t /\ good_status choice s end.
Hypothesis HS : forall ext root adds groups, Forall (Q false) root -> Forall (Q false) adds ->
    Forall (fun g => g <> [] /\ Forall (Q false) g) groups -> (ext = false -> adds = [] /\ groups = []) -> P (ASequence ext root adds groups).
Hypothesis HC : forall ext root adds groups, root <> [] -> Forall (Q true) root -> Forall (Q true) adds ->
    Forall (fun g => g <> [] /\ Forall (Q true) g) groups -> (ext = false -> adds = [] /\ groups = []) -> P (AChoice ext root adds groups).
Hypothesis HSO : forall r e, good_range r -> P e -> P (ASeqOf r e).
Hypothesis HR : forall n, type_word n = true -> ~ In n reserved -> P (ARef n None).

Fixpoint writable_all (t : asn) (w : writable t) {struct w} : P t :=
  let part (c : bool) (p : part asn) (w : writable_part c p) : Q c p :=
    match w with w_part c n s t vw wt gr => conj vw (conj (writable_all t wt) gr) end in
  let parts (c : bool) := fix parts (l : list (Meaning.part asn)) (fa : Forall (writable_part c) l) : Forall (Q c) l :=
    match fa with Forall_nil _ => Forall_nil _ | Forall_cons p x y => Forall_cons p (part c p x) (parts _ y) end in
  let groups (c : bool) := fix groups (l : list (list (Meaning.part asn))) (fa : Forall (fun g => g <> [] /\ Forall (writable_part c) g) l) :
      Forall (fun g => g <> [] /\ Forall (Q c) g) l :=
    match fa with
    | Forall_nil _ => Forall_nil _
    | Forall_cons g x y => Forall_cons g (match x with conj na fb => conj na (parts c g fb) end) (groups _ y)
    end in
  match w with
  | w_integer r gr => HI r gr
  | w_boolean => HB
  | w_octets r gr => HO r gr
  | w_bitstr r gr => HBS r gr
  | w_enumer root adds ne fo gr => HE root adds ne fo gr
  | w_sequence ext root adds gs f1 f2 f3 ee => HS ext root adds gs (parts false _ f1) (parts false _ f2) (groups false _ f3) ee
  | w_choice ext root adds gs ne f1 f2 f3 ee => HC ext root adds gs ne (parts true _ f1) (parts true _ f2) (groups true _ f3) ee
  | w_seqof r e gr wt => HSO r e gr (writable_all e wt)
  | w_ref n tw nr => HR n tw nr
  end.
End Ind.

Lemma adds_names : forall n l, [K ","; I n] ++ flat_map (fun n => [K ","; I n]) l = K "," :: with_mark "," (map (fun n => [I n]) (n :: l)).
Proof.
  intros n l. revert n. induction l as [|m l IH]; intros n; [reflexivity|].
  cbn [flat_map]. rewrite IH. reflexivity.
Qed.

Theorem written_type : forall t, writable t -> spells_type t (type_toks t).
Proof.
  assert (forall choice p, Q (fun t => spells_type t (type_toks t)) choice p -> spells_part choice p (one_toks p)) as QP.
  { intros choice [n s t] (V & ST & G). destruct (status_spells choice s G) as [SS C]. cbn [one_toks]. now constructor. }
  assert (forall choice l, Forall (Q (fun t => spells_type t (type_toks t)) choice) l -> Forall (fun p => spells_part choice p (one_toks p)) l) as QL.
  { intros choice l F. eapply Forall_impl; [|exact F]. apply QP. }
  assert (forall choice l, Forall (fun g => g <> [] /\ Forall (Q (fun t => spells_type t (type_toks t)) choice) g) l ->
            Forall (fun g => g <> [] /\ Forall (fun p => spells_part choice p (one_toks p)) g) l) as QG.
  { intros choice l F. eapply Forall_impl; [|exact F]. intros g [N G]. split; [exact N|now apply QL]. }
  apply writable_all.
  - intros r G. apply (sp_integer r []); [constructor|now apply values_spells].
  - constructor.
  - intros r G. constructor. now apply size_spells.
  - intros r G. apply (sp_bitstr r []); [constructor|now apply size_spells].
  - intros root adds N F G. destruct root as [|n ns]; [congruence|]. pose proof (names_spell n ns F) as SN. cbn [type_toks].
    destruct adds as [[|m ms]|].
    + cbn [flat_map app]. now apply sp_enumer_open.
    + specialize (G _ eq_refl). cbn [flat_map]. change ([K ","; I m] ++ ?x) with ([K ","; I m] ++ x). rewrite adds_names. cbn [app].
      apply sp_enumer_adds; [exact SN|now apply names_spell].
    + cbn [app]. now apply sp_enumer.
  - intros ext root adds groups FR FA FG E. destruct root as [|p root].
    + destruct ext.
      * change (type_toks (ASequence true [] adds groups)) with (K "SEQUENCE" :: K "{" :: ([K "..."] ++ (flat_map (fun p => K "," :: one_toks p) adds ++
          flat_map (fun g => K "," :: K "[[" :: with_mark "," (map one_toks g) ++ [K "]]"]) groups)) ++ [K "}"]). rewrite <- app_assoc. cbn [app].
        apply sp_sequence_open. apply adds_spell; auto.
      * destruct (E eq_refl) as [-> ->]. apply sp_sequence_empty.
    + destruct ext.
      * change (type_toks (ASequence true (p :: root) adds groups)) with (K "SEQUENCE" :: K "{" :: (with_mark "," (map one_toks (p :: root)) ++
          K "," :: K "..." :: (flat_map (fun p => K "," :: one_toks p) adds ++
          flat_map (fun g => K "," :: K "[[" :: with_mark "," (map one_toks g) ++ [K "]]"]) groups)) ++ [K "}"]).
        apply sp_sequence, sp_open; [apply parts_spell; auto|apply adds_spell; auto].
      * destruct (E eq_refl) as [-> ->].
        change (type_toks (ASequence false (p :: root) [] [])) with (K "SEQUENCE" :: K "{" :: (with_mark "," (map one_toks (p :: root)) ++ []) ++ [K "}"]).
        rewrite app_nil_r. apply sp_sequence, sp_closed, parts_spell; auto.
  - intros ext root adds groups N FR FA FG E. destruct root as [|p root]; [congruence|]. destruct ext.
      * change (type_toks (AChoice true (p :: root) adds groups)) with (K "CHOICE" :: K "{" :: (with_mark "," (map one_toks (p :: root)) ++
          K "," :: K "..." :: (flat_map (fun p => K "," :: one_toks p) adds ++
          flat_map (fun g => K "," :: K "[[" :: with_mark "," (map one_toks g) ++ [K "]]"]) groups)) ++ [K "}"]).
        apply sp_choice, sp_open; [apply parts_spell; auto|apply adds_spell; auto].
      * destruct (E eq_refl) as [-> ->].
        change (type_toks (AChoice false (p :: root) [] [])) with (K "CHOICE" :: K "{" :: (with_mark "," (map one_toks (p :: root)) ++ []) ++ [K "}"]).
        rewrite app_nil_r. apply sp_choice, sp_closed, parts_spell; auto.
  - intros r e G SE. destruct r as [r|]; [|now constructor].
    change (type_toks (ASeqOf (Some r) e)) with (K "SEQUENCE" :: size_toks (Some r) ++ K "OF" :: type_toks e). constructor; [now apply size_spells|exact SE].
  - intros n W NR. now constructor.
Qed.

Theorem written_module : forall tags name S, type_word name = true -> Forall writable_assignment S -> spells S (module_toks tags name S).
Proof.
  intros tags name S W F. apply (sp_module tags name S (flat_map assignment_toks S) W). clear W. induction F as [|a S WA F IH]; cbn [flat_map]; constructor; [|exact IH].
  destruct a as [n t|n t v]; cbn [assignment_toks]; destruct WA as (V & WT & X); constructor; auto using written_type.
Qed.

(** Its items are items. *)
Definition propers (l : list token) : Prop := Forall (fun t => proper t = true) l.
Lemma propers_app : forall a b, propers a -> propers b -> propers (a ++ b).
Proof. intros a b A C. apply Forall_app. now split. Qed.
Lemma propers_cons : forall t l, proper t = true -> propers l -> propers (t :: l).
Proof. intros t l P L. now constructor. Qed.

Lemma digits_uint : forall u, all_chars is_digit (DecimalString.NilEmpty.string_of_uint u) = true.
Proof. induction u as [|u IH|u IH|u IH|u IH|u IH|u IH|u IH|u IH|u IH|u IH]; [reflexivity|..]; exact IH. Qed.
Lemma digits_num : forall z, (0 <= z)%Z -> starts is_digit (num_text z) && all_chars is_digit (num_text z) = true.
Proof.
  intros z N. unfold num_text. assert (exists u, Z.to_int z = Decimal.Pos u) as (u & ->).
  { destruct z as [|p|p]; [eexists; reflexivity|eexists; reflexivity|lia]. }
  cbn [DecimalString.NilZero.string_of_int]. destruct u as [|u|u|u|u|u|u|u|u|u|u]; [reflexivity|..];
    (cbn [DecimalString.NilZero.string_of_uint DecimalString.NilEmpty.string_of_uint starts all_chars]; rewrite digits_uint; reflexivity).
Qed.
Lemma proper_num : forall z, propers (num_toks z).
Proof.
  intros z. unfold num_toks. destruct (Z.ltb_spec z 0) as [L|L].
  - apply propers_cons; [reflexivity|]. apply propers_cons; [|constructor]. apply digits_num. lia.
  - apply propers_cons; [|constructor]. apply digits_num. lia.
Qed.
Lemma cat_chars : forall (A : Type) (f : ascii -> bool) (g : A -> string) l, Forall (fun a => all_chars f (g a) = true) l -> all_chars f (cat (map g l)) = true.
Proof.
  intros A f g l F. assert (forall x y, all_chars f (x ++ y) = all_chars f x && all_chars f y) as AC.
  { intros x y. induction x as [|c x IH]; [reflexivity|]. cbn [append all_chars]. rewrite IH. now rewrite andb_assoc. }
  induction F as [|a l P F IH]; [reflexivity|]. change (cat (map g (a :: l))) with (g a ++ cat (map g l))%string. now rewrite AC, P, IH.
Qed.
Lemma hex_char : forall d, (0 <= d < 16)%Z -> all_chars is_hex (hex_text d) = true.
Proof.
  intros d R'. assert (d = 0 \/ d = 1 \/ d = 2 \/ d = 3 \/ d = 4 \/ d = 5 \/ d = 6 \/ d = 7 \/ d = 8 \/ d = 9 \/ d = 10 \/ d = 11 \/ d = 12 \/ d = 13 \/ d = 14 \/ d = 15)%Z as C by lia.
  repeat (destruct C as [->|C]; [reflexivity|]). subst. reflexivity.
Qed.
Lemma proper_lit : forall v, good_lit v -> propers (lit_toks v).
Proof.
  intros [z|b|s|h|n|n] G; cbn [lit_toks good_lit] in *.
  - apply proper_num.
  - destruct b; repeat constructor.
  - apply propers_cons; [|constructor]. cbn [proper]. apply cat_chars. apply Forall_forall. intros b _. destruct b; reflexivity.
  - apply propers_cons; [|constructor]. cbn [proper]. apply cat_chars. eapply Forall_impl; [|exact G]. apply hex_char.
  - now apply propers_cons; [|constructor].
  - now apply propers_cons; [|constructor].
Qed.
Lemma proper_bound : forall b, good_bound b -> propers (bound_toks b).
Proof.
  intros [| |z|n] G; cbn [bound_toks good_bound] in *; [repeat constructor|repeat constructor|apply proper_num|now apply propers_cons; [|constructor]].
Qed.
Ltac prop := repeat first [assumption | apply Forall_nil | (apply propers_app) | (apply propers_cons; [reflexivity || assumption|]) ].
Lemma proper_range : forall r l, spells_range r l -> propers l.
Proof.
  intros r l SP. destruct SP as [r GL GU _ _|r GL _ _ _].
  - apply propers_app; [now apply proper_bound|]. apply propers_cons; [reflexivity|]. apply propers_app; [now apply proper_bound|]. destruct (extensible r); prop.
  - apply propers_app; [now apply proper_bound|]. destruct (extensible r); prop.
Qed.
Lemma proper_values : forall r l, spells_values r l -> propers l.
Proof. intros r l SP. destruct SP as [|r l SR]; prop. now apply (proper_range r). Qed.
Lemma proper_size : forall r l, spells_size r l -> propers l.
Proof. intros r l SP. destruct SP as [|r l SR]; prop. now apply (proper_range r). Qed.
Lemma proper_names : forall ns l, spells_names ns l -> propers l.
Proof. intros ns l SP. induction SP; prop. Qed.
Lemma proper_marked : forall bits l, spells_marked bits l -> propers l.
Proof.
  assert (forall bits l, spells_mark bits l -> propers l) as PM.
  { intros bits l M. destruct M as [bits n z W _|n m W W']; prop. now apply (proper_bound (BNum z)). }
  intros bits l SM. destruct SM as [bits|bits l SM]; prop. induction SM as [bits l M|bits l l' M SM IH]; prop; eauto.
Qed.
Lemma proper_status : forall s l, spells_status s l -> propers l.
Proof. intros s l SP. destruct SP; prop. now apply proper_lit. Qed.

Theorem proper_type : forall t l, spells_type t l -> propers l.
Proof.
  apply (ReadBodies.type_mut (fun _ l => propers l) (fun _ _ l => propers l) (fun _ _ l => propers l) (fun _ _ _ l => propers l) (fun _ _ _ _ _ l => propers l));
    intros; prop; eauto using proper_values, proper_size, proper_names, proper_status, proper_marked.
Qed.
Lemma proper_module : forall S l, spells S l -> propers l.
Proof.
  intros S l SP. destruct SP as [tags n S l W SA]. assert (propers l) as PL.
  { induction SA as [|a S l l' A SA IH]; [constructor|]. apply propers_app; [|exact IH]. destruct A as [m t l W' ST _|m t v l W' ST GL]; prop.
    - now apply (proper_type t).
    - now apply (proper_type t).
    - now apply proper_lit. }
  destruct tags; cbn [app]; prop.
Qed.
Lemma written_laid : forall l, propers l -> laid l (written l) "".
Proof.
  intros l P. induction P as [|t l PT P IH]; [now constructor|]. cbn [written]. apply laid_cons; auto; [reflexivity|]. intros _. destruct l; reflexivity.
Qed.

(** What is written is a text of the schema, so reading it gives the schema back, as
    objects. *)
Lemma written_text : forall tags name S, type_word name = true -> Forall writable_assignment S ->
  text_of S (written (module_toks tags name S)) "".
Proof.
  intros tags name S W F. exists (module_toks tags name S). pose proof (written_module tags name S W F) as SP. split; [exact SP|].
  now apply written_laid, (proper_module S).
Qed.
Theorem C50_written_partial : forall tags name S, type_word name = true -> Forall writable_assignment S ->
  exists r n0, forall n, n0 <= n -> parse_module n (written (module_toks tags name S)) = Match r (map parsed_as S).
Proof. intros tags name S W F. exact (C50_reading_partial S _ "" (written_text tags name S W F)). Qed.

(** * From the text to the module *)

(** For the text of a schema in the fragment of C49, with comments and blanks as one
    likes, the library reads the schema, generates a module, the module runs, and
    every name is bound to what it means. *)
Theorem C50_text_to_module_partial : forall S s t r, strip s t -> plain_lines s -> text_of S t r -> fine_schema S -> sortable S ->
  exists r' n0 objects out g, (forall n, n0 <= n -> read_schema n s = Match r' objects) /\
    emit objects = Ok out /\ Exec.run out = Ok g /\
    (forall n t, In (TypeA n t) S -> exists T, means S t T /\ binds g (underscore n) T) /\
    (forall n t l, In (ValueA n t l) S -> exists T v, lookup (underscore n) g = Some (OInst T v) /\ lit_is S t l v).
Proof.
  intros S s t r ST P T FS SS. destruct (C50_comments_partial S s t r ST P T) as (r' & n0 & RD). destruct (C49_modules_partial S FS SS) as (out & g & X).
  exists r', n0, (map parsed_as S), out, g. split; [exact RD|exact X].
Qed.
