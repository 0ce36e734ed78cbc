(** Generated modules (C49): the statements the generator writes for a schema, run
    in order, bind every name of the schema to what the schema says.  Modules.v
    has this for one class; here are the order, the templates already written and
    the statements in front of a class. *)

From Coq Require Import ZArith List String Ascii Bool Arith Lia Permutation.
Import ListNotations.
From Verif Require Import PyBase Schema Generator Emit Exec Meaning Modules Ordering GoldenSchemas
  FineCheck.

Open Scope string_scope.
Open Scope list_scope.
Open Scope nat_scope.

(** * The text of a class starts with its name *)

Fixpoint to_paren (s : string) : string :=
  match s with
  | EmptyString => EmptyString
  | String c r => if Ascii.eqb c "("%char then EmptyString else String c (to_paren r)
  end.
Definition text_name (s : string) : string := to_paren (substring 6 (String.length s) s).

Definition no_paren (s : string) : Prop := all_chars (fun c => negb (Ascii.eqb c "("%char)) s = true.

Lemma to_paren_append n r : no_paren n -> to_paren (append n (String "("%char r)) = n.
Proof.
  unfold no_paren. induction n as [|c n IH]; intros H; [reflexivity|]. cbn [append to_paren all_chars] in *.
  apply andb_true_iff in H as [A B]. destruct (Ascii.eqb c "("); [discriminate|]. now rewrite IH.
Qed.

Lemma substring_whole s : substring 0 (String.length s) s = s.
Proof. induction s as [|c s IH]; [reflexivity|]. cbn [String.length substring]. now rewrite IH. Qed.
Lemma substring_more s : forall n, String.length s <= n -> substring 0 n s = s.
Proof.
  induction s as [|c s IH]; intros n H; [now destruct n|]. cbn [String.length] in H. destruct n; [lia|].
  cbn [substring]. rewrite IH by lia. reflexivity.
Qed.

Lemma text_name_is n r : no_paren n -> text_name (append "class " (append n (append "(" r))) = n.
Proof.
  intros H. unfold text_name. cbn [append substring]. rewrite substring_more by (cbn [String.length]; lia).
  now apply to_paren_append.
Qed.

Lemma class_text_name c : no_paren (class_id c) -> text_name (class_text c) = class_id c.
Proof.
  intros H. destruct c; cbn [class_text class_id] in *; cbn [cat]; now apply text_name_is.
Qed.

Lemma py_name_no_paren s : py_name s = true -> no_paren s.
Proof.
  intros H. unfold py_name in H. destruct s as [|c r]; [discriminate|]. unfold no_paren. cbn [all_chars].
  apply andb_true_iff in H as [H _]. apply andb_true_iff in H as [A B]. apply andb_true_iff. split.
  - destruct (Ascii.eqb_spec c "("); [subst; discriminate|reflexivity].
  - revert B. apply all_chars_impl. intros x X. destruct (Ascii.eqb_spec x "("); [subst; discriminate|reflexivity].
Qed.

Section OneSchema.
Variable S : schema.
Hypothesis FS : fine_schema S.

(** * States and statements *)

Definition lib_text (x : string) : Prop := exists c, x = class_text c /\ In (class_id c) leaf_refs.

Definition grown (st st' : gstate) : Prop :=
  types st' = types st /\ consts st' = consts st /\ incl (filled st) (filled st') /\
  forall x, In x (filled st') -> In x (filled st) \/ lib_text x.

Lemma grown_refl st : grown st st.
Proof. split; [reflexivity|]. split; [reflexivity|]. split; [apply incl_refl|auto]. Qed.
Lemma grown_trans a b c : grown a b -> grown b c -> grown a c.
Proof.
  intros (A1 & A2 & A3 & A4) (B1 & B2 & B3 & B4). split; [congruence|]. split; [congruence|].
  split; [eapply incl_tran; eassumption|]. intros x X. apply B4 in X as [X|X]; auto.
Qed.

(** [class IntegerType(IntegerType): pass] and [T = T]. *)
Inductive idle (t : asn) : stmt -> Prop :=
| idle_class n : In n leaf_refs -> idle t (SClass (CLeaf n n None))
| idle_alias n tm : refers t n -> In (TypeA n tm) S -> idle t (SAlias (underscore n) (underscore n)).

Definition same_space (a b : space) : Prop := forall n, lookup n a = lookup n b.
Lemma same_refl a : same_space a a. Proof. intros n. reflexivity. Qed.
Lemma same_trans a b c : same_space a b -> same_space b c -> same_space a c.
Proof. intros A B n. now rewrite A. Qed.

Lemma exec_app g a b : exec g (a ++ b) = let* g' := exec g a in exec g' b.
Proof.
  revert g. induction a as [|s a IH]; intros g; [reflexivity|]. cbn [app exec].
  destruct (exec_stmt g s) as [g'|]; [|reflexivity]. cbn [bind]. apply IH.
Qed.

Lemma same_library a b : same_space a b -> has_library b -> has_library a.
Proof. intros E L n o H. rewrite E. now apply L. Qed.

Lemma idle_one t s g : idle t s -> has_library g -> (forall n, refers t n -> lookup (underscore n) g <> None) ->
  exists g', exec_stmt g s = Ok g' /\ same_space g' g.
Proof.
  intros I L K. destruct I as [n I|n tm R I].
  - cbn [exec_stmt exec_class class_id].
    assert (exists k attrs, lookup n library = Some (OClass k attrs) /\ py_name n = true) as (k & attrs & LB & PN).
    { destruct I as [<-|[<-|[<-|[<-|[]]]]]; eexists _, _; split; reflexivity. }
    unfold base_class. rewrite (lib_resolve [] g n _ (Forall_nil _) L LB). cbn [bind spec_own app].
    unfold bound_to. rewrite PN. eexists. split; [reflexivity|]. intros x. cbn [lookup].
    destruct (String.eqb_spec x n) as [->|]; [|reflexivity]. symmetry. now apply L.
  - cbn [exec_stmt]. unfold resolve. cbn [lookup]. specialize (K n R).
    destruct (lookup (underscore n) g) as [o|] eqn:E; [|contradiction]. cbn [bind].
    destruct (own_ref_type S FS n tm I) as (_ & _ & _ & _ & PN & _). unfold bound_to. rewrite PN.
    eexists. split; [reflexivity|]. intros x. cbn [lookup].
    destruct (String.eqb_spec x (underscore n)) as [->|]; [now symmetry|reflexivity].
Qed.

Lemma exec_idle t l g : Forall (idle t) l -> has_library g -> (forall n, refers t n -> lookup (underscore n) g <> None) ->
  exists g', exec g l = Ok g' /\ same_space g' g.
Proof.
  intros F. revert g. induction F as [|s l I F IH]; intros g L K.
  - exists g. split; [reflexivity|apply same_refl].
  - destruct (idle_one t s g I L K) as (g1 & E1 & S1).
    destruct (IH g1) as (g2 & E2 & S2).
    + now apply (same_library g1 g).
    + intros n H. rewrite S1. now apply K.
    + exists g2. cbn [exec]. rewrite E1. cbn [bind]. split; [exact E2|]. now apply (same_trans _ g1).
Qed.

(** * What [fill] does for a type *)

Definition tidy (st : gstate) : Prop := types st = table S /\ consts st = [].

Lemma no_value tr id s t : value_of (built tr id s t) = None.
Proof. destruct t; reflexivity. Qed.

Lemma class_name_type n t : In (TypeA n t) S -> class_name (parsed_as (TypeA n t)) = underscore n.
Proof.
  intros I. destruct (own_ref_type S FS n t I) as (_ & _ & _ & _ & _ & E).
  destruct t; cbn [parsed_as]; unfold class_name; rewrite built_ident; try rewrite built_typeref; try rewrite E; reflexivity.
Qed.

Lemma parsed_not_ref n t : not_ref t -> parsed_as (TypeA n t) = built n "" Mandatory t.
Proof. now destruct t. Qed.

Lemma type_fine n t : In (TypeA n t) S -> fine S t.
Proof. intros I. now apply (fine_types S FS) in I as (_ & _ & F). Qed.

Lemma forall2_left {A B} (R : A -> B -> Prop) l cs a : Forall2 R l cs -> In a l -> exists b, R a b.
Proof. induction 1; intros []; [subst; eauto|auto]. Qed.

Lemma means_known t T : means S t T -> known S t.
Proof.
  intros M m R. revert T M R.
  induction t as [r| |r|r|root adds|ext root adds groups IH|ext root adds groups IH|r e IH|n r] using asn_rect'; intros T M R;
    inversion R as [|? ? ? R1|? ? ? ? p ? IP R1|? ? ? ? p ? IP R1]; subst.
  - inversion M as [| | | | | |? ? ? ? root' adds' groups' MR MA MG| | | |]; subst.
    assert (Forall2 (part_means S) (all_parts root adds groups) (all_comps root' adds' groups')) as MM.
    { unfold all_parts, all_comps. apply Forall2_app; [exact MR|]. apply Forall2_app; [exact MA|]. now apply forall2_concat. }
    destruct (forall2_left _ _ _ p MM IP) as (c & PM). destruct PM. now apply (IH _ IP T).
  - inversion M as [| | | | | | |? ? ? ? root' adds' groups' MR MA MG| | |]; subst.
    assert (Forall2 (part_means S) (all_parts root adds groups) (all_comps root' adds' groups')) as MM.
    { unfold all_parts, all_comps. apply Forall2_app; [exact MR|]. apply Forall2_app; [exact MA|]. now apply forall2_concat. }
    destruct (forall2_left _ _ _ p MM IP) as (c & PM). destruct PM. now apply (IH _ IP T).
  - inversion M; subst. eapply IH; eassumption.
  - inversion M; subst; eauto.
Qed.

Lemma types_known n t : In (TypeA n t) S -> known S t.
Proof. intros I. destruct (fine_means S FS n t I) as (T & M). now apply (means_known t T). Qed.

(** The class of a type assignment. *)
Lemma type_class n t : In (TypeA n t) S -> not_ref t ->
  exists l c, inline (table S) [] (parsed_as (TypeA n t)) = Ok (l, c) /\ class_id c = underscore n /\ Forall (tame S) l /\
              text_name (class_text c) = underscore n.
Proof.
  intros I NR. pose proof (class_name_type n t I) as CN. rewrite (parsed_not_ref n t NR) in *.
  destruct (inline_ok S FS t n "" Mandatory NR (type_fine n t I) (types_known n t I)) as (l & c & E & ID & F).
  exists l, c. split; [exact E|]. rewrite CN in ID. split; [exact ID|]. split; [exact F|].
  destruct (own_ref_type S FS n t I) as (_ & _ & _ & _ & PN & _).
  rewrite class_text_name, ID; [reflexivity|]. rewrite ID. now apply py_name_no_paren.
Qed.

(** One call of [fill], by the class [inline] makes. *)
Definition rest (k : nat) (st : gstate) (l : list ptype) (t : asn) : res (gstate * list stmt) :=
  match t with
  | ASeqOf _ e => if mem (own_ref e) leaf_refs then Ok (st, []) else fill k st (built (own_ref e) "" Mandatory e)
  | ASequence _ _ _ _ | AChoice _ _ _ _ =>
    fold_left (fun acc q =>
                 let* (st', l) := acc in
                 if match default_of q with Some _ => true | None => false end
                    || Emit.known (typeref q) (types st') then Ok (st', l)
                 else let* (st'', l') := fill k st' q in Ok (st'', l ++ l')) l (Ok (st, []))
  | _ => Ok (st, [])
  end.

Lemma fill_class k st tr id s t l c : not_ref t -> inline (types st) (consts st) (built tr id s t) = Ok (l, c) ->
  fill (Datatypes.S k) st (built tr id s t) =
  if mem (class_text c) (filled st) then Ok (st, [])
  else let* (st', e) := rest k (put_text st c) l t in Ok (st', e ++ [SClass c]).
Proof.
  intros NR IL. cbn [fill]. rewrite built_kind, no_value.
  destruct t as [r| |r|r|root adds|ext root adds groups|ext root adds groups|r e|n r]; cbn [kind_of rest].
  1-4: match type of IL with inline _ _ ?p = _ =>
         assert (c = leaf_class p) as -> by (change (Ok ([], leaf_class p) = Ok (l, c)) in IL; congruence) end;
       unfold once; destruct (mem _ _); reflexivity.
  - assert (c = enum_class (built tr id s (AEnumer root adds))) as ->
      by (change (Ok ([], enum_class (built tr id s (AEnumer root adds))) = Ok (l, c)) in IL; congruence).
    unfold once; destruct (mem _ _); reflexivity.
  - rewrite IL. cbn [bind]. destruct (mem _ _); reflexivity.
  - rewrite IL. cbn [bind]. destruct (mem _ _); reflexivity.
  - change (inline (types st) (consts st) (built tr id s (ASeqOf r e)))
      with (let* (x, y) := seqof_class (built tr id s (ASeqOf r e)) in Ok ([x], y)) in IL.
    assert (exists d, seqof_class (built tr id s (ASeqOf r e)) = Ok (built (own_ref e) "" Mandatory e, d)) as (d & E)
      by (eexists; reflexivity).
    rewrite E in IL |- *. cbn [bind] in IL |- *. injection IL as <- ->. rewrite built_typeref.
    destruct (mem (class_text c) _); [reflexivity|]. destruct (mem (own_ref e) leaf_refs); reflexivity.
  - destruct NR.
Qed.

Lemma fill_done k st n t l c : tidy st -> not_ref t ->
  inline (table S) [] (parsed_as (TypeA n t)) = Ok (l, c) -> In (class_text c) (filled st) ->
  fill (Datatypes.S k) st (parsed_as (TypeA n t)) = Ok (st, []).
Proof.
  intros [T C] NR IL IN. apply in_mem in IN. rewrite (parsed_not_ref n t NR) in *.
  rewrite (fill_class k st n "" Mandatory t l c NR) by (rewrite T, C; exact IL). now rewrite IN.
Qed.

Lemma known_type m tm st : In (TypeA m tm) S -> tidy st -> Emit.known m (types st) = true.
Proof.
  intros I [-> _]. unfold Emit.known. apply in_mem. apply in_map_iff. pose proof (table_type S FS m tm I) as L.
  apply lookup_in in L. eexists. split; [|exact L]. reflexivity.
Qed.

Lemma leaf_not_known e st : is_leaf e = true -> tidy st -> Emit.known (own_ref e) (types st) = false.
Proof.
  intros L [-> _]. unfold Emit.known.
  assert (lookup (own_ref e) (table S) = None) as N.
  { destruct e; try discriminate; apply (table_lib S FS); discriminate. }
  apply not_in_mem. revert N. generalize (table S). induction l as [|(x, p) r IH]; [intros _ []|]. cbn [lookup map fst].
  destruct (String.eqb_spec (own_ref e) x) as [->|N]; [discriminate|]. intros H [E|I]; [now apply N|]. now apply IH.
Qed.

Lemma tidy_grown st st' : tidy st -> grown st st' -> tidy st'.
Proof. intros [A B] (C & D & _). split; congruence. Qed.

Lemma leaf_elem e : is_leaf e = true -> own_class e = false ->
  leaf_class (built (own_ref e) "" Mandatory e) = CLeaf (own_ref e) (own_ref e) None /\ In (own_ref e) leaf_refs.
Proof.
  intros L O. destruct e as [[]| |[]|[]| | | | |]; try discriminate; (split; [reflexivity|]); apply in_mem; reflexivity.
Qed.

Lemma fill_leaf_elem k t st e : is_leaf e = true -> own_class e = false ->
  exists st' x, fill (Datatypes.S k) st (built (own_ref e) "" Mandatory e) = Ok (st', x) /\ grown st st' /\ Forall (idle t) x.
Proof.
  intros L O. destruct (leaf_elem e L O) as [E I].
  assert (not_ref e) as NR by (now destruct e).
  assert (inline (types st) (consts st) (built (own_ref e) "" Mandatory e) = Ok ([], CLeaf (own_ref e) (own_ref e) None)) as IL.
  { rewrite <- E. destruct e; try discriminate; reflexivity. }
  rewrite (fill_class k st _ _ _ e _ _ NR IL). destruct (mem _ _).
  - exists st, []. split; [reflexivity|]. split; [apply grown_refl|constructor].
  - assert (rest k (put_text st (CLeaf (own_ref e) (own_ref e) None)) [] e = Ok (put_text st (CLeaf (own_ref e) (own_ref e) None), [])) as ->
      by (destruct e; try discriminate; reflexivity).
    cbn [bind app]. eexists _, _. split; [reflexivity|]. split.
    + split; [reflexivity|]. split; [reflexivity|]. split; [intros x X; now right|]. intros x [<-|X]; [|now left].
      right. eexists. split; [reflexivity|exact I].
    + constructor; [|constructor]. now constructor.
Qed.

Definition has_text (st : gstate) (m : string) : Prop :=
  forall tm, In (TypeA m tm) S -> not_ref tm ->
  exists l c, inline (table S) [] (parsed_as (TypeA m tm)) = Ok (l, c) /\ In (class_text c) (filled st).

Lemma fill_ref k st m d : lookup m (types st) = Some d ->
  fill (Datatypes.S k) st (built m "" Mandatory (ARef m None)) =
  match pkind d with
  | KDefined => Ok (st, [SAlias (field_type (built m "" Mandatory (ARef m None))) (class_name d)])
  | _ => fill k st d
  end.
Proof.
  intros L. cbn [fill]. rewrite built_kind. cbn [kind_of]. rewrite built_typeref, L, no_value, built_ident. reflexivity.
Qed.

Lemma fill_alias k st n m d : lookup m (types st) = Some d -> String.eqb n "" = false -> String.eqb m "" = false ->
  fill (Datatypes.S k) st (built m n Mandatory (ARef m None)) = Ok (st, [SAlias (underscore n) (underscore m)]).
Proof.
  intros L N M. cbn [fill]. rewrite built_kind. cbn [kind_of]. rewrite built_typeref, L, no_value, built_ident, N, M. reflexivity.
Qed.

Lemma rest_ok k st t l : not_ref t -> fine S t -> known S t -> tidy st -> Forall (tame S) l ->
  (forall m, refers t m -> has_text st m) ->
  exists st' e, rest (Datatypes.S (Datatypes.S k)) st l t = Ok (st', e) /\ grown st st' /\ Forall (idle t) e.
Proof.
  intros NR F K T A D.
  assert (exists st' e, fold_left (fun acc q =>
                 let* (st', l) := acc in
                 if match default_of q with Some _ => true | None => false end
                    || Emit.known (typeref q) (types st') then Ok (st', l)
                 else let* (st'', l') := fill (Datatypes.S (Datatypes.S k)) st' q in Ok (st'', l ++ l')) l (Ok (st, [])) = Ok (st', e)
            /\ grown st st' /\ Forall (idle t) e) as C.
  { assert (Forall (idle t) []) as I0 by constructor. revert I0. generalize (@nil stmt) as x. clear D. revert st T.
    induction A as [|q l Q A IH]; intros st T x I0; cbn [fold_left].
    - exists st, x. split; [reflexivity|]. split; [apply grown_refl|exact I0].
    - destruct Q as [(m & tm & n & s & I & ->)|(e & L & O & ->)].
      + cbn [bind]. rewrite built_typeref, (known_type m tm st I T), orb_true_r. now apply IH.
      + cbn [bind]. rewrite built_typeref, (leaf_not_known e st L T).
        assert (default_of (built (own_ref e) "" Mandatory e) = None) as -> by (destruct e; reflexivity). cbn [orb].
        destruct (fill_leaf_elem (Datatypes.S k) t st e L O) as (st1 & y & -> & G & IY). cbn [bind].
        destruct (IH st1 (tidy_grown _ _ T G) (x ++ y)) as (st2 & z & E & G2 & IZ); [now apply Forall_app|].
        exists st2, z. split; [exact E|]. split; [now apply (grown_trans _ st1)|exact IZ]. }
  destruct t as [r| |r|r|root adds|ext root adds groups|ext root adds groups|r e|n r]; cbn [rest]; try exact C;
    try (exists st, []; split; [reflexivity|split; [apply grown_refl|constructor]]).
  destruct (mem (own_ref e) leaf_refs) eqn:M.
  { exists st, []; split; [reflexivity|split; [apply grown_refl|constructor]]. }
  inversion F as [| | | | | | |? ? F1 F2 F3|]; subst.
  destruct e as [[]| |[]|[]| | | | |m r']; cbn [fine_element] in F2; try contradiction; try discriminate.
  assert (r' = None) as -> by now inversion F3.
  assert (refers (ASeqOf r (ARef m None)) m) as R by (constructor; constructor).
  destruct (K m R) as (tm & I). specialize (D m R tm I).
  cbn [own_ref]. rewrite (fill_ref _ st m (parsed_as (TypeA m tm))) by (rewrite (proj1 T); now apply table_type).
  rewrite parsed_kind.
  destruct (match tm with ARef _ _ => true | _ => false end) eqn:Q.
  - destruct tm as [| | | | | | | |m' r'']; try discriminate. cbn [kind_of].
    assert (field_type (built m "" Mandatory (ARef m None)) = underscore m) as ->.
    { unfold field_type. rewrite built_typeref. destruct (own_ref_type S FS m _ I) as (_ & _ & _ & _ & _ & ->). reflexivity. }
    rewrite (class_name_type m _ I). eexists _, _. split; [reflexivity|]. split; [apply grown_refl|].
    constructor; [|constructor]. now econstructor; [exact R|exact I].
  - assert (not_ref tm) as NT by (destruct tm; try exact Logic.I; discriminate).
    destruct (D NT) as (l' & c & IL & IN). rewrite (fill_done k st m tm l' c T NT IL IN).
    exists st, []. split; [now destruct tm|split; [apply grown_refl|constructor]].
Qed.

(** * All types *)

Record inv (done : list string) (st : gstate) (g : space) : Prop := Inv {
  i_tidy : tidy st;
  i_lib : has_library g;
  i_vals : bound_values S g;
  i_done : forall m, In m done -> bound_type S g m /\ has_text st m;
  i_known : forall m, In m done -> exists t, In (TypeA m t) S;
  i_filled : forall x, In x (filled st) -> lib_text x \/ exists m, In m done /\ text_name x = underscore m
}.

Lemma type_names_inj m n tm tn : In (TypeA m tm) S -> In (TypeA n tn) S -> underscore m = underscore n -> m = n.
Proof.
  intros M N E. apply (fine_types S FS) in M as (M & _). apply (fine_types S FS) in N as (N & _).
  apply underscore_inj; try assumption; now apply type_word_plain.
Qed.

Lemma lib_text_name x : lib_text x -> In (text_name x) leaf_refs.
Proof.
  intros (c & -> & I). rewrite class_text_name; [exact I|].
  destruct I as [<-|[<-|[<-|[<-|[]]]]]; reflexivity.
Qed.

Lemma leaf_refs_library n : In n leaf_refs -> lookup n library <> None.
Proof. intros [<-|[<-|[<-|[<-|[]]]]]; discriminate. Qed.

(** A new name of a type. *)
Lemma add_type g g0 n t o : In (TypeA n t) S -> same_space g0 g -> has_library g -> bound_values S g ->
  has_library ((underscore n, o) :: g0) /\ bound_values S ((underscore n, o) :: g0) /\
  (forall m, m <> n -> bound_type S g m -> bound_type S ((underscore n, o) :: g0) m) /\
  (forall m, lookup m ((underscore n, o) :: g0) = if String.eqb m (underscore n) then Some o else lookup m g).
Proof.
  intros I E L V. destruct (own_ref_type S FS n t I) as (H & _ & _ & NL & _).
  assert (forall m, lookup m ((underscore n, o) :: g0) = if String.eqb m (underscore n) then Some o else lookup m g) as LK.
  { intros m. cbn [lookup]. now rewrite E. }
  split; [|split; [|split; [|exact LK]]].
  - intros m x M. rewrite LK. destruct (String.eqb_spec m (underscore n)) as [->|]; [congruence|now apply L].
  - intros m tm l M. rewrite LK. destruct (String.eqb_spec (underscore m) (underscore n)) as [Q|]; [|now apply V].
    apply (fine_values S FS) in M as (VW & _). exfalso. apply (low_not_high (underscore m)); [now apply value_word_low|now rewrite Q].
  - intros m D (tm & x & M & LM & G). exists tm, x. split; [exact M|]. split; [|exact G]. rewrite LK.
    destruct (String.eqb_spec (underscore m) (underscore n)) as [Q|]; [|exact LM]. elim D. now apply (type_names_inj m n tm t).
Qed.

Lemma same_values a b : same_space a b -> bound_values S b -> bound_values S a.
Proof. intros E V n t l I. rewrite E. now apply V. Qed.
Lemma same_type_bound a b m : same_space a b -> bound_type S b m -> bound_type S a m.
Proof. intros E (tm & o & I & L & G). exists tm, o. rewrite E. auto. Qed.

Lemma type_step k done st g n t : In (TypeA n t) S -> ~ In n done -> (forall m, refers t m -> In m done) -> inv done st g ->
  exists st' l g', fill (Datatypes.S (Datatypes.S (Datatypes.S k))) st (parsed_as (TypeA n t)) = Ok (st', l) /\
                   exec g l = Ok g' /\ inv (n :: done) st' g'.
Proof.
  intros I ND R [T L V D K F]. destruct (own_ref_type S FS n t I) as (_ & _ & _ & NL & PN & NE).
  assert (forall m, refers t m -> bound_type S g m) as RB by (intros m M; now apply D, R).
  destruct (match t with ARef _ _ => true | _ => false end) eqn:Q.
  - destruct t as [| | | | | | | |m r]; try discriminate. assert (r = None) as -> by (pose proof (type_fine _ _ I) as X; now inversion X).
    destruct (RB m (refers_here m None)) as (tm & o & IM & LM & G).
    destruct (own_ref_type S FS m tm IM) as (_ & _ & _ & _ & _ & NM).
    destruct (add_type g g n (ARef m None) o I (same_refl g) L V) as (L' & V' & B' & LK).
    exists st, [SAlias (underscore n) (underscore m)], ((underscore n, o) :: g). split; [|split].
    + cbn [parsed_as]. apply (fill_alias _ st n m (parsed_as (TypeA m tm))); try assumption. rewrite (proj1 T). now apply table_type.
    + cbn [exec exec_stmt]. unfold resolve. cbn [lookup]. rewrite LM. cbn [bind]. unfold bound_to. rewrite PN. reflexivity.
    + constructor; try assumption.
      * intros x [<-|X].
        -- split.
           ++ exists (ARef m None), o. split; [exact I|]. split; [rewrite LK; now rewrite String.eqb_refl|].
              intros T0 M. inversion M as [| | | | | | | | |? ? ? IM' M'|]; subst. rewrite (same_type S FS _ _ _ IM IM') in *.
              eapply good_ref; eauto.
           ++ intros tx IX NX. rewrite (same_type S FS _ _ _ IX I) in NX. destruct NX.
        -- destruct (D x X) as [DB DT]. split; [|exact DT]. apply B'; [intros ->; now apply ND|exact DB].
      * intros x [<-|X]; [eauto|auto].
      * intros x X. apply F in X as [X|(y & Y & E)]; [now left|right]. exists y. split; [now right|exact E].
  - assert (not_ref t) as NR by (destruct t; try exact Logic.I; discriminate).
    destruct (type_class n t I NR) as (l & c & IL & ID & TM & TN).
    assert (mem (class_text c) (filled st) = false) as NF.
    { apply not_in_mem. intros X. apply F in X as [X|(m & M & E)].
      - apply lib_text_name in X. rewrite TN in X. now apply leaf_refs_library in X.
      - rewrite TN in E. destruct (K m M) as (tm & IM). apply ND. now rewrite (type_names_inj _ _ _ _ I IM E). }
    assert (tidy (put_text st c)) as T1 by exact T.
    destruct (rest_ok k (put_text st c) t l NR (type_fine n t I) (types_known n t I) T1 TM) as (st' & e & RE & G & IE).
    { intros m M tm IM NM. destruct (D m (R m M)) as [_ DT]. destruct (DT tm IM NM) as (l' & c' & A & B). exists l', c'. split; [exact A|]. now right. }
    destruct (exec_idle t e g IE L) as (g0 & E0 & S0).
    { intros m M. destruct (RB m M) as (tm & o & _ & LM & _). congruence. }
    destruct (fine_means S FS n t I) as (T0 & M0).
    assert (exists o, exec_class [] g0 c = Ok o /\ forall T, means S t T -> Modules.good S t T o) as (o & EC & GO).
    { assert (forall T, means S t T -> exists o, exec_class [] g0 c = Ok o /\ Modules.good S t T o) as EX.
      { intros T' M'. rewrite (parsed_not_ref n t NR) in IL.
        apply (exec_ok S FS g0 (same_library _ _ S0 L) (same_values _ _ S0 V) t n "" Mandatory T' l c NR (type_fine n t I) M');
          [|exact IL|constructor]. intros m M. eapply same_type_bound; [exact S0|now apply RB]. }
      destruct (EX T0 M0) as (o & EC & _). exists o. split; [exact EC|]. intros T' M'. destruct (EX T' M') as (o' & EC' & G').
      congruence. }
    destruct (add_type g g0 n t o I S0 L V) as (L' & V' & B' & LK).
    exists st', (e ++ [SClass c]), ((underscore n, o) :: g0). split; [|split].
    + rewrite (parsed_not_ref n t NR) in IL |- *. rewrite (fill_class _ st n "" Mandatory t l c NR) by (rewrite (proj1 T), (proj2 T); exact IL).
      rewrite NF, RE. reflexivity.
    + rewrite exec_app, E0. cbn [bind exec exec_stmt]. rewrite EC. cbn [bind]. unfold bound_to. rewrite ID, PN. reflexivity.
    + assert (incl (filled (put_text st c)) (filled st')) as IN by (now destruct G as (_ & _ & G & _)).
      constructor; try assumption.
      * now apply (tidy_grown (put_text st c)).
      * intros x [<-|X].
        -- split.
           ++ exists t, o. split; [exact I|]. split; [rewrite LK; now rewrite String.eqb_refl|exact GO].
           ++ intros tx IX NX. rewrite (same_type S FS _ _ _ IX I) in *. exists l, c. split; [exact IL|]. apply IN. now left.
        -- destruct (D x X) as [DB DT]. split.
           ++ apply B'; [intros ->; now apply ND|exact DB].
           ++ intros tx IX NX. destruct (DT tx IX NX) as (l' & c' & A & B). exists l', c'. split; [exact A|]. apply IN. now right.
      * intros x [<-|X]; [eauto|auto].
      * intros x X. destruct G as (_ & _ & _ & G). apply G in X as [[<-|X]|X]; [|apply F in X as [X|(y & Y & E)]; [now left|]|now left].
        -- right. exists n. split; [now left|exact TN].
        -- right. exists y. split; [now right|exact E].
Qed.

Fixpoint ready (done : list string) (l : list (string * asn)) : Prop :=
  match l with
  | [] => True
  | (n, t) :: r => In (TypeA n t) S /\ ~ In n done /\ (forall m, refers t m -> In m done) /\ ready (n :: done) r
  end.
Definition type_of (e : string * asn) : assignment := TypeA (fst e) (snd e).

Lemma types_all k l : forall done st g, ready done l -> inv done st g ->
  exists st' out g', fill_all (Datatypes.S (Datatypes.S (Datatypes.S k))) st (map (fun e => parsed_as (type_of e)) l) = Ok (st', out) /\
                     exec g out = Ok g' /\ inv (rev (map fst l) ++ done) st' g'.
Proof.
  induction l as [|(n, t) l IH]; intros done st g R I.
  - exists st, [], g. split; [reflexivity|]. split; [reflexivity|exact I].
  - destruct R as (A & B & C & D). destruct (type_step k done st g n t A B C I) as (st1 & l1 & g1 & F1 & E1 & I1).
    destruct (IH (n :: done) st1 g1 D I1) as (st2 & l2 & g2 & F2 & E2 & I2).
    exists st2, (l1 ++ l2), g2. split; [|split].
    + cbn [map fill_all]. unfold type_of at 1. cbn [fst snd]. rewrite F1. cbn [bind]. rewrite F2. reflexivity.
    + rewrite exec_app, E1. exact E2.
    + cbn [map rev fst]. rewrite <- app_assoc. exact I2.
Qed.

(** * Values *)

Definition value_of3 (e : string * asn * lit) : assignment := let '(n, t, l) := e in ValueA n t l.
Definition name_of3 (e : string * asn * lit) : string := let '(n, _, _) := e in n.

Lemma lit_new g t l v : has_library g -> builtin_value t -> (forall m, l <> LRef m) -> (forall r, t = AOctets r -> l <> LBin []) ->
  lit_is S t l v ->
  exists a T, parse_value (kind_of t) (ARaw (lit_text l)) = Some a /\ new [] g (own_ref t) (Some a) = Ok (T, v) /\
              String.eqb (lit_text l) "" = false.
Proof.
  intros GL B NR NO L.
  assert (forall k T attrs a x, lookup (own_ref t) library = Some (OClass k attrs) -> class_ty k attrs = Ok T ->
            parse_value (kind_of t) (ARaw (lit_text l)) = Some a -> eval_arg [] g a = Ok x -> make k attrs T x = Ok v ->
            String.eqb (lit_text l) "" = false ->
            exists a T, parse_value (kind_of t) (ARaw (lit_text l)) = Some a /\ new [] g (own_ref t) (Some a) = Ok (T, v) /\
              String.eqb (lit_text l) "" = false) as H.
  { intros k T attrs a x LB CT P E M NE. exists a, T. split; [exact P|]. split; [|exact NE]. unfold new.
    rewrite (lib_resolve [] g (own_ref t) _ (Forall_nil _) GL LB). cbn [bind]. rewrite CT. cbn [bind].
    rewrite E. cbn [bind]. rewrite M. reflexivity. }
  destruct t as [r| |r|r| | | | |]; cbn [builtin_value] in B; try contradiction; cbn [own_ref kind_of lib_name] in *.
  - inversion L as [? z| | | | | | |n ? ? ? ? ? ? ?|]; subst; [|exfalso; now apply (NR n)].
    eapply (H LInt (TInt CNone) _ (ARaw (num_text z)) (PNum z)); try reflexivity.
    + cbn [eval_arg]. now rewrite num_text_literal.
    + apply num_text_nonempty.
  - inversion L as [|b| | | | | |n ? ? ? ? ? ? ?|]; subst; [|exfalso; now apply (NR n)].
    eapply (H LBool TBool _ (ABool b) (PBool b)); try reflexivity; destruct b; reflexivity.
  - inversion L as [| | | |? s q bs Q F E|? h q bs Q F E| |n ? ? ? ? ? ? ?|]; subst; [| |exfalso; now apply (NR n)].
    + eapply (H LOcts (TOcts CNone) _ _ (PBin (quoted (cat (map bin_text s))))); try reflexivity; [apply parse_bin; now left|reflexivity|].
      cbn [make]. rewrite bin_digits_text. cbn [bind]. rewrite (from_binary_eq s q bs); try assumption; [reflexivity|].
      intros ->. now apply (NO r).
    + assert (Forall (fun d => 0 <= d < 16)%Z h) as D.
      { pose proof (halves_digits bs F) as D. rewrite E in D. now apply Forall_app in D. }
      eapply (H LOcts (TOcts CNone) _ _ (PHex (quoted (cat (map hex_text h))))); try reflexivity; [apply parse_hex; now left|reflexivity|].
      cbn [make]. rewrite (hex_digits_text h D). cbn [bind]. rewrite (from_hex_halves (List.length bs) h q bs) by (try assumption; lia).
      reflexivity.
  - inversion L as [| |? s|? h D| | | |n ? ? ? ? ? ? ?|]; subst; [| |exfalso; now apply (NR n)].
    + eapply (H LBits (TBits CNone) _ _ (PBin (quoted (cat (map bin_text s))))); try reflexivity; [apply parse_bin; now right|reflexivity|].
      cbn [make]. rewrite bin_digits_text. reflexivity.
    + eapply (H LBits (TBits CNone) _ _ (PHex (quoted (cat (map hex_text h))))); try reflexivity; [apply parse_hex; now right|reflexivity|].
      cbn [make]. rewrite (hex_digits_text h D). reflexivity.
Qed.

Definition bound_to_values (g : space) (l : list (string * asn * lit)) : Prop :=
  forall n t x, In (n, t, x) l -> exists T v, lookup (underscore n) g = Some (OInst T v) /\ lit_is S t x v.

Lemma fill_value k st n t l a : In (ValueA n t l) S -> parse_value (kind_of t) (ARaw (lit_text l)) = Some a ->
  String.eqb (lit_text l) "" = false ->
  fill (Datatypes.S k) st (parsed_as (ValueA n t l)) = Ok (st, [SValue (underscore n) (own_ref t) a]).
Proof.
  intros I P NE. apply (fine_values S FS) in I as (_ & _ & B & _).
  destruct t; cbn [builtin_value] in B; try contradiction; cbn [parsed_as built fill pkind kind_of]; unfold value_of; cbn [pvalue pkind kind_of];
    cbn [kind_of] in P; rewrite ?NE, P; reflexivity.
Qed.

Lemma value_names_inj n m t l t' l' : In (ValueA n t l) S -> In (ValueA m t' l') S -> underscore n = underscore m -> n = m.
Proof.
  intros N M E. apply (fine_values S FS) in N as (N & _). apply (fine_values S FS) in M as (M & _).
  apply underscore_inj; try assumption; now apply value_word_plain.
Qed.

Lemma values_all k st l : forall done g, (forall e, In e (l ++ done) -> In (value_of3 e) S) ->
  has_library g -> bound_to_values g done ->
  exists out g', fill_all (Datatypes.S k) st (map (fun e => parsed_as (value_of3 e)) l) = Ok (st, out) /\
                 exec g out = Ok g' /\ has_library g' /\ bound_to_values g' (rev l ++ done).
Proof.
  induction l as [|((n, t), x) l IH]; intros done g IN L B.
  - exists [], g. split; [reflexivity|]. split; [reflexivity|]. split; assumption.
  - assert (In (ValueA n t x) S) as I by (apply (IN (n, t, x)); now left).
    destruct (fine_values S FS n t x I) as (VW & NK & BV & NR & NO & v & LV).
    destruct (lit_new g t x v L BV NR NO LV) as (a & T & P & NW & NE).
    assert (py_name (underscore n) = true) as PN by now apply value_py_name.
    destruct (IH ((n, t, x) :: done) ((underscore n, OInst T v) :: g)) as (out & g' & F & E & L' & B').
    + intros e H. apply IN. apply in_app_iff in H as [H|[<-|H]]; [right; apply in_app_iff; now left|now left|right; apply in_app_iff; now right].
    + intros m o M. cbn [lookup]. destruct (String.eqb_spec m (underscore n)) as [->|]; [|now apply L].
      exfalso. apply library_high in M. apply (low_not_high (underscore n)); [now apply value_word_low|exact M].
    + intros m tm xm [Q|M].
      * injection Q as <- <- <-. cbn [lookup]. rewrite String.eqb_refl. eauto.
      * cbn [lookup]. destruct (String.eqb_spec (underscore m) (underscore n)) as [Q|]; [|now apply B].
        assert (In (ValueA m tm xm) S) as IM by (apply (IN (m, tm, xm)); right; apply in_app_iff; now right).
        assert (n = m) by (symmetry; eapply value_names_inj; eassumption). subst m.
        assert (ValueA n tm xm = ValueA n t x) as X by (eapply (same_assignment S FS); [exact IM|exact I|reflexivity]).
        injection X as -> ->. eauto.
    + exists (SValue (underscore n) (own_ref t) a :: out), g'. split; [|split; [|split]].
      * cbn [map fill_all]. unfold value_of3 at 1. rewrite (fill_value k st n t x a I P NE). cbn [bind]. rewrite F. reflexivity.
      * cbn [exec exec_stmt]. rewrite NW. cbn [bind]. unfold bound_to. rewrite PN. exact E.
      * exact L'.
      * cbn [rev]. rewrite <- app_assoc. exact B'.
Qed.

(** * The module *)

Definition binds_all (g : space) : Prop :=
  (forall n t, In (TypeA n t) S -> forall T, means S t T ->
     exists o, lookup (underscore n) g = Some o /\ Modules.good S t T o) /\
  (forall n t l, In (ValueA n t l) S -> exists T v, lookup (underscore n) g = Some (OInst T v) /\ lit_is S t l v).
Lemma good_binds g n t T : (exists o, lookup n g = Some o /\ Modules.good S t T o) -> binds g n T.
Proof. intros (o & L & k & a & -> & C & _). exists k, a. now split. Qed.

Lemma fill_all_app k l r st : fill_all k st (l ++ r) =
  let* (st1, a) := fill_all k st l in let* (st2, b) := fill_all k st1 r in Ok (st2, a ++ b).
Proof.
  revert st. induction l as [|p l IH]; intros st; cbn [app fill_all].
  - cbn [bind]. destruct (fill_all k st r) as [[]|]; reflexivity.
  - destruct (fill k st p) as [[st1 a]|]; [|reflexivity]. cbn [bind]. rewrite IH.
    destruct (fill_all k st1 l) as [[st2 b]|]; [|reflexivity]. cbn [bind].
    destruct (fill_all k st2 r) as [[st3 c]|]; [|reflexivity]. cbn [bind]. now rewrite app_assoc.
Qed.

(** In any order with the values in front and no type before one it refers to. *)
Lemma ordered_module k vs ts : (forall a, In a S <-> In a (map value_of3 vs) \/ In a (map type_of ts)) -> ready [] ts ->
  1 <= k -> (ts <> [] -> 3 <= k) ->
  exists st out g, fill_all k (G [] (table S) [])
                     (map parsed_as (map value_of3 vs ++ map type_of ts)) = Ok (st, out) /\
                   run out = Ok g /\ binds_all g.
Proof.
  intros M R K1 K3. destruct k as [|k]; [lia|].
  destruct (values_all k (G [] (table S) []) vs [] library) as (o1 & g1 & F1 & E1 & L1 & B1).
  { intros e I. rewrite app_nil_r in I. apply M. left. now apply in_map. }
  { intros n o H. exact H. }
  { intros n t x []. }
  assert (bound_values S g1) as V1.
  { intros n t l I. apply M in I as [I|I]; apply in_map_iff in I as (e & E & I).
    - destruct e as ((n', t'), l'). injection E as -> -> ->. apply B1. apply in_app_iff. left. now apply in_rev in I.
    - discriminate. }
  assert (inv [] (G [] (table S) []) g1) as I1
    by (constructor; try assumption; [split; reflexivity|intros m []|intros m []|intros x []]).
  assert (exists st out g', fill_all (Datatypes.S k) (G [] (table S) []) (map (fun e => parsed_as (type_of e)) ts) = Ok (st, out) /\
            exec g1 out = Ok g' /\ inv (rev (map fst ts) ++ []) st g') as (st & o2 & g2 & F2 & E2 & [T2 L2 V2 D2 K2 _]).
  { destruct ts as [|e ts].
    - exists (G [] (table S) []), [], g1. split; [reflexivity|]. split; [reflexivity|exact I1].
    - destruct k as [|[|k]]; [specialize (K3 ltac:(discriminate)); lia|specialize (K3 ltac:(discriminate)); lia|]. now apply types_all. }
  exists st, (o1 ++ o2), g2. split; [|split; [|split]].
  - rewrite map_app, fill_all_app, !map_map, F1. cbn [bind]. rewrite F2. reflexivity.
  - unfold run. rewrite exec_app, E1. exact E2.
  - intros n t I T MT. assert (In n (rev (map fst ts) ++ [])) as IN.
    { rewrite app_nil_r, <- in_rev. apply M in I as [I|I]; apply in_map_iff in I as (e & E & I).
      - destruct e as ((n', t'), l'). discriminate.
      - destruct e as (n', t'). injection E as -> ->. exact (in_map fst _ _ I). }
    destruct (D2 n IN) as ((tn & o & I' & LO & GO) & _). rewrite (same_type S FS _ _ _ I' I) in *.
    exists o. split; [exact LO|]. now apply GO.
  - exact V2.
Qed.

(** * Sorting *)

Lemma in_tokens ext root adds groups p : (ext = false -> adds = [] /\ groups = []) ->
  In p (all_parts root adds groups) -> In (inr (part_ptype p)) (tokens ext root adds groups).
Proof.
  intros X I. unfold tokens. apply in_or_app. apply in_all_parts in I as [I|[I|(g & G & I)]].
  - left. apply in_map_iff. now exists p.
  - right. destruct ext; [|destruct (X eq_refl) as [-> _]; destruct I]. right. apply in_or_app. left. apply in_map_iff. now exists p.
  - right. destruct ext; [|destruct (X eq_refl) as [_ ->]; destruct G]. right. apply in_or_app. right.
    apply in_flat_map. exists g. split; [exact G|]. right. apply in_or_app. left. apply in_map_iff. now exists p.
Qed.

Lemma tokens_in ext root adds groups q : In (inr q) (tokens ext root adds groups) ->
  exists p, In p (all_parts root adds groups) /\ q = part_ptype p.
Proof.
  unfold tokens, all_parts. intros I. apply in_app_or in I as [I|I].
  - apply in_map_iff in I as (p & E & I). injection E as <-. exists p. split; [|reflexivity]. apply in_or_app. now left.
  - destruct ext; [|destruct I]. destruct I as [I|I]; [discriminate|]. apply in_app_or in I as [I|I].
    + apply in_map_iff in I as (p & E & I). injection E as <-. exists p. split; [|reflexivity]. apply in_or_app. right. apply in_or_app. now left.
    + apply in_flat_map in I as (l & G & I). destruct I as [I|I]; [discriminate|]. apply in_app_or in I as [I|[I|[]]]; [|discriminate].
      apply in_map_iff in I as (p & E & I). injection E as <-. exists p. split; [|reflexivity].
      apply in_or_app. right. apply in_or_app. right. apply in_concat. now exists l.
Qed.

(** The components of a structured type, as notation and as objects. *)
Definition inner (t : asn) (e : asn) (id : string) (s : status) : Prop :=
  match t with
  | ASequence _ root adds groups | AChoice _ root adds groups =>
    exists p, In p (all_parts root adds groups) /\ e = p_type p /\ id = p_name p /\ s = p_status p
  | ASeqOf _ e' => e = e' /\ id = "" /\ s = Mandatory
  | _ => False
  end.

Lemma inner_members tr id s t q : In (inr q) (members (built tr id s t)) ->
  exists e id' s', inner t e id' s' /\ q = built (own_ref e) id' s' e.
Proof.
  intros I. destruct t as [r| |r|r|root adds|ext root adds groups|ext root adds groups|r e|n r].
  1-4: destruct I.
  - exfalso. cbn [built members] in I. apply in_app_or in I as [I|I].
    + apply in_map_iff in I as (x & E & _). discriminate.
    + destruct adds as [l|]; [|destruct I]. destruct I as [I|I]; [discriminate|]. apply in_map_iff in I as (x & E & _). discriminate.
  - rewrite (proj1 (built_tokens ext root adds groups tr id s)) in I. apply tokens_in in I as (p & I & ->).
    exists (p_type p), (p_name p), (p_status p). split; [|reflexivity]. exists p. auto.
  - rewrite (proj2 (built_tokens ext root adds groups tr id s)) in I. apply tokens_in in I as (p & I & ->).
    exists (p_type p), (p_name p), (p_status p). split; [|reflexivity]. exists p. auto.
  - cbn [built members] in I. destruct I as [I|[]]. exists e, "", Mandatory. split; [cbn; auto|]. congruence.
  - destruct I.
Qed.

Lemma members_inner tr id s t e id' s' : fine S t -> inner t e id' s' -> In (inr (built (own_ref e) id' s' e)) (members (built tr id s t)).
Proof.
  intros F I. destruct t as [r| |r|r|root adds|ext root adds groups|ext root adds groups|r e'|n r]; cbn [inner] in I; try contradiction.
  - rewrite (proj1 (built_tokens ext root adds groups tr id s)). destruct I as (p & I & -> & -> & ->).
    inversion F; subst. now apply in_tokens.
  - rewrite (proj2 (built_tokens ext root adds groups tr id s)). destruct I as (p & I & -> & -> & ->).
    inversion F; subst. now apply in_tokens.
  - destruct I as (-> & -> & ->). now left.
Qed.

Lemma inner_refers t e id s m : inner t e id s -> refers e m -> refers t m.
Proof.
  destruct t; cbn [inner]; try contradiction.
  - intros (p & I & -> & _) R. econstructor; eassumption.
  - intros (p & I & -> & _) R. econstructor; eassumption.
  - intros (-> & _) R. now constructor.
Qed.
Lemma refers_inner t m : reference t = false -> refers t m -> structure t = true /\ exists e id s, inner t e id s /\ refers e m.
Proof.
  intros NR R. destruct R as [n r|r e m R|ext root adds groups p m I R|ext root adds groups p m I R]; [discriminate| | |];
    (split; [reflexivity|]); cbn [inner].
  - exists e, "", Mandatory. auto.
  - exists (p_type p), (p_name p), (p_status p). split; [|exact R]. exists p. auto.
  - exists (p_type p), (p_name p), (p_status p). split; [|exact R]. exists p. auto.
Qed.
Lemma inner_fine t e id s : fine S t -> inner t e id s -> fine S e.
Proof.
  intros F I. destruct F as [| | | | |ext root adds groups F| ext root adds groups F| |]; cbn [inner] in I; try contradiction.
  - destruct I as (p & I & -> & _). apply (proj1 (Forall_forall _ _) F p) in I. now destruct I.
  - destruct I as (p & I & -> & _). apply (proj1 (Forall_forall _ _) F p) in I. now destruct I.
  - now destruct I as (-> & _).
Qed.

(** Induction over the components. *)
Lemma inner_ind (P : asn -> Prop) : (forall t, (forall e id s, inner t e id s -> P e) -> P t) -> forall t, P t.
Proof.
  intros H t. induction t as [r| |r|r|root adds|ext root adds groups IH|ext root adds groups IH|r e IH|n r] using asn_rect';
    apply H; cbn [inner]; try contradiction.
  - intros e id s (p & I & -> & _). now apply IH.
  - intros e id s (p & I & -> & _). now apply IH.
  - intros e' id s (-> & _). exact IH.
Qed.

Lemma built_structured tr id s t : structured (built tr id s t) = structure t.
Proof. unfold structured. rewrite built_kind. now destruct t. Qed.

Lemma built_parsed : forall t tr id s, parsed (built tr id s t).
Proof.
  induction t as [t IH] using inner_ind. intros tr id s. constructor.
  - intros q I K. apply inner_members in I as (e & id' & s' & _ & ->). rewrite built_kind in *. rewrite built_typeref.
    destruct e; cbn [own_ref kind_of] in *; try (now left). congruence.
  - intros q I. apply inner_members in I as (e & id' & s' & I & ->). now apply (IH e id' s').
Qed.

Lemma refers_uses : forall t tr id s m, fine S t -> reference t = false -> refers t m -> uses (built tr id s t) m.
Proof.
  induction t as [t IH] using inner_ind. intros tr id s m F NR R.
  destruct (refers_inner t m NR R) as (_ & e & id' & s' & I & RE).
  pose proof (members_inner tr id s t e id' s' F I) as M. destruct (reference e) eqn:RF.
  - destruct e; try discriminate. inversion RE; subst. cbn [own_ref] in M.
    replace m with (typeref (built m id' s' (ARef m r))) at 1 by apply built_typeref.
    apply uses_ref; [exact M|]. now rewrite built_kind.
  - apply (uses_inline _ _ _ M).
    + rewrite built_structured. now apply (refers_inner e m RF).
    + apply (IH e id' s' I); try assumption. now apply (inner_fine t e id' s').
Qed.

Lemma uses_refers : forall t tr id s m, uses (built tr id s t) m -> refers t m.
Proof.
  induction t as [t IH] using inner_ind. intros tr id s m U. inversion U as [p q I K|p q r I SQ U']; subst;
    apply inner_members in I as (e & id' & s' & I & ->).
  - rewrite built_kind in K. rewrite built_typeref. destruct e; try discriminate. cbn [own_ref].
    apply (inner_refers t _ _ _ _ I). constructor.
  - apply (inner_refers t _ _ _ _ I). now apply (IH e id' s' I) in U'.
Qed.

(** ** The sorted list *)

Lemma parsed_structured n t : structured (parsed_as (TypeA n t)) = structure t.
Proof. unfold structured. rewrite parsed_kind. now destruct t. Qed.

Lemma parsed_typeref n t : reference t = false -> typeref (parsed_as (TypeA n t)) = n.
Proof. destruct t; try discriminate; intros _; apply built_typeref. Qed.
Lemma parsed_valref n t : valref (parsed_as (TypeA n t)) = "".
Proof. destruct t; reflexivity. Qed.

Lemma value_simple n t l : In (ValueA n t l) S ->
  is_simple (parsed_as (ValueA n t l)) = true /\ structured (parsed_as (ValueA n t l)) = false /\
  valref (parsed_as (ValueA n t l)) = underscore n /\ pkind (parsed_as (ValueA n t l)) <> KPlain /\
  pkind (parsed_as (ValueA n t l)) <> KDefined.
Proof.
  intros I. apply (fine_values S FS) in I as (_ & _ & B & _). destruct t; cbn [builtin_value] in B; try contradiction;
    (split; [reflexivity|split; [reflexivity|split; [reflexivity|split; discriminate]]]).
Qed.

Lemma parsed_inj a b : In a S -> In b S -> parsed_as a = parsed_as b -> a = b.
Proof.
  intros A B E. destruct a as [n t|n t l], b as [m u|m u k].
  - apply (same_assignment S FS); try assumption. cbn [name_of].
    destruct (parsed_key S FS n t A) as [K _]. destruct (parsed_key S FS m u B) as [K' _]. rewrite E in K. congruence.
  - exfalso. destruct (parsed_key S FS n t A) as [_ V]. rewrite E, (value_has_value S FS m u k B) in V. discriminate.
  - exfalso. destruct (parsed_key S FS m u B) as [_ V]. rewrite <- E, (value_has_value S FS n t l A) in V. discriminate.
  - apply (same_assignment S FS); try assumption. cbn [name_of]. eapply value_names_inj; [exact A|exact B|].
    destruct (value_simple n t l A) as (_ & _ & V & _). destruct (value_simple m u k B) as (_ & _ & V' & _). congruence.
Qed.

Lemma nodup_schema : NoDup S.
Proof. apply (NoDup_map_inv name_of), (fine_names S FS). Qed.

Lemma nodup_map_in {A B} (f : A -> B) l : NoDup l -> (forall a b, In a l -> In b l -> f a = f b -> a = b) -> NoDup (map f l).
Proof.
  induction 1 as [|x l N D IH]; intros I; [constructor|]. cbn [map]. constructor.
  - intros H. apply in_map_iff in H as (y & E & Y). apply N. rewrite (I x y); [exact Y|now left|now right|now symmetry].
  - apply IH. intros a b Ia Ib. apply I; now right.
Qed.

Notation objects := (map parsed_as S).

Lemma nodup_objects : NoDup objects.
Proof. apply nodup_map_in; [exact nodup_schema|exact parsed_inj]. Qed.

Lemma structured_object p : In p objects -> structured p = true ->
  exists n t, In (TypeA n t) S /\ structure t = true /\ p = built n "" Mandatory t.
Proof.
  intros I H. apply in_map_iff in I as (a & <- & A). destruct a as [n t|n t l].
  - rewrite parsed_structured in H. exists n, t. split; [exact A|]. split; [exact H|]. destruct t; try discriminate; reflexivity.
  - destruct (value_simple n t l A) as (_ & X & _). congruence.
Qed.

Lemma distinct_objects : distinct_names objects.
Proof.
  unfold distinct_names. apply nodup_map_in; [apply NoDup_filter, nodup_objects|].
  intros p q P Q E. apply filter_In in P as [P SP]. apply filter_In in Q as [Q SQ].
  destruct (structured_object p P SP) as (n & t & I & _ & ->). destruct (structured_object q Q SQ) as (m & u & J & _ & ->).
  rewrite !built_typeref in E. subst m. now rewrite (same_type S FS _ _ _ I J).
Qed.

Lemma structured_names m : In m (map typeref (filter structured objects)) -> exists t, In (TypeA m t) S /\ structure t = true.
Proof.
  intros I. apply in_map_iff in I as (p & <- & I). apply filter_In in I as [I H].
  destruct (structured_object p I H) as (n & t & J & X & ->). rewrite built_typeref. eauto.
Qed.

Section Sorted.
Hypothesis SS : sortable S.

Lemma parsed_objects : well_parsed objects.
Proof.
  intros p I H. destruct (structured_object p I H) as (n & t & J & X & ->). split; [apply built_parsed|]. rewrite built_typeref.
  intros R. pose proof (sort_words S SS n t J) as W. apply (fine_types S FS) in J as (_ & N & _). rewrite in_app_iff in N.
  assert (In n other_words \/ (underscore n = n /\ mem n (map fst library) = true)) as [Q|[Q M]].
  { apply in_mem in R. revert R. unfold mem, reserved. cbn [flat_map class_refs app existsb].
    rewrite !orb_true_iff, !String.eqb_eq.
    intros D. repeat destruct D as [D|D]; try discriminate; subst n;
      try (right; split; reflexivity); left; apply in_mem; reflexivity. }
  - contradiction.
  - apply N. left. rewrite Q. now apply in_mem.
Qed.

Lemma chain_path c : chain (filter structured objects) c -> ref_path S (map typeref c).
Proof.
  induction 1 as [x I|x y c I U C IH]; apply filter_In in I as [I H];
    destruct (structured_object x I H) as (n & t & J & X & ->); cbn [map] in *; rewrite built_typeref.
  - now apply (path_one S n t).
  - apply (path_more S n t); try assumption. now apply uses_refers in U.
Qed.

Lemma chains_short c : chain (filter structured objects) c -> List.length c <= 101.
Proof. intros C. apply chain_path, (sort_depth S SS) in C. now rewrite map_length in C. Qed.

Lemma type_object n t : In (TypeA n t) S -> In (parsed_as (TypeA n t)) objects.
Proof. intros I. now apply in_map. Qed.

Lemma used_before out n t m : sort_assignments objects = Ok out -> In (TypeA n t) S -> refers t m ->
  exists tm, In (TypeA m tm) S /\ before (parsed_as (TypeA m tm)) (parsed_as (TypeA n t)) out.
Proof.
  intros E I R. destruct (types_known n t I m R) as (tm & J). exists tm. split; [exact J|].
  assert (structure tm = false -> ~ In m (map typeref (filter structured objects))) as NS.
  { intros X H. apply structured_names in H as (t' & J' & X'). rewrite (same_type S FS _ _ _ J J') in X. congruence. }
  destruct (reference t) eqn:RT.
  - destruct t; try discriminate. inversion R; subst. pose proof (sort_alias S SS _ _ _ _ I J) as RM.
    apply (C38_alias_partial objects out distinct_objects E); try (now apply type_object).
    + apply parsed_kind.
    + apply parsed_valref.
    + rewrite (parsed_typeref _ tm RM). apply built_typeref.
    + destruct (structure tm) eqn:X; [left; now rewrite parsed_structured|right]. split; [|split].
      * unfold is_simple. rewrite parsed_kind. destruct tm; try discriminate; reflexivity.
      * apply parsed_valref.
      * rewrite (parsed_typeref m tm RM). now apply NS.
  - destruct (refers_inner t m RT R) as (X & _).
    destruct (reference tm) eqn:RM.
    + destruct tm as [| | | | | | | |m' r]; try discriminate.
      apply (C38_plain_alias_partial objects out distinct_objects E); try (now apply type_object).
      * now rewrite parsed_structured.
      * apply parsed_kind.
      * apply parsed_valref.
      * change (~ In (typeref (built m' m Mandatory (ARef m' r))) (map typeref (filter structured objects))).
        rewrite built_typeref. intros H. apply structured_names in H as (t' & J' & X').
        pose proof (sort_use S SS n t m m' r t' I X R J J'). congruence.
    + destruct (structure tm) eqn:XM.
      * apply (C38_ordered_partial objects out distinct_objects parsed_objects chains_short E);
          try (now apply type_object); try (now rewrite parsed_structured).
        rewrite (parsed_typeref m tm RM). rewrite parsed_not_ref by (now destruct t).
        apply refers_uses; try assumption. now apply (type_fine n).
      * apply (C38_simple_partial objects out distinct_objects E); try (now apply type_object); try (now rewrite parsed_structured).
        left. unfold is_simple. rewrite parsed_kind. destruct tm; try discriminate; reflexivity.
Qed.

Lemma values_first S1 : incl S1 S -> (forall a, In a S1 -> has_value (parsed_as a) = true) ->
  exists vs, S1 = map value_of3 vs.
Proof.
  induction S1 as [|a S1 IH]; intros I H; [now exists []|].
  destruct IH as (vs & ->); [intros x X; apply I; now right|intros x X; apply H; now right|].
  destruct a as [n t|n t l].
  - exfalso. assert (In (TypeA n t) S) as J by (apply I; now left). destruct (parsed_key S FS n t J) as [_ V].
    rewrite H in V; [discriminate|now left].
  - now exists ((n, t, l) :: vs).
Qed.
Lemma types_last S2 : incl S2 S -> (forall a, In a S2 -> has_value (parsed_as a) = false) ->
  exists ts, S2 = map type_of ts.
Proof.
  induction S2 as [|a S2 IH]; intros I H; [now exists []|].
  destruct IH as (ts & ->); [intros x X; apply I; now right|intros x X; apply H; now right|].
  destruct a as [n t|n t l].
  - now exists ((n, t) :: ts).
  - exfalso. assert (In (ValueA n t l) S) as J by (apply I; now left). pose proof (value_has_value S FS n t l J) as V.
    rewrite H in V; [discriminate|now left].
Qed.

Lemma split_unique {A} (x : A) a b c d : NoDup (a ++ x :: b) -> a ++ x :: b = c ++ x :: d -> a = c.
Proof.
  revert c. induction a as [|y a IH]; intros c N E; destruct c as [|z c]; cbn [app] in *; try reflexivity.
  - injection E as -> E. inversion N as [|? ? N1 _]; subst. elim N1. apply in_or_app. right. now left.
  - injection E as -> E. inversion N as [|? ? N1 _]; subst. elim N1. apply in_or_app. right. now left.
  - injection E as <- E. inversion N; subst. f_equal. now apply IH.
Qed.

Lemma ready_suffix vs out : sort_assignments objects = Ok out -> NoDup out -> forall suf pre,
  out = map parsed_as (map value_of3 vs ++ map type_of (pre ++ suf)) ->
  (forall a, In a (map value_of3 vs ++ map type_of (pre ++ suf)) -> In a S) ->
  ready (rev (map fst pre)) suf.
Proof.
  intros E ND. induction suf as [|(n, t) suf IH]; intros pre EO IN; cbn [ready]; [exact I|].
  assert (In (TypeA n t) S) as J.
  { apply IN. apply in_or_app. right. apply in_map_iff. exists (n, t). split; [reflexivity|]. apply in_or_app. right. now left. }
  assert (out = map parsed_as (map value_of3 vs ++ map type_of pre) ++ parsed_as (TypeA n t) :: map parsed_as (map type_of suf)) as EQ.
  { rewrite EO, !map_app. cbn [map]. now rewrite <- app_assoc. }
  assert (forall m tm, In (TypeA m tm) S -> In (parsed_as (TypeA m tm)) (map parsed_as (map value_of3 vs ++ map type_of pre)) ->
                       In m (rev (map fst pre))) as BACK.
  { intros m tm JM IM. apply in_map_iff in IM as (a & EA & IA).
    assert (In a S) as SA. { apply IN. apply in_app_or in IA as [IA|IA]; apply in_or_app; [now left|right].
      rewrite map_app. apply in_or_app. now left. }
    apply (parsed_inj a (TypeA m tm) SA JM) in EA. subst a. apply -> in_rev.
    apply in_app_or in IA as [IA|IA]; apply in_map_iff in IA as (e & EE & IE); [destruct e as ((?, ?), ?); discriminate|].
    destruct e as (x, y). injection EE as -> ->. exact (in_map fst _ _ IE). }
  split; [exact J|]. split; [|split].
  - intros H. apply in_rev in H. apply in_map_iff in H as ((n', t') & EN & H). cbn [fst] in EN. subst n'.
    assert (In (TypeA n t') S) as J'.
    { apply IN. apply in_or_app. right. apply in_map_iff. exists (n, t'). split; [reflexivity|]. apply in_or_app. now left. }
    rewrite (same_type S FS _ _ _ J' J) in H. rewrite EQ in ND. apply NoDup_remove_2 in ND. apply ND.
    apply in_or_app. left. apply in_map. apply in_or_app. right. apply in_map_iff. exists (n, t). now split.
  - intros m R. destruct (used_before out n t m E J R) as (tm & JM & a & b & SP & IA). apply (BACK m tm JM).
    rewrite EQ in ND, SP. rewrite (split_unique _ _ _ _ _ ND SP). exact IA.
  - change (n :: rev (map fst pre)) with ([n] ++ rev (map fst pre)).
    replace ([n] ++ rev (map fst pre)) with (rev (map fst (pre ++ [(n, t)]))).
    + apply IH; rewrite <- app_assoc; cbn [app]; assumption.
    + rewrite map_app, rev_app_distr. reflexivity.
Qed.

Lemma nodup_app_disjoint {A} (a b : list A) x : NoDup (a ++ b) -> In x a -> ~ In x b.
Proof.
  induction a as [|y a IH]; intros N I; [destruct I|]. cbn [app] in N. inversion N as [|? ? N1 N2]; subst.
  destruct I as [->|I]; [|now apply IH]. intros B. apply N1, in_or_app. now right.
Qed.

Lemma sorted_split : exists out vs ts, sort_assignments objects = Ok out /\
  out = map parsed_as (map value_of3 vs ++ map type_of ts) /\
  Permutation S (map value_of3 vs ++ map type_of ts) /\ ready [] ts.
Proof.
  destruct (C37_total objects) as (out & E).
  { intros p I. apply in_map_iff in I as (a & <- & A). destruct a as [n t|n t l].
    - rewrite parsed_kind. now destruct t.
    - now apply (value_simple n t l A). }
  pose proof (C37_permutation objects out distinct_objects E) as P.
  destruct (Permutation_map_inv parsed_as S (Permutation_sym P)) as (S' & EO & PS).
  assert (NoDup out) as ND by (apply (Permutation_NoDup P), nodup_objects).
  destruct (sort_ok objects out E) as (_ & types & comps & _ & EL).
  rewrite EO in EL. apply map_eq_app in EL as (S1 & S2 & -> & E1 & E2).
  assert (incl S1 S) as I1. { intros x X. apply (Permutation_in _ (Permutation_sym PS)), in_or_app. now left. }
  assert (incl S2 S) as I2. { intros x X. apply (Permutation_in _ (Permutation_sym PS)), in_or_app. now right. }
  assert (NoDup (S1 ++ S2)) as NS by (apply (Permutation_NoDup PS), nodup_schema).
  destruct (values_first S1 I1) as (vs & ->).
  { intros a A. apply (in_map parsed_as) in A. rewrite E1 in A. unfold values_of in A. apply filter_In in A as [_ A].
    now apply andb_true_iff in A as [_ A]. }
  destruct (types_last S2 I2) as (ts & ->).
  { intros a A. destruct (has_value (parsed_as a)) eqn:V; [|reflexivity]. exfalso.
    assert (In (parsed_as a) (values_of objects)) as W.
    { apply filter_In. split; [now apply in_map, I2|]. rewrite V, andb_true_r. specialize (I2 a A).
      destruct a as [n t|n t l]; [|now apply (value_simple n t l)]. destruct (parsed_key S FS n t I2) as [_ X]. congruence. }
    rewrite <- E1 in W. apply in_map_iff in W as (b & EB & B). apply parsed_inj in EB; [|now apply I1|now apply I2].
    subst b. now apply (nodup_app_disjoint _ _ a NS B). }
  exists out, vs, ts. split; [exact E|]. split; [exact EO|]. split; [exact PS|].
  apply (ready_suffix vs out E ND ts []); [exact EO|].
  intros a A. now apply (Permutation_in _ (Permutation_sym PS)).
Qed.

Lemma psize_pos p : 1 <= psize p.
Proof. destruct p. cbn [psize]. lia. Qed.
Lemma sum_pos {A} (f : A -> nat) l x : In x l -> f x <= list_sum (map f l).
Proof.
  induction l as [|y l IH]; intros I; [destruct I|]. unfold list_sum in *. cbn [map fold_right].
  destruct I as [->|I]; [lia|]. apply IH in I. lia.
Qed.

Lemma module_means : exists out g, emit objects = Ok out /\ run out = Ok g /\ binds_all g.
Proof.
  destruct sorted_split as (sorted & vs & ts & E & EO & P & R).
  assert (constants_of objects = []) as NC.
  { unfold constants_of. assert (forall l, (forall p, In p l -> is_defined p && has_value p = false) -> filter (fun p => is_defined p && has_value p) l = []) as H.
    { induction l as [|p l IH]; intros X; [reflexivity|]. cbn [filter]. rewrite X by now left. apply IH. intros q Q. apply X. now right. }
    apply H. intros p I. apply in_map_iff in I as (a & <- & A). destruct a as [n t|n t l].
    - destruct (parsed_key S FS n t A) as [_ ->]. apply andb_false_r.
    - unfold is_defined. destruct (value_simple n t l A) as (_ & _ & _ & _ & X). destruct (pkind _); try reflexivity. congruence. }
  destruct (ordered_module (depth_bound (table S) objects) vs ts) as (st & out & g & F & X & B).
  - intros a. rewrite <- in_app_iff. split; apply Permutation_in; [exact P|now apply Permutation_sym].
  - exact R.
  - unfold depth_bound. lia.
  - intros NE. destruct ts as [|(n, t) ts]; [contradiction|]. destruct R as (J & _). unfold depth_bound.
    pose proof (sum_pos psize objects _ (type_object n t J)). pose proof (psize_pos (parsed_as (TypeA n t))).
    pose proof (lookup_in _ _ _ (table_type S FS n t J)) as L.
    pose proof (sum_pos (fun e => psize (snd e)) (table S) _ L) as Q. cbn [snd] in Q. lia.
  - exists out, g. split; [|split; [exact X|exact B]]. unfold emit, emit_after. cbn [types consts]. fold (table S). rewrite NC. cbn [map app].
    rewrite E. cbn [bind]. rewrite EO, F. reflexivity.
Qed.

End Sorted.
End OneSchema.

(** * C49 *)

(** The module written for a fine and sortable schema can be imported; every name
    of a type then is a class that means what X.680 says the type means, and every
    name of a value an object with that value.  Missing are the schemas outside
    [fine_schema] and [sortable]: most exclusions are necessary, see
    GeneratedFaults.v and C38. *)
Theorem C49_modules_partial : forall S, fine_schema S -> sortable S ->
  exists out g, emit (map parsed_as S) = Ok out /\ run out = Ok g /\
    (forall n t, In (TypeA n t) S -> exists T, means S t T /\ binds g (underscore n) T) /\
    (forall n t l, In (ValueA n t l) S ->
       exists T v, lookup (underscore n) g = Some (OInst T v) /\ lit_is S t l v).
Proof.
  intros S FS SS. destruct (module_means S FS SS) as (out & g & E & R & B & V).
  exists out, g. split; [exact E|]. split; [exact R|]. split; [|exact V].
  intros n t I. destruct (fine_means S FS n t I) as (T & M). exists T. split; [exact M|]. eapply good_binds. now apply (B n t).
Qed.

(** In such a schema a type means one thing. *)
Theorem C49_one_meaning : forall S, fine_schema S -> sortable S -> forall n t T T',
  In (TypeA n t) S -> means S t T -> means S t T' -> T = T'.
Proof.
  intros S FS SS n t T T' I M M'. destruct (module_means S FS SS) as (out & g & E & R & B & _).
  destruct (good_binds S _ _ _ _ (B n t I T M)) as (k & a & L & C). destruct (good_binds S _ _ _ _ (B n t I T' M')) as (k' & a' & L' & C'). congruence.
Qed.

(** ** The order of the assignments *)

Section Same.
Variables S S' : schema.
Hypothesis SI : incl S S'.
Hypothesis IS : incl S' S.

Lemma same_bound b z : bound_is S b z -> bound_is S' b z.
Proof. destruct 1; econstructor; eauto. Qed.
Lemma same_bound' b z : bound_is S' b z -> bound_is S b z.
Proof. destruct 1; econstructor; eauto. Qed.
Lemma same_lower b lo : lower_is S b lo -> lower_is S' b lo.
Proof. destruct b; cbn [lower_is]; auto; intros (w & B & E); exists w; split; auto using same_bound. Qed.
Lemma same_size_lower b lo : size_lower_is S b lo -> size_lower_is S' b lo.
Proof. destruct b; cbn [size_lower_is]; auto; intros (w & B & E); exists w; split; auto using same_bound. Qed.
Lemma same_upper b hi : upper_is S b hi -> upper_is S' b hi.
Proof. destruct b; cbn [upper_is]; auto; intros (w & B & E); exists w; split; auto using same_bound. Qed.
Lemma same_range r c : range_is S r c -> range_is S' r c.
Proof. destruct r; cbn [range_is]; auto. intros (lo & hi & A & B & E). exists lo, hi. auto using same_lower, same_upper. Qed.
Lemma same_size r c : size_is S r c -> size_is S' r c.
Proof. destruct r; cbn [size_is]; auto. intros (lo & hi & A & B & E). exists lo, hi. auto using same_size_lower, same_upper. Qed.
Lemma same_count r c : count_is S r c -> count_is S' r c.
Proof. destruct r; cbn [count_is]; auto. intros (lo & hi & A & B & E). exists lo, hi. auto using same_size_lower, same_upper. Qed.
Lemma same_lit t l v : lit_is S t l v -> lit_is S' t l v.
Proof. induction 1; econstructor; eauto. Qed.
Lemma same_status t T s p : status_is S t T s p -> status_is S' t T s p.
Proof. destruct s; cbn [status_is]; auto. intros (v & L & M & E). exists v. auto using same_lit. Qed.

Lemma same_means : forall t T, means S t T -> means S' t T.
Proof.
  fix IH 3. intros t T M.
  assert (forall p c, part_means S p c -> part_means S' p c) as PM.
  { clear M. intros p c P. destruct P as [n s t' q T' M' ST]. constructor; [exact (IH _ _ M')|now apply same_status]. }
  destruct M as [r c R| |r c R|r c R|root|root adds|ext root adds groups ro ad gr A B C|ext root adds groups ro ad gr A B C|r e c T R M|n t T I M|n t r c I M R].
  - constructor. now apply same_range.
  - constructor.
  - constructor. now apply same_size.
  - constructor. now apply same_size.
  - constructor.
  - constructor.
  - constructor; clear PM.
    + revert root ro A. exact (fix go l l' (F : Forall2 (part_means S) l l') : Forall2 (part_means S') l l' :=
        match F in Forall2 _ a b return Forall2 (part_means S') a b with
        | Forall2_nil _ => Forall2_nil _
        | Forall2_cons x y P R => Forall2_cons x y
            match P in part_means _ p c return part_means S' p c with
            | part_mean _ n s t q T M' ST => part_mean S' n s t q T (IH _ _ M') (same_status _ _ _ _ ST)
            end (go _ _ R)
        end).
    + revert adds ad B. exact (fix go l l' (F : Forall2 (part_means S) l l') : Forall2 (part_means S') l l' :=
        match F in Forall2 _ a b return Forall2 (part_means S') a b with
        | Forall2_nil _ => Forall2_nil _
        | Forall2_cons x y P R => Forall2_cons x y
            match P in part_means _ p c return part_means S' p c with
            | part_mean _ n s t q T M' ST => part_mean S' n s t q T (IH _ _ M') (same_status _ _ _ _ ST)
            end (go _ _ R)
        end).
    + revert groups gr C. exact (fix go2 g g' (G : Forall2 (Forall2 (part_means S)) g g') : Forall2 (Forall2 (part_means S')) g g' :=
        match G in Forall2 _ a b return Forall2 (Forall2 (part_means S')) a b with
        | Forall2_nil _ => Forall2_nil _
        | Forall2_cons x y F R2 => Forall2_cons x y
      ((fix go l l' (F : Forall2 (part_means S) l l') : Forall2 (part_means S') l l' :=
        match F in Forall2 _ a b return Forall2 (part_means S') a b with
        | Forall2_nil _ => Forall2_nil _
        | Forall2_cons x y P R => Forall2_cons x y
            match P in part_means _ p c return part_means S' p c with
            | part_mean _ n s t q T M' ST => part_mean S' n s t q T (IH _ _ M') (same_status _ _ _ _ ST)
            end (go _ _ R)
        end) _ _ F) (go2 _ _ R2)
        end).
  - constructor; clear PM.
    + revert root ro A. exact (fix go l l' (F : Forall2 (part_means S) l l') : Forall2 (part_means S') l l' :=
        match F in Forall2 _ a b return Forall2 (part_means S') a b with
        | Forall2_nil _ => Forall2_nil _
        | Forall2_cons x y P R => Forall2_cons x y
            match P in part_means _ p c return part_means S' p c with
            | part_mean _ n s t q T M' ST => part_mean S' n s t q T (IH _ _ M') (same_status _ _ _ _ ST)
            end (go _ _ R)
        end).
    + revert adds ad B. exact (fix go l l' (F : Forall2 (part_means S) l l') : Forall2 (part_means S') l l' :=
        match F in Forall2 _ a b return Forall2 (part_means S') a b with
        | Forall2_nil _ => Forall2_nil _
        | Forall2_cons x y P R => Forall2_cons x y
            match P in part_means _ p c return part_means S' p c with
            | part_mean _ n s t q T M' ST => part_mean S' n s t q T (IH _ _ M') (same_status _ _ _ _ ST)
            end (go _ _ R)
        end).
    + revert groups gr C. exact (fix go2 g g' (G : Forall2 (Forall2 (part_means S)) g g') : Forall2 (Forall2 (part_means S')) g g' :=
        match G in Forall2 _ a b return Forall2 (Forall2 (part_means S')) a b with
        | Forall2_nil _ => Forall2_nil _
        | Forall2_cons x y F R2 => Forall2_cons x y
      ((fix go l l' (F : Forall2 (part_means S) l l') : Forall2 (part_means S') l l' :=
        match F in Forall2 _ a b return Forall2 (part_means S') a b with
        | Forall2_nil _ => Forall2_nil _
        | Forall2_cons x y P R => Forall2_cons x y
            match P in part_means _ p c return part_means S' p c with
            | part_mean _ n s t q T M' ST => part_mean S' n s t q T (IH _ _ M') (same_status _ _ _ _ ST)
            end (go _ _ R)
        end) _ _ F) (go2 _ _ R2)
        end).
  - constructor; [now apply same_count|exact (IH _ _ M)].
  - apply (mean_ref S' n t); [now apply SI|exact (IH _ _ M)].
  - apply (mean_narrow S' n t); [now apply SI|exact (IH _ _ M)|now apply same_range].
Qed.

Lemma same_fine_range r : fine_range S r -> fine_range S' r.
Proof.
  destruct r as [r|]; cbn [fine_range]; auto. intros (A & B & C). split; [exact A|]. split; [exact B|].
  intros lo hi L H. apply C; now apply same_bound'.
Qed.
Lemma same_fine_size r : fine_size S r -> fine_size S' r.
Proof. intros [A B]. split; [now apply same_fine_range|exact B]. Qed.
Lemma same_fine_status t s : fine_status S t s -> fine_status S' t s.
Proof. destruct s as [| |l]; auto. destruct t; auto. cbn [fine_status]. intros H t' I. apply IS in I. exact (H _ I). Qed.
Lemma same_fine : forall t, fine S t -> fine S' t.
Proof.
  induction t as [r| |r|r|root adds|ext root adds groups IH|ext root adds groups IH|r e IE|n r] using asn_rect'; intros F; inversion F; subst.
  - constructor. now apply same_fine_range.
  - constructor.
  - constructor. now apply same_fine_size.
  - constructor. now apply same_fine_size.
  - now constructor.
  - constructor; auto. rewrite Forall_forall in *. intros [n s t] IP.
    match goal with H : forall x, In x _ -> fine_part S x |- _ => specialize (H _ IP); inversion H; subst end.
    constructor; auto using same_fine_status. apply (IH _ IP). assumption.
  - constructor; auto. rewrite Forall_forall in *. intros [n s t] IP.
    match goal with H : forall x, In x _ -> fine_part S x |- _ => specialize (H _ IP); inversion H; subst end.
    constructor; auto using same_fine_status. apply (IH _ IP). assumption.
  - constructor; auto. now apply same_fine_size.
  - constructor.
Qed.
Lemma same_path p : ref_path S p -> ref_path S' p.
Proof. induction 1; econstructor; eauto. Qed.
End Same.

Lemma permuted_fine S S' : Permutation S S' -> fine_schema S -> fine_schema S'.
Proof.
  intros P F.
  assert (incl S S') as A by (intros x; now apply Permutation_in).
  assert (incl S' S) as B by (intros x; apply Permutation_in; now apply Permutation_sym).
  destruct F as [F1 F2 F3 F4]. constructor.
  - apply (Permutation_NoDup (Permutation_map name_of P) F1).
  - intros n t I. destruct (F2 n t (B _ I)) as (X & Y & Z'). split; [exact X|]. split; [exact Y|]. now apply (same_fine S S' B).
  - intros n t I. destruct (F3 n t (B _ I)) as (T & M). exists T. now apply (same_means S S' A).
  - intros n t l I. destruct (F4 n t l (B _ I)) as (X1 & X2 & X3 & X4 & X5 & v & L). repeat (split; [assumption|]).
    exists v. now apply (same_lit S S' A).
Qed.
Lemma permuted_sortable S S' : Permutation S S' -> sortable S -> sortable S'.
Proof.
  intros P F.
  assert (incl S' S) as B by (intros x; apply Permutation_in; now apply Permutation_sym).
  destruct F as [F1 F2 F3 F4]. constructor.
  - intros n t I. now apply (F1 n t), B.
  - intros p X. now apply F2, (same_path S' S B).
  - intros n m r t I J. apply (F3 n m r t); now apply B.
  - intros n t m m' r t' I X R J K. apply (F4 n t m m' r t'); auto.
Qed.

(** The order of the assignments in the schema does not matter. *)
Theorem C49_any_order : forall S S', fine_schema S -> sortable S -> Permutation S S' ->
  exists out out' g g', emit (map parsed_as S) = Ok out /\ emit (map parsed_as S') = Ok out' /\
    run out = Ok g /\ run out' = Ok g' /\
    forall n t, In (TypeA n t) S -> exists T, means S t T /\ means S' t T /\
      binds g (underscore n) T /\ binds g' (underscore n) T.
Proof.
  intros S S' FS SS P. pose proof (permuted_fine S S' P FS) as FS'. pose proof (permuted_sortable S S' P SS) as SS'.
  destruct (module_means S FS SS) as (out & g & E & R & B & _).
  destruct (module_means S' FS' SS') as (out' & g' & E' & R' & B' & _).
  exists out, out', g, g'. repeat (split; [assumption|]). intros n t I.
  destruct (fine_means S FS n t I) as (T & M). exists T. split; [exact M|].
  assert (means S' t T) as M' by (apply (same_means S); [intros x; now apply Permutation_in|exact M]).
  split; [exact M'|]. split; eapply good_binds; [now apply (B n t)|]. apply (B' n t); [|exact M']. now apply (Permutation_in _ P).
Qed.

(** ** Concrete cases *)

Definition bindings (S : schema) : Prop :=
  exists out g, emit (map parsed_as S) = Ok out /\ run out = Ok g /\
    (forall n t, In (TypeA n t) S -> exists T, means S t T /\ binds g (underscore n) T) /\
    (forall n t l, In (ValueA n t l) S ->
       exists T v, lookup (underscore n) g = Some (OInst T v) /\ lit_is S t l v).
Lemma checked_bindings fuel S : checked fuel S = true -> bindings S.
Proof. intros C. apply checked_fine in C as [F O]. exact (C49_modules_partial S F O). Qed.

(** The schemas of the test suite that meet the conditions. *)
Example C49_tests : Forall bindings
  [asn_Choice_Simple; asn_ComponentTypes; asn_ComponentTypes_containing_ComponentTypes;
   asn_ComponentTypes_extensionAddition; asn_ComponentTypes_extensionAdditionGroup;
   asn_ComponentTypes_extensionMarker; asn_Sequence_Mixed; asn_Sequence_Simple;
   asn_SimpleProtocol; asn_Types_constrained; asn_Types_containing_constrained_types].
Proof. repeat constructor; apply (checked_bindings 20); vm_compute; reflexivity. Qed.

(** One with the other things that are allowed: values for end points and
    defaults, additions and groups, aliases, assignments in a bad order. *)
Definition sample : schema := [
  TypeA "Top-Level" (AChoice true [Part "one" Mandatory (ARef "Inner" None); Part "two-b" Mandatory ABoolean]
                             [Part "late" Mandatory (ASeqOf (Some (Range (BNum 0) (BRef "most") true)) (ARef "Small" None))] []);
  TypeA "Inner" (ASequence true
     [Part "a" (Default (LRef "least")) (AInteger (Some (Range (BRef "least") (BRef "most") true)));
      Part "b" (Default (LItem "dark-blue")) (ARef "Colour" None);
      Part "c" Optional (ASequence false [Part "d" (Default (LHex [10%Z; 11%Z])) (AOctets (Some (Range (BNum 1) (BNum 3) false)))] [] [])]
     [Part "e" (Default (LBin [true; false; true])) (ABitstr None)]
     [[Part "f" Optional (ARef "Small" None); Part "g" Mandatory (AEnumer ["x"; "y"] (Some ["z"]))]]);
  TypeA "Small" (ARef "Number" None);
  ValueA "most" (AInteger None) (LNum 40);
  TypeA "Number" (AInteger (Some (Range BMin (BRef "least") false)));
  TypeA "Colour" (AEnumer ["red"; "dark-blue"] None);
  ValueA "least" (AInteger None) (LNum (-3));
  ValueA "some-bits" (ABitstr None) (LHex [12%Z; 3%Z])].
Example C49_sample : bindings sample.
Proof. apply (checked_bindings 20). vm_compute. reflexivity. Qed.
Example C49_sample_inner : exists T, means sample (ARef "Inner" None) T /\
  T = TSeq true
        [Comp "a" (Dflt (VInt (-3))) (TInt (CRange true (Some (-3)%Z) (Some 40%Z)));
         Comp "b" (Dflt (VEnum 1)) (TEnum false [0%Z; 1%Z] []);
         Comp "c" Opt (TSeq false [Comp "d" (Dflt (VOcts [171%Z])) (TOcts (CRange false (Some 1%Z) (Some 3%Z)))] [] [])]
        [Comp "e" (Dflt (VBits [true; false; true])) (TBits CNone)]
        [[Comp "f" Opt (TInt (CRange false None (Some (-3)%Z)));
          Comp "g" Mand (TEnum true [0%Z; 1%Z] [2%Z])]].
Proof. eexists. split; [|reflexivity]. apply (meaning_is sample 20). vm_compute. reflexivity. Qed.
