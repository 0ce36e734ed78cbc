(** A test for [fine_schema] and [sortable] (Meaning.v), sound but not complete:
    with it the claims about generated modules apply to given schemas by
    computation. *)

From Coq Require Import ZArith List String Ascii Bool Arith Lia.
Import ListNotations.
From Verif Require Import PyBase Schema Generator Emit Exec Meaning Modules.

Open Scope string_scope.
Open Scope list_scope.
Open Scope nat_scope.

Fixpoint find_type (S : schema) (n : string) : option asn :=
  match S with
  | [] => None
  | TypeA m t :: r => if String.eqb n m then Some t else find_type r n
  | ValueA _ _ _ :: r => find_type r n
  end.
Fixpoint find_value (S : schema) (n : string) : option (asn * lit) :=
  match S with
  | [] => None
  | ValueA m t l :: r => if String.eqb n m then Some (t, l) else find_value r n
  | TypeA _ _ :: r => find_value r n
  end.

Lemma find_type_in S n t : find_type S n = Some t -> In (TypeA n t) S.
Proof.
  induction S as [|[m u|m u l] S IH]; cbn [find_type]; [discriminate| |intros H; right; now apply IH].
  destruct (String.eqb_spec n m) as [->|]; intros H; [injection H as ->; now left|right; now apply IH].
Qed.
Lemma find_value_in S n t l : find_value S n = Some (t, l) -> In (ValueA n t l) S.
Proof.
  induction S as [|[m u|m u k] S IH]; cbn [find_value]; [discriminate|intros H; right; now apply IH|].
  destruct (String.eqb_spec n m) as [->|]; intros H; [injection H as -> ->; now left|right; now apply IH].
Qed.

Section Checks.
Variable S : schema.
Hypothesis ND : NoDup (map name_of S).

Lemma one_assignment a b : In a S -> In b S -> name_of a = name_of b -> a = b.
Proof.
  intros A B E. induction S as [|x l IH]; [destruct A|]. cbn [map] in ND. inversion ND as [|? ? N1 N2]; subst.
  destruct A as [->|A], B as [->|B]; try reflexivity.
  - exfalso. apply N1. rewrite E. now apply in_map.
  - exfalso. apply N1. rewrite <- E. now apply in_map.
  - now apply IH.
Qed.
Lemma in_find_type n t : In (TypeA n t) S -> find_type S n = Some t.
Proof.
  intros I. assert (exists u, find_type S n = Some u) as (u & E).
  { clear ND. induction S as [|[m u|m u l] r IH]; [destruct I| |]; cbn [find_type].
    - destruct (String.eqb_spec n m) as [->|N]; [eauto|]. destruct I as [E|I]; [congruence|auto].
    - destruct I as [E|I]; [discriminate|auto]. }
  rewrite E. apply find_type_in in E. assert (TypeA n t = TypeA n u) as X by now apply one_assignment. congruence.
Qed.
Lemma in_find_value n t l : In (ValueA n t l) S -> find_value S n = Some (t, l).
Proof.
  intros I. assert (exists u, find_value S n = Some u) as ((u & k) & E).
  { clear ND. induction S as [|[m u|m u k] r IH]; [destruct I| |]; cbn [find_value].
    - destruct I as [E|I]; [discriminate|auto].
    - destruct (String.eqb_spec n m) as [->|N]; [eauto|]. destruct I as [E|I]; [congruence|auto]. }
  rewrite E. apply find_value_in in E. assert (ValueA n t l = ValueA n u k) as X by now apply one_assignment. congruence.
Qed.

(** * Meanings *)

Definition bound_val (b : bound) : option Z :=
  match b with
  | BNum z => Some z
  | BRef n => match find_value S n with Some (AInteger _, LNum z) => Some z | _ => None end
  | _ => None
  end.
Lemma bound_val_is b z : bound_val b = Some z -> bound_is S b z.
Proof.
  destruct b as [| |x|n]; cbn [bound_val]; try discriminate; [intros E; injection E as ->; constructor|].
  destruct (find_value S n) as [[[] []]|] eqn:E; try discriminate. intros X. injection X as ->.
  apply find_value_in in E. econstructor; exact E.
Qed.
Lemma bound_is_val b z : bound_is S b z -> bound_val b = Some z.
Proof. destruct 1 as [z|n r z I]; [reflexivity|]. cbn [bound_val]. now rewrite (in_find_value _ _ _ I). Qed.

Definition lower_val (min : option Z) (b : bound) : option (option Z) :=
  match b with BMin => Some min | BMax => None | _ => option_map Some (bound_val b) end.
Definition upper_val (b : bound) : option (option Z) :=
  match b with BMax => Some None | BMin => None | _ => option_map Some (bound_val b) end.
Definition range_val (min : option Z) (r : range) : option (option Z * option Z) :=
  match lower_val min (lower r), upper_val (upper r) with Some lo, Some hi => Some (lo, hi) | _, _ => None end.

Lemma lower_val_is b lo : lower_val None b = Some lo -> lower_is S b lo.
Proof.
  destruct b; cbn [lower_val lower_is]; try discriminate; try congruence;
    (destruct (bound_val _) as [x|] eqn:E; [|discriminate]); intros H; injection H as <-; exists x; (split; [|reflexivity]); now apply bound_val_is.
Qed.
Lemma size_lower_val_is b lo : lower_val (Some 0%Z) b = Some lo -> size_lower_is S b lo.
Proof.
  destruct b; cbn [lower_val size_lower_is]; try discriminate; try congruence;
    (destruct (bound_val _) as [x|] eqn:E; [|discriminate]); intros H; injection H as <-; exists x; (split; [|reflexivity]); now apply bound_val_is.
Qed.
Lemma upper_val_is b hi : upper_val b = Some hi -> upper_is S b hi.
Proof.
  destruct b; cbn [upper_val upper_is]; try discriminate; try congruence;
    (destruct (bound_val _) as [x|] eqn:E; [|discriminate]); intros H; injection H as <-; exists x; (split; [|reflexivity]); now apply bound_val_is.
Qed.

Definition con_val (mk : bool -> option Z -> option Z -> constr) (min : option Z) (none : constr) (r : option range) : option constr :=
  match r with
  | None => Some none
  | Some r => match range_val min r with Some (lo, hi) => Some (mk (extensible r) lo hi) | None => None end
  end.

Lemma range_val_is r c : con_val CRange None CNone r = Some c -> range_is S r c.
Proof.
  destruct r as [r|]; cbn [con_val range_is]; [|congruence]. unfold range_val.
  destruct (lower_val _ _) as [lo|] eqn:L; [|discriminate]. destruct (upper_val _) as [hi|] eqn:U; [|discriminate].
  intros E. injection E as <-. exists lo, hi. split; [now apply lower_val_is|]. split; [now apply upper_val_is|reflexivity].
Qed.
Lemma size_val_is r c : con_val CRange (Some 0%Z) CNone r = Some c -> size_is S r c.
Proof.
  destruct r as [r|]; cbn [con_val size_is]; [|congruence]. unfold range_val.
  destruct (lower_val _ _) as [lo|] eqn:L; [|discriminate]. destruct (upper_val _) as [hi|] eqn:U; [|discriminate].
  intros E. injection E as <-. exists lo, hi. split; [now apply size_lower_val_is|]. split; [now apply upper_val_is|reflexivity].
Qed.
Lemma count_val_is r c : con_val CSeqSize (Some 0%Z) (CSeqSize false (Some 0%Z) None) r = Some c -> count_is S r c.
Proof.
  destruct r as [r|]; cbn [con_val count_is]; [|congruence]. unfold range_val.
  destruct (lower_val _ _) as [lo|] eqn:L; [|discriminate]. destruct (upper_val _) as [hi|] eqn:U; [|discriminate].
  intros E. injection E as <-. exists lo, hi. split; [now apply size_lower_val_is|]. split; [now apply upper_val_is|reflexivity].
Qed.

Fixpoint pairs (h : list Z) : list Z :=
  match h with
  | [] => []
  | [a] => [(16 * a)%Z]
  | a :: b :: r => (16 * a + b)%Z :: pairs r
  end.
Definition octets (bs : list Z) : bool := forallb (fun o => (0 <=? o)%Z && (o <? 256)%Z) bs.
Lemma octets_ok bs : octets bs = true -> Forall (fun o => 0 <= o < 256)%Z bs.
Proof. unfold octets. rewrite forallb_forall, Forall_forall. intros H o I. apply H in I. lia. Qed.
Definition digits (h : list Z) : bool := forallb (fun o => (0 <=? o)%Z && (o <? 16)%Z) h.
Lemma digits_ok h : digits h = true -> Forall (fun o => 0 <= o < 16)%Z h.
Proof. unfold digits. rewrite forallb_forall, Forall_forall. intros H o I. apply H in I. lia. Qed.

Fixpoint place (s : string) (l : list string) : option nat :=
  match l with [] => None | x :: r => if String.eqb s x then Some 0 else option_map Datatypes.S (place s r) end.
Lemma place_ok s l i : place s l = Some i -> nth_error l i = Some s.
Proof.
  revert i. induction l as [|x l IH]; intros i; cbn [place]; [discriminate|].
  destruct (String.eqb_spec s x) as [->|]; [intros E; now injection E as <-|].
  destruct (place s l); [|discriminate]. intros E. injection E as <-. cbn [nth_error]. now apply IH.
Qed.

(** Literals that are not references, for types that are not references. *)
Definition plain_val (t : asn) (l : lit) : option val :=
  match t, l with
  | AInteger _, LNum z => Some (VInt z)
  | ABoolean, LBoolean b => Some (VBool b)
  | ABitstr _, LBin s => Some (VBits s)
  | ABitstr _, LHex h => if digits h then Some (VBits (flat_map nibble h)) else None
  | AOctets _, LBin s =>
    let k := (8 - List.length s mod 8) mod 8 in
    let bs := match s with [] => [] | _ => from_binary_string s end in
    if octets bs then
      if list_eq_dec Bool.bool_dec (flat_map (fun o => nibble (o / 16) ++ nibble (o mod 16)) bs) (s ++ repeat false k)
      then Some (VOcts bs) else None
    else None
  | AOctets _, LHex h =>
    let k := List.length h mod 2 in
    let bs := pairs h in
    if octets bs then
      if list_eq_dec Z.eq_dec (flat_map halves bs) (h ++ repeat 0%Z k) then Some (VOcts bs) else None
    else None
  | AEnumer root adds, LItem s => option_map (fun i => VEnum (Z.of_nat i)) (place s (root ++ list_of adds))
  | _, _ => None
  end.
Lemma plain_val_is t l v : plain_val t l = Some v -> lit_is S t l v.
Proof.
  destruct t, l; cbn [plain_val]; try discriminate; try (intros E; injection E as <-; constructor).
  - destruct (octets _) eqn:O; [|discriminate]. destruct (list_eq_dec _ _ _) as [E|]; [|discriminate]. intros X. injection X as <-.
    apply (lit_obin S r s ((8 - List.length s mod 8) mod 8)); [apply Nat.mod_upper_bound; lia|now apply octets_ok|exact E].
  - destruct (octets _) eqn:O; [|discriminate]. destruct (list_eq_dec _ _ _) as [E|]; [|discriminate]. intros X. injection X as <-.
    apply (lit_ohex S r h (List.length h mod 2)); [apply Nat.mod_upper_bound; lia|now apply octets_ok|exact E].
  - destruct (digits h) eqn:D; [|discriminate]. intros X. injection X as <-. constructor. now apply digits_ok.
  - destruct (place s _) as [i|] eqn:P; [|discriminate]. intros X. injection X as <-. apply place_ok in P. now constructor.
Qed.

Definition lit_val (t : asn) (l : lit) : option val :=
  match l with
  | LRef n => match find_value S n with
              | Some (_, LRef _) => None
              | Some (_, l') => plain_val t l'
              | None => None
              end
  | _ => plain_val t l
  end.
Lemma lit_val_is t l v : lit_val t l = Some v -> lit_is S t l v.
Proof.
  intros H. destruct l as [| | | | |n]; try (now apply plain_val_is). cbn [lit_val] in H.
  destruct (find_value S n) as [[t' l']|] eqn:E; [|discriminate]. apply find_value_in in E.
  assert (plain_val t l' = Some v /\ forall m, l' <> LRef m) as [P N] by (destruct l'; try discriminate; (split; [exact H|discriminate])).
  apply (lit_value S n t t' l' v E N). now apply plain_val_is.
Qed.
Fixpoint lit_chain (k : nat) (t : asn) (l : lit) : option val :=
  match k with
  | O => None
  | Datatypes.S k' =>
    match t with
    | ARef n _ => match find_type S n with Some t' => lit_chain k' t' l | None => None end
    | _ => lit_val t l
    end
  end.
Lemma lit_chain_is k : forall t l v, lit_chain k t l = Some v -> lit_is S t l v.
Proof.
  induction k as [|k IH]; intros t l v; cbn [lit_chain]; [discriminate|].
  destruct t; try apply lit_val_is. destruct (find_type S n) as [t'|] eqn:E; [|discriminate].
  intros H. apply find_type_in in E. apply (lit_type S n t' r l v E). now apply IH.
Qed.
Definition lit_through_val : asn -> lit -> option val := lit_chain 20.
Lemma lit_through_is t l v : lit_through_val t l = Some v -> lit_is S t l v.
Proof. apply lit_chain_is. Qed.

Definition allowsb (c : constr) (n : Z) : bool :=
  match c with
  | CRange false lo hi =>
    match lo with Some l => (l <=? n)%Z | None => true end && match hi with Some h => (n <=? h)%Z | None => true end
  | _ => true
  end.
Lemma allowsb_ok c n : allowsb c n = true -> allows c n.
Proof.
  destruct c as [| | |[] lo hi| | |]; cbn [allowsb allows]; auto. rewrite andb_true_iff. intros [A B].
  split; intros x ->; now apply Z.leb_le.
Qed.
Definition memberb (T : ty) (v : val) : bool :=
  match T, v with
  | TInt c, VInt z => allowsb c z
  | TBits c, VBits s => allowsb c (Z.of_nat (List.length s))
  | TOcts c, VOcts bs => allowsb c (Z.of_nat (List.length bs))
  | TBool, VBool _ => true
  | TEnum _ _ _, VEnum _ => true
  | _, _ => false
  end.
Lemma memberb_ok T v : memberb T v = true -> member T v.
Proof. destruct T, v; cbn [memberb member]; try discriminate; auto; apply allowsb_ok. Qed.

Fixpoint all_opt {A B} (f : A -> option B) (l : list A) : option (list B) :=
  match l with
  | [] => Some []
  | x :: r => match f x, all_opt f r with Some y, Some s => Some (y :: s) | _, _ => None end
  end.
Lemma all_opt_ok {A B} (f : A -> option B) (R : A -> B -> Prop) : (forall x y, f x = Some y -> R x y) ->
  forall l r, all_opt f l = Some r -> Forall2 R l r.
Proof.
  intros H. induction l as [|x l IH]; cbn [all_opt]; intros r E; [injection E as <-; constructor|].
  destruct (f x) as [y|] eqn:F; [|discriminate]. destruct (all_opt f l) as [s|]; [|discriminate]. injection E as <-.
  constructor; auto.
Qed.

Definition status_val (t : asn) (T : ty) (s : status) : option presence :=
  match s with
  | Mandatory => Some Mand
  | Optional => Some Opt
  | Default l => match lit_through_val t l with
                 | Some v => if memberb T v then Some (Dflt v) else None
                 | None => None
                 end
  end.
Lemma status_val_is t T s p : status_val t T s = Some p -> status_is S t T s p.
Proof.
  destruct s as [| |l]; cbn [status_val status_is]; try congruence.
  destruct (lit_through_val t l) as [v|] eqn:L; [|discriminate]. destruct (memberb T v) eqn:M; [|discriminate].
  intros E. injection E as <-. exists v. split; [now apply lit_through_is|]. split; [now apply memberb_ok|reflexivity].
Qed.

(** [fuel] bounds the depth, through references too. *)
Fixpoint meaning (fuel : nat) (t : asn) : option ty :=
  match fuel with
  | O => None
  | Datatypes.S k =>
    let part_m (p : part asn) : option (comp ty) :=
      match meaning k (p_type p) with
      | Some T => option_map (fun q => Comp (p_name p) q T) (status_val (p_type p) T (p_status p))
      | None => None
      end in
    match t with
    | AInteger r => option_map TInt (con_val CRange None CNone r)
    | ABoolean => Some TBool
    | AOctets r => option_map TOcts (con_val CRange (Some 0%Z) CNone r)
    | ABitstr r => option_map TBits (con_val CRange (Some 0%Z) CNone r)
    | AEnumer root None => Some (TEnum false (count_from 0 (List.length root)) [])
    | AEnumer root (Some adds) =>
      Some (TEnum true (count_from 0 (List.length root)) (count_from (List.length root) (List.length adds)))
    | ASequence ext root adds groups =>
      match all_opt part_m root, all_opt part_m adds, all_opt (all_opt part_m) groups with
      | Some r, Some a, Some g => Some (TSeq ext r a g)
      | _, _, _ => None
      end
    | AChoice ext root adds groups =>
      match all_opt part_m root, all_opt part_m adds, all_opt (all_opt part_m) groups with
      | Some r, Some a, Some g => Some (TChoice ext r a g)
      | _, _, _ => None
      end
    | ASeqOf r e =>
      match con_val CSeqSize (Some 0%Z) (CSeqSize false (Some 0%Z) None) r, meaning k e with
      | Some c, Some T => Some (TSeqOf c T)
      | _, _ => None
      end
    | ARef n None => match find_type S n with Some t' => meaning k t' | None => None end
    | ARef n (Some _) => None
    end
  end.

Lemma meaning_is fuel : forall t T, meaning fuel t = Some T -> means S t T.
Proof.
  induction fuel as [|k IH]; intros t T; cbn [meaning]; [discriminate|].
  set (part_m := fun p : part asn => match meaning k (p_type p) with
      | Some T => option_map (fun q => Comp (p_name p) q T) (status_val (p_type p) T (p_status p)) | None => None end).
  assert (forall p c, part_m p = Some c -> part_means S p c) as PM.
  { intros [n s u] c. unfold part_m. cbn [p_type p_name p_status]. destruct (meaning k u) as [U|] eqn:M; [|discriminate].
    destruct (status_val u U s) as [q|] eqn:Q; [|discriminate]. intros E. injection E as <-. constructor; [now apply IH|now apply status_val_is]. }
  pose proof (all_opt_ok part_m _ PM) as PL. pose proof (all_opt_ok (all_opt part_m) _ PL) as PG.
  clearbody part_m.
  destruct t as [r| |r|r|root adds|ext root adds groups|ext root adds groups|r e|n r].
  - destruct (con_val _ _ _ r) as [c|] eqn:C; [|discriminate]. intros E. injection E as <-. constructor. now apply range_val_is.
  - intros E. injection E as <-. constructor.
  - destruct (con_val _ _ _ r) as [c|] eqn:C; [|discriminate]. intros E. injection E as <-. constructor. now apply size_val_is.
  - destruct (con_val _ _ _ r) as [c|] eqn:C; [|discriminate]. intros E. injection E as <-. constructor. now apply size_val_is.
  - destruct adds; intros E; injection E as <-; constructor.
  - destruct (all_opt part_m root) as [a|] eqn:A; [|discriminate]. destruct (all_opt part_m adds) as [b|] eqn:B; [|discriminate].
    destruct (all_opt (all_opt part_m) groups) as [c|] eqn:C; [|discriminate]. intros E. injection E as <-. constructor; auto.
  - destruct (all_opt part_m root) as [a|] eqn:A; [|discriminate]. destruct (all_opt part_m adds) as [b|] eqn:B; [|discriminate].
    destruct (all_opt (all_opt part_m) groups) as [c|] eqn:C; [|discriminate]. intros E. injection E as <-. constructor; auto.
  - destruct (con_val _ _ _ r) as [c|] eqn:C; [|discriminate]. destruct (meaning k e) as [U|] eqn:U'; [|discriminate].
    intros E. injection E as <-. constructor; [now apply count_val_is|now apply IH].
  - destruct r; [discriminate|]. destruct (find_type S n) as [u|] eqn:F; [|discriminate]. intros E.
    apply (mean_ref S n u); [now apply find_type_in|now apply IH].
Qed.

(** * [fine] *)

Definition no_hyphenb (s : string) : bool := all_chars (fun c => negb (Ascii.eqb c "-")) s.
Definition fine_boundb (b : bound) : bool :=
  match b with BRef n => value_word n && no_hyphenb n | _ => true end.
Definition fine_rangeb (r : option range) : bool :=
  match r with
  | None => true
  | Some r => fine_boundb (lower r) && fine_boundb (upper r) &&
              match bound_val (lower r), bound_val (upper r) with Some a, Some b => (a <=? b)%Z | _, _ => true end
  end.
Lemma fine_boundb_ok b : fine_boundb b = true -> fine_bound b.
Proof. destruct b; cbn [fine_boundb fine_bound]; auto. rewrite andb_true_iff. auto. Qed.
Lemma fine_rangeb_ok r : fine_rangeb r = true -> fine_range S r.
Proof.
  destruct r as [r|]; cbn [fine_rangeb fine_range]; auto. rewrite !andb_true_iff. intros [[A B] C].
  split; [now apply fine_boundb_ok|]. split; [now apply fine_boundb_ok|]. intros lo hi L H.
  apply bound_is_val in L, H. rewrite L, H in C. lia.
Qed.
Definition fine_sizeb (r : option range) : bool :=
  fine_rangeb r && match r with Some (Range BMin _ _) => false | _ => true end.
Lemma fine_sizeb_ok r : fine_sizeb r = true -> fine_size S r.
Proof.
  unfold fine_sizeb. rewrite andb_true_iff. intros [A B]. split; [now apply fine_rangeb_ok|]. destruct r as [[[] u e]|]; try discriminate; auto; discriminate.
Qed.
Definition fine_elementb (e : asn) : bool :=
  match e with ARef _ _ | ABoolean | AInteger None | AOctets None | ABitstr None => true | _ => false end.
Lemma fine_elementb_ok e : fine_elementb e = true -> fine_element e.
Proof. destruct e as [[]| |[]|[]| | | | |]; cbn; auto; discriminate. Qed.

Definition is_lref (l : lit) : bool := match l with LRef _ => true | _ => false end.
Definition fine_defaultb (t : asn) (l : lit) : bool :=
  match l with LRef n => value_word n && no_hyphenb n && negb (mem n body_names) | _ => true end &&
  match t with
  | AInteger _ => true
  | ABoolean | ABitstr _ => negb (is_lref l)
  | AEnumer _ _ => negb (is_lref l) && match l with LItem s => value_word s | _ => true end
  | AOctets _ => negb (is_lref l) && match l with LBin [] => false | _ => true end
  | _ => false
  end.
Lemma not_lref l : negb (is_lref l) = true -> forall n, l <> LRef n.
Proof. destruct l; cbn; intros; discriminate. Qed.
Lemma fine_defaultb_ok t l : fine_defaultb t l = true -> fine_default S t l.
Proof.
  unfold fine_defaultb, fine_default. rewrite andb_true_iff. intros [A B]. split.
  - intros n ->. rewrite !andb_true_iff, negb_true_iff in A. destruct A as [[A1 A2] A3]. split; [exact A1|]. split; [exact A2|].
    intros X. apply in_mem in X. congruence.
  - destruct t; try discriminate; try exact I; try (now apply not_lref); rewrite andb_true_iff in B; destruct B as [B1 B2];
      (split; [now apply not_lref|]).
    + intros ->. discriminate.
    + intros s ->. exact B2.
Qed.
Definition fine_statusb (t : asn) (s : status) : bool :=
  match s with
  | Default l => match t with
                 | ARef m _ => match find_type S m with Some t' => fine_defaultb t' l | None => false end
                 | _ => fine_defaultb t l
                 end
  | _ => true
  end.
Lemma fine_statusb_ok t s : fine_statusb t s = true -> fine_status S t s.
Proof.
  destruct s as [| |l]; cbn [fine_statusb fine_status]; auto. destruct t; try apply fine_defaultb_ok.
  intros H t' I. apply in_find_type in I. rewrite I in H. now apply fine_defaultb_ok.
Qed.

Fixpoint nodups (l : list string) : bool := match l with [] => true | x :: r => negb (mem x r) && nodups r end.
Lemma nodups_ok l : nodups l = true -> NoDup l.
Proof.
  induction l as [|x l IH]; cbn [nodups]; [constructor|]. rewrite andb_true_iff, negb_true_iff. intros [A B].
  constructor; [|auto]. intros I. apply in_mem in I. congruence.
Qed.

Definition unhiddenb (l : list (part asn)) : bool :=
  forallb (fun p => match p_status p with
                    | Default (LRef n) => forallb (fun q => negb (own_class (p_type q) && String.eqb (underscore (p_name q)) n)) l
                    | _ => true
                    end) l.
Lemma unhiddenb_ok l : unhiddenb l = true -> unhidden l.
Proof.
  unfold unhiddenb. rewrite forallb_forall. intros H p q n P Q E O X. apply H in P. rewrite E in P.
  rewrite forallb_forall in P. apply P in Q. rewrite O, X, String.eqb_refl in Q. discriminate.
Qed.
Definition plain_status (s : status) : bool := match s with Mandatory => true | _ => false end.
Definition closed (ext : bool) (adds : list (part asn)) (groups : list (list (part asn))) : bool :=
  ext || match adds, groups with [], [] => true | _, _ => false end.
Lemma closed_ok ext adds groups : closed ext adds groups = true -> ext = false -> adds = [] /\ groups = [].
Proof. intros C ->. destruct adds, groups; try discriminate. auto. Qed.

Fixpoint fineb (fuel : nat) (t : asn) : bool :=
  match fuel with
  | O => false
  | Datatypes.S k =>
    let partb (p : part asn) : bool :=
      fineb k (p_type p) && fine_statusb (p_type p) (p_status p) && value_word (p_name p) &&
      (negb (own_class (p_type p)) || negb (mem (underscore (p_name p)) (keywords ++ body_names))) in
    match t with
    | AInteger r => fine_rangeb r
    | ABoolean => true
    | AOctets r | ABitstr r => fine_sizeb r
    | AEnumer root adds => nodups (root ++ list_of adds) && forallb value_word (root ++ list_of adds)
    | ASequence ext root adds groups =>
      forallb partb (all_parts root adds groups) && nodups (map p_name (all_parts root adds groups)) &&
      unhiddenb (all_parts root adds groups) && closed ext adds groups
    | AChoice ext root adds groups =>
      forallb partb (all_parts root adds groups) && nodups (map p_name (all_parts root adds groups)) &&
      forallb (fun p => plain_status (p_status p)) (all_parts root adds groups) && closed ext adds groups
    | ASeqOf r e => fine_sizeb r && fine_elementb e && fineb k e
    | ARef _ None => true
    | ARef _ (Some _) => false
    end
  end.
Lemma fineb_ok fuel : forall t, fineb fuel t = true -> fine S t.
Proof.
  induction fuel as [|k IH]; intros t; cbn [fineb]; [discriminate|].
  set (partb := fun p : part asn => fineb k (p_type p) && fine_statusb (p_type p) (p_status p) && value_word (p_name p) &&
      (negb (own_class (p_type p)) || negb (mem (underscore (p_name p)) (keywords ++ body_names)))).
  assert (forall l, forallb partb l = true -> Forall (fine_part S) l) as PL.
  { intros l. rewrite forallb_forall, Forall_forall. intros H [n s u] I. apply H in I. unfold partb in I. cbn [p_type p_status p_name] in I.
    rewrite !andb_true_iff in I. destruct I as [[[A B] C] D]. constructor; auto; [now apply fine_statusb_ok|].
    intros O X. rewrite O in D. cbn [negb orb] in D. rewrite negb_true_iff in D. apply in_mem in X. congruence. }
  clearbody partb.
  destruct t as [r| |r|r|root adds|ext root adds groups|ext root adds groups|r e|n r].
  - intros H. constructor. now apply fine_rangeb_ok.
  - constructor.
  - intros H. constructor. now apply fine_sizeb_ok.
  - intros H. constructor. now apply fine_sizeb_ok.
  - rewrite andb_true_iff. intros [A B]. constructor; [now apply nodups_ok|]. rewrite forallb_forall in B. now apply Forall_forall.
  - rewrite !andb_true_iff. intros [[[A B] C] D]. constructor; [auto|now apply nodups_ok|now apply unhiddenb_ok|now apply closed_ok].
  - rewrite !andb_true_iff. intros [[[A B] C] D]. constructor; [auto|now apply nodups_ok| |now apply closed_ok].
    rewrite forallb_forall in C. apply Forall_forall. intros p I. apply C in I. now destruct (p_status p).
  - rewrite !andb_true_iff. intros [[A B] C]. constructor; [now apply fine_sizeb_ok|now apply fine_elementb_ok|now apply IH].
  - destruct r; [discriminate|]. constructor.
Qed.

(** * Order *)

Fixpoint refs (fuel : nat) (t : asn) : option (list string) :=
  match fuel with
  | O => None
  | Datatypes.S k =>
    match t with
    | ARef n _ => Some [n]
    | ASeqOf _ e => refs k e
    | ASequence _ root adds groups | AChoice _ root adds groups =>
      option_map (@List.concat string) (all_opt (fun p => refs k (p_type p)) (all_parts root adds groups))
    | _ => Some []
    end
  end.
Lemma forall2_left' {A B} (R : A -> B -> Prop) l cs a : Forall2 R l cs -> In a l -> exists b, In b cs /\ R a b.
Proof. induction 1 as [|x y l cs X F IH]; intros I; [destruct I|]. destruct I as [->|I]; [exists y; split; [now left|exact X]|].
  destruct (IH I) as (b & B1 & B2). exists b. split; [now right|exact B2]. Qed.
Lemma refs_ok fuel : forall t l m, refs fuel t = Some l -> refers t m -> In m l.
Proof.
  induction fuel as [|k IH]; intros t l m; cbn [refs]; [discriminate|]. intros E R.
  destruct R as [n r|r e m R|ext root adds groups p m I R|ext root adds groups p m I R].
  - injection E as <-. now left.
  - now apply (IH e).
  - destruct (all_opt _ _) as [ls|] eqn:A; [|discriminate]. injection E as <-.
    apply (all_opt_ok _ (fun p l => refs k (p_type p) = Some l) (fun x y H => H)) in A.
    destruct (forall2_left' _ _ _ p A I) as (b & B & F). apply in_concat. exists b. split; [exact B|]. now apply (IH (p_type p)).
  - destruct (all_opt _ _) as [ls|] eqn:A; [|discriminate]. injection E as <-.
    apply (all_opt_ok _ (fun p l => refs k (p_type p) = Some l) (fun x y H => H)) in A.
    destruct (forall2_left' _ _ _ p A I) as (b & B & F). apply in_concat. exists b. split; [exact B|]. now apply (IH (p_type p)).
Qed.

Fixpoint short (fuel k : nat) (n : string) : bool :=
  match k with
  | O => false
  | Datatypes.S k' =>
    match find_type S n with
    | Some t => if structure t then match refs fuel t with Some l => forallb (short fuel k') l | None => false end else true
    | None => true
    end
  end.
Lemma short_ok fuel k : forall n p, short fuel k n = true -> ref_path S (n :: p) -> List.length (n :: p) <= k.
Proof.
  induction k as [|k IH]; intros n p; cbn [short]; [discriminate|]. intros H P. inversion P as [? t I X|? t m q I X R P']; subst.
  - cbn [List.length]. lia.
  - rewrite (in_find_type n t I), X in H. destruct (refs fuel t) as [l|] eqn:E; [|discriminate].
    rewrite forallb_forall in H. specialize (H m (refs_ok fuel t l m E R)). specialize (IH m q H P'). cbn [List.length] in *. lia.
Qed.

Definition octets_type (t : asn) : bool := match t with AOctets _ => true | _ => false end.
Definition builtin_valueb (t : asn) : bool := match t with AInteger _ | ABoolean | AOctets _ | ABitstr _ => true | _ => false end.
Definition fine_assignment (fuel : nat) (a : assignment) : bool :=
  match a with
  | TypeA n t => type_word n && negb (mem (underscore n) (map fst library ++ keywords)) && fineb fuel t &&
                 match meaning fuel t with Some _ => true | None => false end
  | ValueA n t l => value_word n && negb (mem (underscore n) keywords) && builtin_valueb t && negb (is_lref l) &&
                    negb (octets_type t && match l with LBin [] => true | _ => false end) &&
                    match plain_val t l with Some _ => true | None => false end
  end.
Definition sorted_assignment (fuel : nat) (a : assignment) : bool :=
  match a with
  | TypeA n t =>
    negb (mem n other_words) && short fuel 101 n &&
    match t with
    | ARef m _ => match find_type S m with Some t' => negb (reference t') | None => true end
    | _ => negb (structure t) ||
           match refs fuel t with
           | Some l => forallb (fun m => match find_type S m with
                                         | Some (ARef m' _) => match find_type S m' with Some t' => negb (structure t') | None => true end
                                         | _ => true
                                         end) l
           | None => false
           end
    end
  | ValueA _ _ _ => true
  end.

Lemma fine_check_ok fuel : forallb (fine_assignment fuel) S = true -> fine_schema S.
Proof.
  rewrite forallb_forall. intros H. constructor.
  - exact ND.
  - intros n t I. apply H in I. cbn [fine_assignment] in I. rewrite !andb_true_iff, negb_true_iff in I. destruct I as [[[A B] C] D].
    split; [exact A|]. split; [|now apply (fineb_ok fuel)]. intros X. apply in_mem in X. congruence.
  - intros n t I. apply H in I. cbn [fine_assignment] in I. rewrite !andb_true_iff in I. destruct I as [_ D].
    destruct (meaning fuel t) as [T|] eqn:M; [|discriminate]. exists T. now apply (meaning_is fuel).
  - intros n t l I. apply H in I. cbn [fine_assignment] in I. rewrite !andb_true_iff, !negb_true_iff in I. destruct I as [[[[[A B] C] D] E] F].
    split; [exact A|]. split; [intros X; apply in_mem in X; congruence|]. split; [destruct t; try discriminate; exact I|].
    split; [destruct l; try discriminate; intros; discriminate|]. split.
    + intros r -> ->. discriminate.
    + destruct (plain_val t l) as [v|] eqn:P; [|discriminate]. exists v. now apply plain_val_is.
Qed.
Lemma sort_check_ok fuel : forallb (sorted_assignment fuel) S = true -> sortable S.
Proof.
  rewrite forallb_forall. intros H.
  constructor.
  - intros n t I. apply H in I. cbn [sorted_assignment] in I. rewrite !andb_true_iff, negb_true_iff in I. destruct I as [[A _] _].
    intros X. apply in_mem in X. congruence.
  - intros p P. destruct p as [|n p]; [inversion P|]. assert (exists t, In (TypeA n t) S) as (t & I) by (inversion P; eauto).
    apply H in I. cbn [sorted_assignment] in I. rewrite !andb_true_iff in I. destruct I as [[_ A] _]. now apply (short_ok fuel).
  - intros n m r t I J. apply H in I. cbn [sorted_assignment] in I. rewrite !andb_true_iff in I. destruct I as [_ A].
    rewrite (in_find_type m t J), negb_true_iff in A. exact A.
  - intros n t m m' r t' I X R J J'. apply H in I. cbn [sorted_assignment] in I. rewrite !andb_true_iff in I. destruct I as [_ A].
    assert (match refs fuel t with
           | Some l => forallb (fun m => match find_type S m with
                                         | Some (ARef m' _) => match find_type S m' with Some t' => negb (structure t') | None => true end
                                         | _ => true
                                         end) l
           | None => false
           end = true) as B by (destruct t; try discriminate; exact A).
    destruct (refs fuel t) as [l|] eqn:E; [|discriminate]. rewrite forallb_forall in B.
    specialize (B m (refs_ok fuel t l m E R)). rewrite (in_find_type m _ J), (in_find_type m' t' J'), negb_true_iff in B. exact B.
Qed.

End Checks.

Definition checked (fuel : nat) (S : schema) : bool :=
  nodups (map name_of S) && forallb (fine_assignment S fuel) S && forallb (sorted_assignment S fuel) S.

Theorem checked_fine fuel S : checked fuel S = true -> fine_schema S /\ sortable S.
Proof.
  unfold checked. rewrite !andb_true_iff. intros [[A B] C]. apply nodups_ok in A.
  split; [now apply (fine_check_ok S A fuel)|now apply (sort_check_ok S A fuel)].
Qed.
