(** Generated modules: what the classes of a module are worth to the codec is what
    the schema means. *)
From Coq Require Import ZArith List String Ascii Bool Arith Lia DecimalString.
From Coq Require DecimalPos DecimalZ.
From Coq Require Import Permutation ZifyBool ZifyNat ZifyN.
Import ListNotations.
From Verif Require Import PyBase BitFacts Schema Encoder Generator Ordering Emit Exec Meaning.

Open Scope string_scope.
Open Scope list_scope.
Open Scope nat_scope.

(** * Induction on types *)

Section AsnInd.
Variable P : asn -> Prop.
Let Pp (p : part asn) := P (p_type p).
Hypothesis HI : forall r, P (AInteger r).
Hypothesis HB : P ABoolean.
Hypothesis HO : forall r, P (AOctets r).
Hypothesis HS : forall r, P (ABitstr r).
Hypothesis HE : forall root adds, P (AEnumer root adds).
Hypothesis HQ : forall ext root adds groups,
  (forall p, In p (all_parts root adds groups) -> P (p_type p)) -> P (ASequence ext root adds groups).
Hypothesis HC : forall ext root adds groups,
  (forall p, In p (all_parts root adds groups) -> P (p_type p)) -> P (AChoice ext root adds groups).
Hypothesis HL : forall r e, P e -> P (ASeqOf r e).
Hypothesis HR : forall n r, P (ARef n r).

Lemma in_all_parts {A} (p : part A) root adds groups : In p (all_parts root adds groups) ->
  In p root \/ In p adds \/ exists g, In g groups /\ In p g.
Proof.
  unfold all_parts. rewrite !in_app_iff, in_concat. intuition.
Qed.

Lemma parts_lift root adds groups :
  Forall Pp root -> Forall Pp adds -> Forall (Forall Pp) groups ->
  forall p, In p (all_parts root adds groups) -> P (p_type p).
Proof.
  intros R A G p I. apply in_all_parts in I as [I|[I|(g & I & J)]].
  - exact (proj1 (Forall_forall _ _) R p I).
  - exact (proj1 (Forall_forall _ _) A p I).
  - exact (proj1 (Forall_forall _ _) (proj1 (Forall_forall _ _) G g I) p J).
Qed.

Fixpoint asn_rect' (t : asn) : P t :=
  let parts := fix parts (l : list (part asn)) : Forall Pp l :=
    match l with
    | [] => Forall_nil _
    | p :: r => Forall_cons p (match p return Pp p with Part n s t => asn_rect' t end) (parts r)
    end in
  let groups := fix groups (l : list (list (part asn))) : Forall (Forall Pp) l :=
    match l with
    | [] => Forall_nil _
    | g :: r => Forall_cons g (parts g) (groups r)
    end in
  match t return P t with
  | AInteger r => HI r
  | ABoolean => HB
  | AOctets r => HO r
  | ABitstr r => HS r
  | AEnumer root adds => HE root adds
  | ASequence ext root adds gs =>
    HQ ext root adds gs (parts_lift root adds gs (parts root) (parts adds) (groups gs))
  | AChoice ext root adds gs =>
    HC ext root adds gs (parts_lift root adds gs (parts root) (parts adds) (groups gs))
  | ASeqOf r e => HL r e (asn_rect' e)
  | ARef n r => HR n r
  end.
End AsnInd.

(** * Texts *)

Lemma to_int_nonnil z : Z.to_int z <> Decimal.Pos Decimal.Nil /\ Z.to_int z <> Decimal.Neg Decimal.Nil.
Proof.
  destruct z as [|p|p]; cbn [Z.to_int]; split; try discriminate; intros E; injection E as E;
    now apply (DecimalPos.Unsigned.to_uint_nonnil p).
Qed.

Lemma num_text_literal z : int_literal (num_text z) = Some z.
Proof.
  destruct (to_int_nonnil z). unfold int_literal, num_text. rewrite NilZero.isi by assumption.
  cbn [option_map]. now rewrite DecimalZ.of_to.
Qed.

Lemma num_text_nonempty z : String.eqb (num_text z) "" = false.
Proof.
  apply String.eqb_neq. intros E. pose proof (num_text_literal z) as H. rewrite E in H.
  vm_compute in H. discriminate.
Qed.

Lemma lower_not_digit c d : is_lower c = true -> uint_of_char c d = None.
Proof.
  destruct d; [|reflexivity].
  destruct c as [[] [] [] [] [] [] [] []]; try (intros L; exact eq_refl); intros L; vm_compute in L; discriminate.
Qed.
Lemma upper_not_digit c d : is_upper c = true -> uint_of_char c d = None.
Proof.
  destruct d; [|reflexivity].
  destruct c as [[] [] [] [] [] [] [] []]; try (intros L; exact eq_refl); intros L; vm_compute in L; discriminate.
Qed.

Lemma value_word_literal s : value_word s = true -> int_literal s = None.
Proof.
  destruct s as [|c r]; cbn [value_word]; [discriminate|]. intros W.
  apply andb_true_iff in W as [L _]. unfold int_literal, NilZero.int_of_string.
  destruct (Ascii.eqb_spec c "-"%char) as [->|N]; [discriminate L|].
  cbn [NilZero.uint_of_string NilEmpty.uint_of_string]. rewrite lower_not_digit by exact L. reflexivity.
Qed.

Lemma value_word_nonempty s : value_word s = true -> String.eqb s "" = false.
Proof. destruct s; [discriminate|reflexivity]. Qed.
Lemma type_word_nonempty s : type_word s = true -> String.eqb s "" = false.
Proof. destruct s; [discriminate|reflexivity]. Qed.

Lemma no_hyphen_same s : no_hyphen s -> to_hyphen s = s /\ underscore s = s.
Proof.
  unfold no_hyphen. induction s as [|c r IH]; [now split|]. cbn [all_chars to_hyphen underscore].
  intros H. apply andb_true_iff in H as [A B]. apply negb_true_iff in A. rewrite A.
  destruct (IH B) as [-> ->]. now split.
Qed.

(** Words keep their difference when hyphens become underscores. *)
Definition plain_char (c : ascii) : bool := negb (Ascii.eqb c "_").
Lemma word_plain c : word_char c = true -> plain_char c = true.
Proof.
  destruct (plain_char c) eqn:E; [reflexivity|]. unfold plain_char in E. apply negb_false_iff, Ascii.eqb_eq in E.
  subst. discriminate.
Qed.
Lemma upper_plain c : is_upper c = true -> plain_char c = true.
Proof. intros U. apply word_plain. unfold word_char. now rewrite U. Qed.
Lemma lower_plain c : is_lower c = true -> plain_char c = true.
Proof. intros U. apply word_plain. unfold word_char. now rewrite U, orb_true_r. Qed.
Lemma all_chars_impl (f g : ascii -> bool) s : (forall c, f c = true -> g c = true) ->
  all_chars f s = true -> all_chars g s = true.
Proof.
  intros I. induction s as [|c r IH]; [reflexivity|]. cbn [all_chars]. intros H.
  apply andb_true_iff in H as [A B]. rewrite (I _ A), (IH B). reflexivity.
Qed.

Lemma underscore_inj s t : all_chars plain_char s = true -> all_chars plain_char t = true ->
  underscore s = underscore t -> s = t.
Proof.
  revert t. induction s as [|c r IH]; intros [|d t]; cbn [underscore all_chars]; try discriminate; [reflexivity|].
  intros A B E. apply andb_true_iff in A as [A A'], B as [B B'].
  apply negb_true_iff in A, B. injection E as E F.
  f_equal; [|now apply IH].
  destruct (Ascii.eqb_spec c "-"), (Ascii.eqb_spec d "-"); subst; try reflexivity; try discriminate; congruence.
Qed.

Lemma type_word_plain s : type_word s = true -> all_chars plain_char s = true.
Proof.
  destruct s as [|c r]; [discriminate|]. cbn [type_word all_chars]. intros H. apply andb_true_iff in H as [A B].
  rewrite (upper_plain _ A). exact (all_chars_impl _ _ _ word_plain B).
Qed.
Lemma value_word_plain s : value_word s = true -> all_chars plain_char s = true.
Proof.
  destruct s as [|c r]; [discriminate|]. cbn [value_word all_chars]. intros H. apply andb_true_iff in H as [A B].
  rewrite (lower_plain _ A). exact (all_chars_impl _ _ _ word_plain B).
Qed.

(** Classes and values can be told by the case of their first letter. *)
Definition low (s : string) : bool := match s with String c _ => is_lower c | EmptyString => false end.
Definition high (s : string) : bool := match s with String c _ => is_upper c | EmptyString => false end.
Lemma low_not_high s : low s = true -> high s = true -> False.
Proof.
  destruct s as [|c r]; cbn; [discriminate|].
  unfold is_lower, is_upper. lia.
Qed.
Lemma value_word_low s : value_word s = true -> low (underscore s) = true.
Proof.
  destruct s as [|c r]; [discriminate|]. cbn [value_word underscore low]. intros H.
  apply andb_true_iff in H as [A B]. destruct (Ascii.eqb_spec c "-"); [subst; discriminate|exact A].
Qed.
Lemma type_word_high s : type_word s = true -> high (underscore s) = true.
Proof.
  destruct s as [|c r]; [discriminate|]. cbn [type_word underscore high]. intros H.
  apply andb_true_iff in H as [A B]. destruct (Ascii.eqb_spec c "-"); [subst; discriminate|exact A].
Qed.

Lemma in_mem s l : mem s l = true <-> In s l.
Proof.
  unfold mem. rewrite existsb_exists. split.
  - intros (x & I & E). apply String.eqb_eq in E. now subst.
  - intros I. exists s. split; [exact I|apply String.eqb_refl].
Qed.
Lemma not_in_mem s l : ~ In s l -> mem s l = false.
Proof. intros N. destruct (mem s l) eqn:E; [|reflexivity]. apply in_mem in E. contradiction. Qed.

Lemma underscored_chars s : all_chars word_char s = true ->
  all_chars (fun c => start_char c || is_digit c) (underscore s) = true.
Proof.
  induction s as [|c r IH]; [reflexivity|]. cbn [all_chars underscore]. intros H.
  apply andb_true_iff in H as [A B]. rewrite (IH B), andb_true_r.
  unfold word_char in A. destruct (Ascii.eqb_spec c "-"%char) as [->|N]; [reflexivity|].
  unfold start_char. destruct (is_upper c), (is_lower c), (is_digit c); try reflexivity; [apply orb_true_r|discriminate A].
Qed.

Lemma word_py_name c r : is_upper c = true \/ is_lower c = true -> all_chars word_char r = true ->
  ~ In (underscore (String c r)) keywords -> py_name (underscore (String c r)) = true.
Proof.
  intros U W N. cbn [underscore] in *. apply not_in_mem in N.
  destruct (Ascii.eqb_spec c "-"%char) as [->|D]; [destruct U; discriminate|].
  unfold py_name. rewrite N, (underscored_chars r W). unfold start_char.
  destruct U as [-> | ->]; [reflexivity|]. now rewrite orb_true_r.
Qed.
Lemma type_py_name s : type_word s = true -> ~ In (underscore s) keywords -> py_name (underscore s) = true.
Proof.
  destruct s as [|c r]; [discriminate|]. cbn [type_word]. intros H. apply andb_true_iff in H as [A B].
  apply word_py_name; auto.
Qed.
Lemma value_py_name s : value_word s = true -> ~ In (underscore s) keywords -> py_name (underscore s) = true.
Proof.
  destruct s as [|c r]; [discriminate|]. cbn [value_word]. intros H. apply andb_true_iff in H as [A B].
  apply word_py_name; auto.
Qed.

(** * Name spaces *)

Lemma lookup_in {A} n (l : list (string * A)) x : lookup n l = Some x -> In (n, x) l.
Proof.
  induction l as [|[m y] r IH]; cbn [lookup In]; [discriminate|].
  destruct (String.eqb_spec n m); [intros E; injection E as <-; subst; now left|auto].
Qed.
Lemma lookup_none {A} n (l : list (string * A)) : ~ In n (map fst l) -> lookup n l = None.
Proof.
  intros N. destruct (lookup n l) as [x|] eqn:E; [|reflexivity]. exfalso. apply N.
  apply lookup_in in E. exact (in_map fst _ _ E).
Qed.
Lemma lookup_app {A} n (l r : list (string * A)) :
  lookup n (l ++ r) = match lookup n l with Some x => Some x | None => lookup n r end.
Proof.
  induction l as [|[m y] l IH]; cbn [lookup app]; [reflexivity|]. now destruct (String.eqb n m).
Qed.

(** The names bound in class bodies begin with a small letter, those of classes
    with a capital one. *)
Definition lows (l : space) : Prop := Forall (fun e => low (fst e) = true) l.
Lemma lows_lookup l n : lows l -> high n = true -> lookup n l = None.
Proof.
  intros L H. apply lookup_none. intros I. apply in_map_iff in I as ((m & o) & <- & I).
  exact (low_not_high m (proj1 (Forall_forall _ _) L _ I) H).
Qed.
Lemma resolve_high l g n o : lows l -> high n = true -> lookup n g = Some o -> resolve l g n = Ok o.
Proof. intros L H E. unfold resolve. now rewrite (lows_lookup l n L H), E. Qed.

Definition has_library (g : space) : Prop := forall n o, lookup n library = Some o -> lookup n g = Some o.

Lemma library_high n o : lookup n library = Some o -> high n = true.
Proof.
  intros E. apply lookup_in in E. apply (in_map fst) in E. cbn [fst] in E. revert E.
  generalize n. apply (proj1 (Forall_forall _ _)). repeat constructor.
Qed.
Lemma lib_resolve l g n o : lows l -> has_library g -> lookup n library = Some o -> resolve l g n = Ok o.
Proof. intros L H E. apply resolve_high; [exact L|exact (library_high n o E)|exact (H n o E)]. Qed.

Lemma lib_call l g f : lows l -> has_library g -> lookup f library = Some (OFn f) -> call l g f = Ok tt.
Proof.
  intros L H E. unfold call. rewrite (lib_resolve l g f _ L H E). cbn [bind]. now rewrite String.eqb_refl.
Qed.

Lemma bind_ok {A B} (a : A) (f : A -> res B) : bind (Ok a) f = f a.
Proof. reflexivity. Qed.

(** * Literals *)

Lemma cat_cons s r : cat (s :: r) = append s (cat r).
Proof. reflexivity. Qed.
Lemma append_nil s : append s "" = s.
Proof. induction s as [|c r IH]; [reflexivity|]. cbn [append]. now rewrite IH. Qed.
Lemma append_assoc_s a b c : append (append a b) c = append a (append b c).
Proof. induction a as [|x r IH]; [reflexivity|]. cbn [append]. now rewrite IH. Qed.

Lemma ends_with_append c s t : t <> EmptyString -> ends_with c (append s t) = ends_with c t.
Proof.
  intros N. induction s as [|d r IH]; [reflexivity|].
  destruct t as [|e t]; [contradiction|]. cbn [append] in *. destruct r as [|f r]; [reflexivity|].
  cbn [append] in *. exact IH.
Qed.
Lemma but_last_append s t : t <> EmptyString -> but_last (append s t) = append s (but_last t).
Proof.
  intros N. induction s as [|d r IH]; [reflexivity|].
  destruct t as [|e t]; [contradiction|]. cbn [append] in *. rewrite <- IH.
  destruct r as [|f r]; [cbn [append]; reflexivity|]. cbn [append]. reflexivity.
Qed.

(** The text between the quotes comes back, digit by digit. *)
Lemma unquote_digits {A} (f : A -> ascii) l : (forall x, f x <> "'"%char) ->
  unquote (append "'" (append (cat (map (fun x => String (f x) EmptyString) l)) "'")) = Some (map f l).
Proof.
  intros N. cbn [append unquote]. rewrite Ascii.eqb_refl.
  induction l as [|x l IH]; [reflexivity|]. cbn [map]. rewrite cat_cons. cbn [append digits_to_quote].
  destruct (Ascii.eqb_spec (f x) "'"); [now apply N in e|]. now rewrite IH.
Qed.
Lemma all_some_map {A B C} (f : A -> B) (g : B -> option C) (h : A -> C) l :
  (forall x, In x l -> g (f x) = Some (h x)) -> all_some g (map f l) = Some (map h l).
Proof.
  induction l as [|x l IH]; intros H; [reflexivity|]. cbn [map all_some].
  rewrite (H x) by now left. rewrite IH by (intros y Y; apply H; now right). reflexivity.
Qed.

Definition bin_char (b : bool) : ascii := if b then "1"%char else "0"%char.
Definition hex_char (d : Z) : ascii :=
  ascii_of_nat (if (d <? 10)%Z then 48 + Z.to_nat d else 55 + Z.to_nat d).

Lemma bin_text_char s : map bin_text s = map (fun b => String (bin_char b) EmptyString) s.
Proof. apply map_ext. now intros []. Qed.
Lemma hex_text_char h : map hex_text h = map (fun d => String (hex_char d) EmptyString) h.
Proof. reflexivity. Qed.

Lemma hex_digit_char d : (0 <= d < 16)%Z -> hex_digit (hex_char d) = Some d.
Proof.
  intros R.
  assert (d = 0 \/ d = 1 \/ d = 2 \/ d = 3 \/ d = 4 \/ d = 5 \/ d = 6 \/ d = 7 \/ d = 8 \/ d = 9 \/
          d = 10 \/ d = 11 \/ d = 12 \/ d = 13 \/ d = 14 \/ d = 15)%Z as C by lia.
  repeat destruct C as [->|C]; try reflexivity. now subst.
Qed.
Lemma hex_char_quote d : (0 <= d < 16)%Z -> hex_char d <> "'"%char.
Proof. intros R E. pose proof (hex_digit_char d R) as H. rewrite E in H. discriminate. Qed.

Definition quoted (s : string) : string := append "'" (append s "'").

Lemma bin_digits_text s : bin_digits (quoted (cat (map bin_text s))) = Some s.
Proof.
  unfold bin_digits, quoted. rewrite bin_text_char, unquote_digits by now intros [].
  rewrite (all_some_map bin_char bin_digit id) by now intros []. now rewrite map_id.
Qed.
Lemma hex_digits_text h : Forall (fun d => 0 <= d < 16)%Z h ->
  hex_digits (quoted (cat (map hex_text h))) = Some h.
Proof.
  intros F. unfold hex_digits, quoted. rewrite hex_text_char.
  assert (unquote (append "'" (append (cat (map (fun d => String (hex_char d) EmptyString) h)) "'")) = Some (map hex_char h)) as ->.
  { cbn [append unquote]. rewrite Ascii.eqb_refl.
    induction F as [|d h R F IH]; [reflexivity|]. cbn [map]. rewrite cat_cons. cbn [append digits_to_quote].
    destruct (Ascii.eqb_spec (hex_char d) "'"); [now apply hex_char_quote in e|]. now rewrite IH. }
  rewrite (all_some_map hex_char hex_digit id).
  - now rewrite map_id.
  - intros d I. apply hex_digit_char. exact (proj1 (Forall_forall _ _) F d I).
Qed.

Lemma parse_bin k s : k = KOcts \/ k = KBits ->
  parse_value k (ARaw (lit_text (LBin s))) = Some (ABin (quoted (cat (map bin_text s)))).
Proof.
  intros K. assert (lit_text (LBin s) = append (quoted (cat (map bin_text s))) "B") as E.
  { unfold quoted. cbn [lit_text cat append]. now rewrite append_assoc_s. }
  unfold parse_value. cbn [arg_text]. rewrite E, ends_with_append, but_last_append by discriminate.
  cbn [but_last]. rewrite append_nil. destruct K as [-> | ->]; reflexivity.
Qed.
Lemma parse_hex k h : k = KOcts \/ k = KBits ->
  parse_value k (ARaw (lit_text (LHex h))) = Some (AHex (quoted (cat (map hex_text h)))).
Proof.
  intros K. assert (lit_text (LHex h) = append (quoted (cat (map hex_text h))) "H") as E.
  { unfold quoted. cbn [lit_text cat append]. now rewrite append_assoc_s. }
  unfold parse_value. cbn [arg_text]. rewrite E, !ends_with_append, but_last_append by discriminate.
  cbn [but_last]. rewrite append_nil. destruct K as [-> | ->]; reflexivity.
Qed.

(** Octets from digits. *)
Lemma from_hex_halves n : forall h k bs, List.length bs <= n -> k < 2 -> Forall (fun o => 0 <= o < 256)%Z bs ->
  flat_map halves bs = h ++ repeat 0%Z k -> from_hex_string h = bs.
Proof.
  induction n as [|n IH]; intros h k bs L K F E.
  - destruct bs; [|cbn [List.length] in L; lia]. destruct h; [reflexivity|discriminate].
  - destruct bs as [|o bs].
    + destruct h; [reflexivity|discriminate].
    + cbn [flat_map halves app] in E. apply Forall_cons_iff in F as [R F]. cbn [List.length] in L.
      destruct h as [|a [|b h]].
      * destruct k as [|[|k]]; [discriminate|discriminate|lia].
      * cbn [app] in E. injection E as <- E. destruct k as [|[|k]]; [discriminate| |lia].
        cbn [repeat app] in E. injection E as M E. destruct bs; [|discriminate].
        cbn [from_hex_string]. f_equal.
        pose proof (Z.div_mod o 16 ltac:(lia)). lia.
      * cbn [app] in E. injection E as <- <- E. cbn [from_hex_string]. f_equal.
        -- pose proof (Z.div_mod o 16 ltac:(lia)). lia.
        -- apply (IH h k bs); try assumption; lia.
Qed.

Definition octet_bits (o : Z) : bits := nibble (o / 16) ++ nibble (o mod 16).
Lemma nibble_bval d : (0 <= d < 16)%Z -> bval (nibble d) = d.
Proof.
  intros R.
  assert (d = 0 \/ d = 1 \/ d = 2 \/ d = 3 \/ d = 4 \/ d = 5 \/ d = 6 \/ d = 7 \/ d = 8 \/ d = 9 \/
          d = 10 \/ d = 11 \/ d = 12 \/ d = 13 \/ d = 14 \/ d = 15)%Z as C by lia.
  repeat destruct C as [->|C]; try reflexivity. now subst.
Qed.
Lemma octet_bval o : (0 <= o < 256)%Z -> bval (octet_bits o) = o.
Proof.
  intros R. unfold octet_bits. rewrite bval_app. pose proof (Z.div_mod o 16 ltac:(lia)).
  rewrite !nibble_bval by (try apply Z.mod_pos_bound; try split; try apply Z.div_pos; try apply Z.div_lt_upper_bound; lia).
  cbn [List.length nibble]. change (2 ^ Z.of_nat 4)%Z with 16%Z. lia.
Qed.

Lemma bin_octets_eq fuel : forall s k bs, List.length s < fuel -> s <> [] -> k < 8 ->
  Forall (fun o => 0 <= o < 256)%Z bs -> flat_map octet_bits bs = s ++ repeat false k ->
  bin_octets fuel s = bs.
Proof.
  induction fuel as [|n IH]; intros s k bs L N K F E; [lia|].
  destruct bs as [|o bs]; [destruct s; [contradiction|discriminate]|].
  apply Forall_cons_iff in F as [R F]. cbn [flat_map] in E.
  assert (List.length (octet_bits o) = 8) as L8 by reflexivity.
  cbn [bin_octets]. destruct (Nat.le_gt_cases (List.length s) 8) as [H|H].
  - assert (List.length (octet_bits o ++ flat_map octet_bits bs) = List.length s + k) as T
      by (rewrite E, app_length, repeat_length; reflexivity).
    rewrite app_length, L8 in T.
    assert (bs = []) as ->.
    { destruct bs as [|p bs]; [reflexivity|]. cbn [flat_map] in T. rewrite app_length in T.
      change (List.length (octet_bits p)) with 8 in T. lia. }
    cbn [flat_map List.length] in *. rewrite app_nil_r in E.
    rewrite (skipn_all2 s H). rewrite (firstn_all2 s H).
    replace (8 - List.length s) with k by lia. rewrite <- E, octet_bval by exact R. reflexivity.
  - assert (firstn 8 s = octet_bits o) as E1.
    { apply (f_equal (firstn 8)) in E. rewrite firstn_app, L8, Nat.sub_diag, firstn_O, app_nil_r in E.
      rewrite (firstn_all2 (octet_bits o)) in E by (rewrite L8; lia).
      rewrite firstn_app in E. replace (8 - List.length s) with 0 in E by lia.
      now rewrite firstn_O, app_nil_r in E. }
    assert (flat_map octet_bits bs = skipn 8 s ++ repeat false k) as E2.
    { rewrite <- (firstn_skipn 8 s), E1, <- app_assoc in E. now apply app_inv_head in E. }
    replace (8 - List.length s) with 0 by lia. cbn [repeat]. rewrite app_nil_r, E1, octet_bval by exact R.
    f_equal. assert (List.length (skipn 8 s) = List.length s - 8) as L2 by apply skipn_length.
    rewrite <- (IH (skipn 8 s) k bs); try assumption; try lia.
    + destruct (skipn 8 s); [cbn [List.length] in L2; lia|reflexivity].
    + intros C. rewrite C in L2. cbn [List.length] in L2. lia.
Qed.

Lemma from_binary_eq s k bs : s <> [] -> k < 8 -> Forall (fun o => 0 <= o < 256)%Z bs ->
  flat_map octet_bits bs = s ++ repeat false k -> from_binary_string s = bs.
Proof. intros N K F E. apply (bin_octets_eq _ s k bs); auto. Qed.

Lemma halves_digits bs : Forall (fun o => 0 <= o < 256)%Z bs -> Forall (fun d => 0 <= d < 16)%Z (flat_map halves bs).
Proof.
  induction 1 as [|o bs R F IH]; [constructor|]. cbn [flat_map halves app].
  constructor; [split; [apply Z.div_pos|apply Z.div_lt_upper_bound]; lia|].
  constructor; [apply Z.mod_pos_bound; lia|exact IH].
Qed.

(** * Classes of a schema *)

Section OneSchema.
Variable S : schema.
Hypothesis FS : fine_schema S.

Lemma same_assignment a b : In a S -> In b S -> name_of a = name_of b -> a = b.
Proof.
  intros A B E. pose proof (fine_names S FS) as N. revert A B N. generalize S as l.
  induction l as [|x l IH]; intros A B N; [destruct A|]. cbn [map] in N. apply NoDup_cons_iff in N as [N1 N2].
  destruct A as [->|A], B as [->|B]; auto.
  - exfalso. apply N1. rewrite E. now apply in_map.
  - exfalso. apply N1. rewrite <- E. now apply in_map.
Qed.
Lemma same_type n t t' : In (TypeA n t) S -> In (TypeA n t') S -> t = t'.
Proof. intros A B. pose proof (same_assignment _ _ A B eq_refl) as E. now injection E. Qed.

(** The items of an ENUMERATED, also through references. *)
Inductive enum_of : asn -> list string -> Prop :=
| enum_here root adds : enum_of (AEnumer root adds) (root ++ list_of adds)
| enum_ref n r t l : In (TypeA n t) S -> enum_of t l -> enum_of (ARef n r) l.

(** [o] is a class for the type [t] that means [T]. *)
Definition good (t : asn) (T : ty) (o : obj) : Prop :=
  exists k attrs, o = OClass k attrs /\ class_ty k attrs = Ok T /\
    forall l, enum_of t l -> values_attr "namedValues" attrs = Ok (combine l (seq 0 (List.length l))).

Definition bound_values (g : space) : Prop :=
  forall n t l, In (ValueA n t l) S ->
  exists T v, lookup (underscore n) g = Some (OInst T v) /\ lit_is S t l v.

Definition bound_type (g : space) (m : string) : Prop :=
  exists tm o, In (TypeA m tm) S /\ lookup (underscore m) g = Some o /\
               forall T, means S tm T -> good tm T o.

Lemma builtin_num n t z : In (ValueA n t (LNum z)) S -> forall v, lit_is S t (LNum z) v -> v = VInt z.
Proof.
  intros I v L. apply (fine_values S FS) in I as (_ & _ & B & _).
  destruct t; cbn in B; try contradiction; inversion L; reflexivity.
Qed.

Section Space.
Variable g : space.
Hypothesis GL : has_library g.
Hypothesis GV : bound_values g.

Lemma value_object n t z : In (ValueA n t (LNum z)) S -> no_hyphen n ->
  exists T, lookup n g = Some (OInst T (VInt z)).
Proof.
  intros I N. destruct (GV n t (LNum z) I) as (T & v & L & V). apply no_hyphen_same in N as [_ N].
  rewrite N in L. rewrite (builtin_num n t z I v V) in L. now exists T.
Qed.

Lemma endpoint_is b z inf : fine_bound b -> bound_is S b z -> endpoint g inf (bound_text b) = Ok (Some z).
Proof.
  intros F B. inversion B as [z'|n r z' I]; subst; cbn [bound_text].
  - unfold endpoint. now rewrite num_text_literal.
  - cbn [fine_bound] in F. destruct F as [W N]. destruct (value_object n _ z I N) as (T & L).
    unfold endpoint. rewrite (value_word_literal n W). apply no_hyphen_same in N as [-> N].
    unfold resolve. cbn [lookup]. rewrite L. cbn [bind]. now rewrite String.eqb_refl.
Qed.

Lemma endpoint_min inf : inf = "MIN" \/ inf = "MAX" -> endpoint g inf inf = Ok None.
Proof.
  intros [-> | ->]; unfold endpoint.
  - change (int_literal "MIN") with (@None Z). cbv iota. change (to_hyphen "MIN") with "MIN".
    rewrite (lib_resolve [] g "MIN" (OFn "MIN") (Forall_nil _) GL eq_refl). reflexivity.
  - change (int_literal "MAX") with (@None Z). cbv iota. change (to_hyphen "MAX") with "MAX".
    rewrite (lib_resolve [] g "MAX" (OFn "MAX") (Forall_nil _) GL eq_refl). reflexivity.
Qed.

Lemma lower_end b lo : fine_bound b -> lower_is S b lo -> endpoint g "MIN" (bound_text b) = Ok lo.
Proof.
  intros F L. destruct b; cbn [lower_is] in L; try contradiction.
  - subst. apply endpoint_min. now left.
  - destruct L as (z' & B & ->). now apply endpoint_is.
  - destruct L as (z' & B & ->). now apply endpoint_is.
Qed.
Lemma size_lower_end b lo : fine_bound b -> b <> BMin -> size_lower_is S b lo ->
  endpoint g "MIN" (bound_text b) = Ok lo.
Proof.
  intros F N L. destruct b; cbn [size_lower_is] in L; try contradiction.
  - destruct L as (z' & B & ->). now apply endpoint_is.
  - destruct L as (z' & B & ->). now apply endpoint_is.
Qed.
Lemma upper_end b hi : fine_bound b -> upper_is S b hi -> endpoint g "MAX" (bound_text b) = Ok hi.
Proof.
  intros F L. destruct b; cbn [upper_is] in L; try contradiction.
  - subst. apply endpoint_min. now right.
  - destruct L as (z' & B & ->). now apply endpoint_is.
  - destruct L as (z' & B & ->). now apply endpoint_is.
Qed.

Lemma bound_text_nonempty b : fine_bound b -> String.eqb (bound_text b) "" = false.
Proof.
  destruct b; intros F; cbn [bound_text]; try reflexivity.
  - apply num_text_nonempty.
  - apply value_word_nonempty. exact (proj1 F).
Qed.

Lemma some_lower b lo z : lower_is S b lo \/ size_lower_is S b lo -> b <> BMin -> lo = Some z -> bound_is S b z.
Proof.
  intros L N ->. destruct b; cbn in L; try (destruct L; contradiction); try congruence;
    destruct L as [(z' & B & E)|(z' & B & E)]; injection E as <-; exact B.
Qed.
Lemma some_upper b hi z : upper_is S b hi -> hi = Some z -> bound_is S b z.
Proof.
  intros L ->. destruct b; cbn in L; try contradiction; try discriminate;
    destruct L as (z' & B & E); injection E as <-; exact B.
Qed.

(** The constraint written for a range. *)
Lemma spec_of_range fn p r : constraint p = range_con r -> fine_range S r ->
  spec_of fn p = match r with
                 | None => None
                 | Some r => Some (Spec fn (bound_text (lower r)) (bound_text (upper r)) (extensible r))
                 end.
Proof.
  intros E F. unfold spec_of. rewrite E. destruct r as [r|]; [|reflexivity]. cbn [range_con option_map].
  destruct F as (A & B & _). now rewrite (bound_text_nonempty _ A), (bound_text_nonempty _ B).
Qed.

Lemma spec_obj_range fn r lo hi : In fn ["ValueRange"; "ValueSize"] ->
  fine_range S (Some r) -> endpoint g "MIN" (bound_text (lower r)) = Ok lo ->
  (forall z, lo = Some z -> bound_is S (lower r) z) ->
  upper_is S (upper r) hi ->
  spec_obj g (Spec fn (bound_text (lower r)) (bound_text (upper r)) (extensible r)) = Ok (CRange (extensible r) lo hi).
Proof.
  intros I (A & B & C) L LB U. unfold spec_obj. cbn [s_fn s_lo s_hi s_ext].
  assert (call [] g fn = Ok tt) as ->.
  { destruct I as [<-|[<-|[]]]; apply lib_call; auto; constructor. }
  cbn [bind]. rewrite L. cbn [bind]. rewrite (upper_end _ hi B U). cbn [bind].
  assert (String.eqb fn "SequenceOfValueSize" = false) as ->
    by (destruct I as [<-|[<-|[]]]; reflexivity).
  destruct lo as [lo|], hi as [hi|]; try reflexivity.
  assert (lo <= hi)%Z as O by (apply C; [now apply LB|now apply (some_upper _ (Some hi))]).
  destruct (Z.ltb_spec hi lo); [lia|reflexivity].
Qed.

Lemma own_range p r c fn : constraint p = range_con r -> fine_range S r -> range_is S r c -> fn = "ValueRange" ->
  exists own, spec_own g (spec_of fn p) = Ok own /\
              spec_attr (own ++ [("subtypeSpec", OSpec CNone)]) = Ok c.
Proof.
  intros E F R ->. rewrite (spec_of_range _ p r E F). destruct r as [r|]; cbn [range_is] in R.
  - destruct R as (lo & hi & L & U & ->). destruct F as (A & B & C). cbn [spec_own].
    rewrite (spec_obj_range "ValueRange" r lo hi); try assumption; [| now left| now split | now apply lower_end |].
    + cbn [bind]. eexists. split; reflexivity.
    + intros z ->. destruct (lower r) eqn:D; cbn [lower_is] in L; try contradiction; try discriminate;
        destruct L as (z' & B' & E'); injection E' as <-; exact B'.
  - subst. exists []. split; reflexivity.
Qed.
Lemma own_size p r c fn : constraint p = range_con r -> fine_size S r -> size_is S r c -> fn = "ValueSize" ->
  exists own, spec_own g (spec_of fn p) = Ok own /\
              spec_attr (own ++ [("subtypeSpec", OSpec CNone)]) = Ok c.
Proof.
  intros E [F N] R ->. rewrite (spec_of_range _ p r E F). destruct r as [r|]; cbn [size_is] in R.
  - destruct R as (lo & hi & L & U & ->). destruct F as (A & B & C). cbn [spec_own].
    rewrite (spec_obj_range "ValueSize" r lo hi); try assumption;
      [| right; now left| now split | now apply size_lower_end |].
    + cbn [bind]. eexists. split; reflexivity.
    + intros z ->. apply (some_lower _ (Some z)); auto.
  - subst. exists []. split; reflexivity.
Qed.
Lemma own_count p r c : constraint p = range_con r -> fine_size S r -> count_is S r c ->
  exists own, spec_own g (spec_of "SequenceOfValueSize" p) = Ok own /\ lows own /\
    lookup "componentType" own = None /\
    spec_attr (own ++ [("subtypeSpec", OSpec (CSeqSize false (Some 0%Z) None))]) = Ok c.
Proof.
  intros E [F N] R. rewrite (spec_of_range _ p r E F). destruct r as [r|]; cbn [count_is] in R.
  - destruct R as (lo & hi & L & U & ->). destruct F as (A & B & C). cbn [spec_own].
    unfold spec_obj. cbn [s_fn s_lo s_hi s_ext].
    rewrite (lib_call [] g "SequenceOfValueSize" (Forall_nil _) GL eq_refl). cbn [bind].
    rewrite (size_lower_end _ lo A N L). cbn [bind]. rewrite (upper_end _ hi B U). cbn [bind].
    eexists. split; [reflexivity|]. split; [repeat constructor|]. split; reflexivity.
  - subst. exists []. repeat split; try reflexivity. constructor.
Qed.

Definition is_leaf (t : asn) : bool :=
  match t with AInteger _ | ABoolean | AOctets _ | ABitstr _ => true | _ => false end.

Lemma lib_base l k : lows l -> forall a attrs, lookup k library = Some (OClass a attrs) ->
  base_class l g k = Ok (a, attrs).
Proof. intros L a attrs E. unfold base_class. now rewrite (lib_resolve l g k _ L GL E). Qed.

Lemma exec_leaf t T tr id s locals : is_leaf t = true -> fine S t -> means S t T -> lows locals ->
  exists o, exec_class locals g (leaf_class (built tr id s t)) = Ok o /\ good t T o.
Proof.
  intros K F M L. destruct t; cbn in K; try discriminate; inversion F; subst; inversion M; subst.
  - assert (base_class locals g "IntegerType" = Ok (LInt, [("subtypeSpec", OSpec CNone)])) as B
      by (now apply lib_base).
    set (p := built tr id s (AInteger r)). destruct (own_range p r c "ValueRange" eq_refl H0 H1 eq_refl) as (own & O & A).
    unfold leaf_class. cbn [exec_class]. change (pkind p) with KInt. cbv iota. change (lib_name KInt) with "IntegerType".
    rewrite B. cbn [bind]. rewrite O. cbn [bind]. eexists. split; [reflexivity|].
    exists LInt. eexists. split; [reflexivity|]. split.
    + cbn [class_ty]. now rewrite A.
    + intros l E. inversion E.
  - assert (base_class locals g "BooleanType" = Ok (LBool, [])) as B by (now apply lib_base).
    unfold leaf_class. cbn [exec_class built pkind kind_of lib_name]. rewrite B. cbn [bind spec_own].
    eexists. split; [reflexivity|]. exists LBool, []. split; [reflexivity|]. split; [reflexivity|].
    intros l E. inversion E.
  - assert (base_class locals g "OctetStringType" = Ok (LOcts, [("subtypeSpec", OSpec CNone)])) as B
      by (now apply lib_base).
    set (p := built tr id s (AOctets r)). destruct (own_size p r c "ValueSize" eq_refl H0 H1 eq_refl) as (own & O & A).
    unfold leaf_class. cbn [exec_class]. change (pkind p) with KOcts. cbv iota. change (lib_name KOcts) with "OctetStringType".
    rewrite B. cbn [bind]. rewrite O. cbn [bind]. eexists. split; [reflexivity|].
    exists LOcts. eexists. split; [reflexivity|]. split.
    + cbn [class_ty]. now rewrite A.
    + intros l E. inversion E.
  - assert (base_class locals g "BitStringType" = Ok (LBits, [("subtypeSpec", OSpec CNone)])) as B
      by (now apply lib_base).
    set (p := built tr id s (ABitstr r)). destruct (own_size p r c "ValueSize" eq_refl H0 H1 eq_refl) as (own & O & A).
    unfold leaf_class. cbn [exec_class]. change (pkind p) with KBits. cbv iota. change (lib_name KBits) with "BitStringType".
    rewrite B. cbn [bind]. rewrite O. cbn [bind]. eexists. split; [reflexivity|].
    exists LBits. eexists. split; [reflexivity|]. split.
    + cbn [class_ty]. now rewrite A.
    + intros l E. inversion E.
Qed.

(** ENUMERATED. *)
Definition numbered_from (k : nat) (l : list string) : list (string * nat) := combine l (seq k (List.length l)).

Lemma enum_names x ro ad n l : Forall (fun s => value_word s = true) l ->
  fold_left enum_step (map EName l) (EL x ro ad n) =
  if x then EL x ro (ad ++ numbered_from n l) (n + List.length l)
  else EL x (ro ++ numbered_from n l) ad (n + List.length l).
Proof.
  intros W. revert ro ad n. induction W as [|s l D W IH]; intros ro ad n; cbn [map fold_left].
  - unfold numbered_from. cbn [combine List.length]. rewrite !app_nil_r, Nat.add_0_r. now destruct x.
  - unfold enum_step at 2. cbn [is_dots]. assert (String.eqb s "..." = false) as ->.
    { apply String.eqb_neq. intros ->. discriminate. }
    cbn [e_ext e_root e_adds e_next item_text]. destruct x; cbn [negb]; rewrite IH;
      unfold numbered_from; cbn [List.length seq combine]; rewrite <- app_assoc, Nat.add_succ_r; reflexivity.
Qed.

Lemma items_of root : flat_map (fun m : string + ptype => match m with inl s => [EName s] | inr _ => [] end) (map inl root) = map EName root.
Proof. induction root as [|s r IH]; [reflexivity|]. cbn [map flat_map app]. now rewrite IH. Qed.

Lemma enum_lists_of tr id s root adds : Forall (fun s => value_word s = true) (root ++ list_of adds) ->
  let e := enum_fill (items (built tr id s (AEnumer root adds))) in
  e_ext e = match adds with Some _ => true | None => false end /\
  e_root e = numbered_from 0 root /\ e_adds e = numbered_from (List.length root) (list_of adds).
Proof.
  intros W. apply Forall_app in W as [W1 W2].
  assert (enum_fill (items (built tr id s (AEnumer root adds))) =
          EL (match adds with Some _ => true | None => false end) (numbered_from 0 root)
             (numbered_from (List.length root) (list_of adds)) (List.length root + List.length (list_of adds))) as ->.
  { unfold items, enum_fill. cbn [built members].
    rewrite flat_map_app, items_of, fold_left_app, enum_names by exact W1. cbn [app].
    rewrite Nat.add_0_l. destruct adds as [adds|].
    - cbn [flat_map app fold_left list_of]. unfold enum_step at 2.
      cbn [is_dots String.eqb Ascii.eqb Bool.eqb e_root e_adds e_next].
      rewrite items_of, enum_names by exact W2. reflexivity.
    - cbn. now rewrite Nat.add_0_r. }
  repeat split.
Qed.

Lemma map_fst_numbered k l : map fst (numbered_from k l) = l.
Proof.
  unfold numbered_from. revert k. induction l as [|s l IH]; intros k; [reflexivity|].
  cbn [List.length seq combine map fst]. now rewrite IH.
Qed.
Lemma numbers_numbered k l : numbers (numbered_from k l) = count_from k (List.length l).
Proof.
  unfold numbered_from, numbers, count_from. revert k. induction l as [|s l IH]; intros k; [reflexivity|].
  cbn [List.length seq combine map snd]. now rewrite IH.
Qed.
Lemma numbered_app k a b : numbered_from k a ++ numbered_from (k + List.length a) b = numbered_from k (a ++ b).
Proof.
  unfold numbered_from. revert k. induction a as [|s a IH]; intros k; cbn [List.length app].
  - now rewrite Nat.add_0_r.
  - cbn [seq combine app]. f_equal. rewrite <- IH. now rewrite Nat.add_succ_r.
Qed.
Lemma nodup_app_l {A} (a b : list A) : NoDup (a ++ b) -> NoDup a.
Proof.
  induction a as [|x a IH]; intros N; [constructor|]. cbn [app] in N. apply NoDup_cons_iff in N as [N D].
  constructor; [intros I; apply N, in_or_app; now left|auto].
Qed.
Lemma nodup_app_r {A} (a b : list A) : NoDup (a ++ b) -> NoDup b.
Proof. induction a as [|x a IH]; intros N; [exact N|]. apply NoDup_cons_iff in N as [N D]. auto. Qed.
Lemma nodupb_true l : NoDup l -> nodupb l = true.
Proof.
  induction 1 as [|s l N D IH]; [reflexivity|]. cbn [nodupb]. now rewrite (not_in_mem s l N), IH.
Qed.
Lemma word_no_quote s : value_word s = true -> has_quote s = false.
Proof.
  intros V. assert (all_chars (fun c => negb (Ascii.eqb c "'")) s = true) as A; [|unfold has_quote; now rewrite A].
  destruct s as [|c s]; [reflexivity|]. cbn [value_word] in V. apply andb_prop in V as [C V]. cbn [all_chars]. apply andb_true_intro. split.
  - destruct (Ascii.eqb_spec c "'") as [->|]; [discriminate|reflexivity].
  - clear C c. induction s as [|c s IH]; [reflexivity|]. cbn [all_chars] in *. apply andb_prop in V as [C V].
    apply andb_true_intro. split; [|now apply IH]. destruct (Ascii.eqb_spec c "'") as [->|]; [discriminate|reflexivity].
Qed.
Lemma values_obj k l : NoDup l -> Forall (fun s => value_word s = true) l ->
  named_values_obj (numbered_from k l) = Ok (OValues (numbered_from k l)).
Proof.
  intros N W. unfold named_values_obj. rewrite map_fst_numbered, (nodupb_true l N).
  replace (existsb has_quote l) with false; [reflexivity|]. symmetry. clear N. induction W as [|s l V W IH]; [reflexivity|].
  cbn [existsb]. now rewrite word_no_quote.
Qed.

Definition enum_lib : space :=
  [("subtypeSpec", OSpec CNone); ("enumerationRoot", ONone); ("extensionAddition", ONone)].

Lemma exec_enum root adds T tr id s locals : fine S (AEnumer root adds) -> means S (AEnumer root adds) T -> lows locals ->
  exists o, exec_class locals g (enum_class (built tr id s (AEnumer root adds))) = Ok o /\ good (AEnumer root adds) T o.
Proof.
  intros F M L. inversion F as [| | | |? ? N W| | | |]; subst.
  destruct (enum_lists_of tr id s root adds W) as (E1 & E2 & E3). cbv zeta in E1, E2, E3.
  assert (base_class locals g "EnumeratedType" = Ok (LEnum, enum_lib)) as B by now apply lib_base.
  unfold enum_class. cbn [exec_class]. change (pkind (built tr id s (AEnumer root adds))) with KEnum.
  change (lib_name KEnum) with "EnumeratedType". rewrite B. cbn [bind]. rewrite E1, E2, E3.
  assert (exists own, marker_own [] g (match adds with Some _ => true | None => false end) = Ok own /\
            lookup "enumerationRoot" own = None /\ lookup "extensionAddition" own = None /\
            exists c, spec_attr (own ++ enum_lib) = Ok c /\ cext c = match adds with Some _ => true | None => false end)
    as (own & O & O1 & O2 & c & O3 & O4).
  { unfold marker_own. destruct adds as [adds|].
    - rewrite (lib_call [] g "ExtensionMarker" (Forall_nil _) GL eq_refl). cbn [bind].
      eexists. repeat split; try reflexivity. eexists. split; reflexivity.
    - eexists. repeat split; try reflexivity. eexists. split; reflexivity. }
  rewrite O. cbn [bind]. rewrite (lib_call [] g "NamedValues" (Forall_nil _) GL eq_refl). cbn [bind].
  assert (NoDup root) as Nr by exact (nodup_app_l _ _ N).
  assert (NoDup (list_of adds)) as Na by exact (nodup_app_r _ _ N).
  pose proof W as W'. apply Forall_app in W' as [Wr Wa].
  rewrite (values_obj 0 root Nr Wr). cbn [bind].
  destruct (numbered_from (List.length root) (list_of adds)) as [|x rest] eqn:EA.
  - assert (list_of adds = []) as EL0.
    { rewrite <- (map_fst_numbered (List.length root) (list_of adds)), EA. reflexivity. }
    eexists. split; [reflexivity|]. eexists _, _. split; [reflexivity|]. split.
    + cbn [class_ty app]. unfold spec_attr, values_attr in *. cbn [lookup String.eqb Ascii.eqb Bool.eqb].
      destruct (lookup "subtypeSpec" (own ++ enum_lib)) as [o|] eqn:ES; [|discriminate].
      destruct o; try discriminate. injection O3 as ->. cbn [bind].
      rewrite lookup_app, O2. cbn [enum_lib lookup String.eqb Ascii.eqb Bool.eqb]. rewrite numbers_numbered, O4.
      inversion M; subst; cbn [list_of] in *; subst; reflexivity.
    + intros l E. inversion E; subst. rewrite EL0, app_nil_r. reflexivity.
  - rewrite <- EA. rewrite (values_obj _ _ Na Wa). cbn [bind].
    pose proof (numbered_app 0 root (list_of adds)) as AP. rewrite Nat.add_0_l in AP. rewrite AP.
    rewrite (values_obj 0 _ N W). cbn [bind].
    eexists. split; [reflexivity|]. eexists _, _. split; [reflexivity|]. split.
    + cbn [class_ty app]. unfold spec_attr, values_attr in *. cbn [lookup String.eqb Ascii.eqb Bool.eqb].
      destruct (lookup "subtypeSpec" (own ++ enum_lib)) as [o|] eqn:ES; [|discriminate].
      destruct o; try discriminate. injection O3 as ->. cbn [bind]. rewrite !numbers_numbered, O4.
      inversion M; subst; cbn [list_of] in *; [discriminate EA|reflexivity].
    + intros l E. inversion E; subst. reflexivity.
Qed.

(** SEQUENCE OF: the element is a type of the schema or of the library. *)
Definition elem_name (t : asn) : string := underscore (own_ref t).

Lemma own_ref_type m tm : In (TypeA m tm) S -> high (underscore m) = true /\ mem m leaf_refs = false /\ mem m nested_refs = false
  /\ lookup (underscore m) library = None /\ py_name (underscore m) = true /\ String.eqb m "" = false.
Proof.
  intros I. apply (fine_types S FS) in I as (W & N & _). split; [now apply type_word_high|].
  rewrite in_app_iff in N. apply Decidable.not_or in N as [N1 N2].
  split; [|split; [|split; [|split]]].
  - apply not_in_mem. intros I. apply N1.
    destruct I as [<-|[<-|[<-|[<-|[]]]]]; vm_compute; tauto.
  - apply not_in_mem. intros I. apply N1.
    destruct I as [<-|[<-|[<-|[<-|[]]]]]; vm_compute; tauto.
  - now apply lookup_none.
  - now apply type_py_name.
  - now apply type_word_nonempty.
Qed.

Lemma good_ref m r tm T o : In (TypeA m tm) S -> good tm T o -> good (ARef m r) T o.
Proof.
  intros I (k & attrs & -> & C & E). exists k, attrs. split; [reflexivity|]. split; [exact C|].
  intros l L. inversion L; subst. apply E. now rewrite (same_type m tm t).
Qed.

(** A type without a class of its own is found by its name. *)
Lemma named_object t T : own_class t = false -> fine S t -> means S t T ->
  (forall m, refers t m -> bound_type g m) ->
  exists o, lookup (elem_name t) g = Some o /\ high (elem_name t) = true /\ good t T o.
Proof.
  intros O F M B.
  destruct t as [r| |r|r| | | | |m r]; cbn in O; try discriminate;
    try (destruct r as [r|]; [discriminate|]); inversion M; subst.
  - cbn [range_is] in *. subst. eexists. split; [apply GL; reflexivity|]. split; [reflexivity|].
    eexists _, _. split; [reflexivity|]. split; [reflexivity|]. intros l E. inversion E.
  - eexists. split; [apply GL; reflexivity|]. split; [reflexivity|].
    eexists _, _. split; [reflexivity|]. split; [reflexivity|]. intros l E. inversion E.
  - cbn [size_is] in *. subst. eexists. split; [apply GL; reflexivity|]. split; [reflexivity|].
    eexists _, _. split; [reflexivity|]. split; [reflexivity|]. intros l E. inversion E.
  - cbn [size_is] in *. subst. eexists. split; [apply GL; reflexivity|]. split; [reflexivity|].
    eexists _, _. split; [reflexivity|]. split; [reflexivity|]. intros l E. inversion E.
  - destruct (B m (refers_here m None)) as (tm & o & I & L & G). exists o.
    split; [exact L|]. split; [exact (proj1 (own_ref_type m tm I))|].
    apply (good_ref m None tm); [exact I|]. apply G. rewrite (same_type m tm t); assumption.
  - inversion F.
Qed.

Lemma own_ref_nonempty t : (forall m, refers t m -> exists tm, In (TypeA m tm) S) -> String.eqb (own_ref t) "" = false.
Proof.
  intros B. destruct t; try reflexivity. destruct (B n (refers_here n r)) as (tm & I).
  exact (proj2 (proj2 (proj2 (proj2 (proj2 (own_ref_type n tm I)))))).
Qed.

Lemma built_typeref tr id s t : typeref (built tr id s t) = tr.
Proof. destruct t; reflexivity. Qed.
Lemma built_ident tr id s t : ident (built tr id s t) = id.
Proof. destruct t; reflexivity. Qed.
Lemma built_kind tr id s t : pkind (built tr id s t) = kind_of t.
Proof. destruct t; reflexivity. Qed.
Lemma built_constraint tr id s t : constraint (built tr id s t) = con_of t.
Proof. destruct t; reflexivity. Qed.
Lemma built_optional tr id s t : optional (built tr id s t) = is_optional s.
Proof. destruct t; reflexivity. Qed.
Lemma built_dflt tr id s t : dflt (built tr id s t) = default_text s.
Proof. destruct t; reflexivity. Qed.

Lemma bound_known t : (forall m, refers t m -> bound_type g m) -> forall m, refers t m -> exists tm, In (TypeA m tm) S.
Proof. intros B m R. destruct (B m R) as (tm & o & I & _). now exists tm. Qed.

Definition seqof_lib : space := [("subtypeSpec", OSpec (CSeqSize false (Some 0%Z) None))].

Lemma exec_seqof r e T tr id s locals : fine S (ASeqOf r e) -> means S (ASeqOf r e) T -> lows locals ->
  (forall m, refers (ASeqOf r e) m -> bound_type g m) ->
  exists c o, seqof_class (built tr id s (ASeqOf r e)) = Ok (built (own_ref e) "" Mandatory e, c) /\
    class_id c = class_name (built tr id s (ASeqOf r e)) /\
    exec_class locals g c = Ok o /\ good (ASeqOf r e) T o.
Proof.
  intros F M L B. inversion F as [| | | | | | |? ? F1 F2 F3|]; subst. inversion M as [| | | | | | | |? ? c T' M1 M2| |]; subst.
  set (p := built tr id s (ASeqOf r e)).
  assert (own_class e = false) as OC by (destruct e as [[]| |[]|[]| | | | |]; cbn in *; try contradiction; reflexivity).
  assert (forall m, refers e m -> bound_type g m) as B' by (intros m R; apply B; now constructor).
  destruct (named_object e T' OC F3 M2 B') as (o & LO & HO & k & attrs & -> & CT & _).
  destruct (own_count p r c eq_refl F1 M1) as (own & O1 & O2 & O3 & O4).
  eexists _, _. split; [reflexivity|]. split; [reflexivity|]. split.
  - cbn [exec_class]. change (pkind p) with KSeqOf. change (lib_name KSeqOf) with "SequenceOfType".
    rewrite (lib_base locals "SequenceOfType" L LSeqOf seqof_lib eq_refl). cbn [bind]. rewrite O1. cbn [bind].
    unfold field_type. rewrite built_typeref, (own_ref_nonempty e (bound_known e B')).
    change (underscore (own_ref e)) with (elem_name e).
    unfold new. rewrite (resolve_high own g (elem_name e) _ O2 HO LO). cbn [bind]. rewrite CT. cbn [bind]. reflexivity.
  - eexists _, _. split; [reflexivity|]. split.
    + cbn [class_ty]. unfold spec_attr in *. cbn [lookup String.eqb Ascii.eqb Bool.eqb]. fold seqof_lib in O4.
      destruct (lookup "subtypeSpec" (own ++ seqof_lib)) as [x|]; [|discriminate].
      destruct x; try discriminate. injection O4 as ->. reflexivity.
    + intros l E. inversion E.
Qed.

(** Literals as arguments. *)
Lemma allows_ctest c n : c = CNone \/ (exists e lo hi, c = CRange e lo hi) -> allows c n -> ctest c n = true.
Proof.
  intros [-> | (e & lo & hi & ->)] A; [reflexivity|]. cbn [ctest]. destruct e; [reflexivity|].
  cbn [allows] in A. destruct A as [A1 A2]. cbn [orb]. apply andb_true_iff. split.
  - destruct lo as [lo|]; [|reflexivity]. cbn [le_opt_l]. specialize (A1 lo eq_refl). lia.
  - destruct hi as [hi|]; [|reflexivity]. cbn [le_opt_r]. specialize (A2 hi eq_refl). lia.
Qed.
Lemma range_shape r c : range_is S r c \/ size_is S r c -> c = CNone \/ (exists e lo hi, c = CRange e lo hi).
Proof.
  destruct r as [r|]; cbn [range_is size_is].
  - intros [(lo & hi & _ & _ & ->)|(lo & hi & _ & _ & ->)]; right; eauto.
  - intros [-> | ->]; now left.
Qed.

Lemma lookup_numbered l i s k : NoDup l -> nth_error l i = Some s -> lookup s (numbered_from k l) = Some (k + i).
Proof.
  unfold numbered_from. intros N. revert i k. induction N as [|x l X N IH]; intros i k E; [destruct i; discriminate|].
  cbn [List.length seq combine lookup]. destruct i as [|i].
  - injection E as ->. now rewrite String.eqb_refl, Nat.add_0_r.
  - cbn [nth_error] in E. assert (String.eqb s x = false) as ->.
    { apply String.eqb_neq. intros ->. apply X. now apply nth_error_In in E. }
    rewrite (IH i (Datatypes.S k) E). f_equal. lia.
Qed.

Definition not_ref (t : asn) : Prop := match t with ARef _ _ => False | _ => True end.

Lemma lit_argument t l v T k attrs locals :
  not_ref t -> fine S t -> fine_default S t l -> lit_is S t l v -> means S t T -> member T v ->
  class_ty k attrs = Ok T ->
  (forall l, enum_of t l -> values_attr "namedValues" attrs = Ok (combine l (seq 0 (List.length l)))) ->
  (forall n, l = LRef n -> lookup n locals = None) ->
  exists a x, parse_value (kind_of t) (ARaw (lit_text l)) = Some a /\ eval_arg locals g a = Ok x /\
              make k attrs T x = Ok v.
Proof.
  intros NR FT [FR FD] L M MB CT EN LO.
  destruct t as [r| |r|r|root adds| | | |]; cbn [fine_default not_ref] in *; try contradiction.
  - inversion M as [? c R| | | | | | | | | |]; subst.
    assert (exists z, v = VInt z /\ (exists x, eval_arg locals g (ARaw (lit_text l)) = Ok x /\ make k attrs (TInt c) x = if ctest c z then Ok (VInt z) else Err PyAsn1Error)) as (z & -> & x & E1 & E2).
    { inversion L as [? z| | | | | | |n ? t' l' v' I NL L'|]; subst.
      - exists z. split; [reflexivity|]. exists (PNum z). cbn [lit_text eval_arg]. now rewrite num_text_literal.
      - destruct (FR n eq_refl) as (W & H & NB). inversion L' as [? z| | | | | | |n' ? ? ? ? ? ? ?|]; subst.
        + exists z. split; [reflexivity|]. destruct (value_object n t' z I H) as (T & LK).
          exists (PObj T (VInt z)). split; [|reflexivity]. cbn [lit_text eval_arg].
          rewrite (value_word_literal n W). apply no_hyphen_same in H as [-> _].
          unfold resolve. rewrite (LO n eq_refl), LK. cbn [bind]. now rewrite String.eqb_refl.
        + exfalso. now apply (NL n'). }
    eexists _, x. split; [reflexivity|]. split; [exact E1|]. rewrite E2. cbn [member] in MB.
    rewrite (allows_ctest c z (range_shape r c (or_introl R)) MB). reflexivity.
  - inversion M; subst. inversion L as [|b| | | | | |n ? ? ? ? ? ? ?|]; subst; [|exfalso; now apply (FD n)].
    exists (ABool b), (PBool b). split; [destruct b; reflexivity|]. split; reflexivity.
  - inversion M as [| |? c R| | | | | | | |]; subst. destruct FD as [FD FB].
    inversion L as [| | | |? s q bs Q F E|? h q bs Q F E| |n ? ? ? ? ? ? ?|]; subst; [| |exfalso; now apply (FD n)].
    + eexists _, (PBin (quoted (cat (map bin_text s)))). split; [apply parse_bin; now left|]. split; [reflexivity|].
      cbn [make]. rewrite bin_digits_text. cbn [bind].
      rewrite (from_binary_eq s q bs) by (try assumption; intros ->; now apply FB).
      cbn [member] in MB. unfold zlen. rewrite (allows_ctest c _ (range_shape r c (or_intror R)) MB). reflexivity.
    + assert (Forall (fun d => 0 <= d < 16)%Z h) as D.
      { pose proof (halves_digits bs F) as D. rewrite E in D. now apply Forall_app in D. }
      eexists _, (PHex (quoted (cat (map hex_text h)))). split; [apply parse_hex; now left|]. split; [reflexivity|].
      cbn [make]. rewrite (hex_digits_text h D). cbn [bind].
      rewrite (from_hex_halves (List.length bs) h q bs) by (try assumption; lia).
      cbn [member] in MB. unfold zlen. rewrite (allows_ctest c _ (range_shape r c (or_intror R)) MB). reflexivity.
  - inversion M as [| | |? c R| | | | | | |]; subst.
    inversion L as [| |? s|? h D| | | |n ? ? ? ? ? ? ?|]; subst; [| |exfalso; now apply (FD n)].
    + eexists _, (PBin (quoted (cat (map bin_text s)))). split; [apply parse_bin; now right|]. split; [reflexivity|].
      cbn [make]. rewrite bin_digits_text. cbn [bind].
      cbn [member] in MB. unfold zlen. rewrite (allows_ctest c _ (range_shape r c (or_intror R)) MB). reflexivity.
    + eexists _, (PHex (quoted (cat (map hex_text h)))). split; [apply parse_hex; now right|]. split; [reflexivity|].
      cbn [make]. rewrite (hex_digits_text h D). cbn [bind].
      cbn [member] in MB. unfold zlen. rewrite (allows_ctest c _ (range_shape r c (or_intror R)) MB). reflexivity.
  - destruct FD as [FD FW].
    inversion L as [| | | | | |? ? s i E|n ? ? ? ? ? ? ?|]; subst; [|exfalso; now apply (FD n)].
    inversion FT as [| | | |? ? N W| | | |]; subst.
    eexists _, (PStr s). split; [reflexivity|]. split; [reflexivity|].
    assert (make k attrs T (PStr s) = let* all := values_attr "namedValues" attrs in
                match lookup s all with Some n => Ok (VEnum (Z.of_nat n)) | None => Err PyAsn1Error end) as ->.
    { inversion M; subst; reflexivity. }
    rewrite (EN _ (enum_here root adds)). cbn [bind].
    fold (numbered_from 0 (root ++ list_of adds)). rewrite (lookup_numbered _ i s 0 N E). reflexivity.
Qed.

(** * Components *)

Definition table : list (string * ptype) := registered [] (map parsed_as S).

Lemma parsed_key n t : In (TypeA n t) S -> type_key (parsed_as (TypeA n t)) = n /\ has_value (parsed_as (TypeA n t)) = false.
Proof.
  intros I. destruct (own_ref_type n t I) as (_ & _ & _ & _ & _ & N).
  destruct t; unfold type_key; cbn [parsed_as built ident typeref]; try (now split).
  rewrite N. now split.
Qed.

Lemma registered_lookup n p l : forall old,
  In p l \/ lookup n old = Some p -> has_value p = false -> type_key p = n ->
  (forall q, In q l -> has_value q = false -> type_key q = n -> q = p) ->
  lookup n (registered old l) = Some p.
Proof.
  unfold registered. induction l as [|q l IH]; intros old H V K U; cbn [fold_left].
  - destruct H as [[]|H]; exact H.
  - apply IH; auto; [|intros r R; apply U; now right].
    destruct H as [[->|H]|H].
    + right. rewrite V, K. cbn [lookup]. now rewrite String.eqb_refl.
    + now left.
    + right. destruct (has_value q) eqn:Q; [exact H|]. cbn [lookup].
      destruct (String.eqb_spec n (type_key q)) as [E|E]; [|exact H]. f_equal. apply U; auto. now left.
Qed.

Lemma value_has_value n t l : In (ValueA n t l) S -> has_value (parsed_as (ValueA n t l)) = true.
Proof.
  intros I. apply (fine_values S FS) in I as (W & _). unfold has_value.
  assert (valref (parsed_as (ValueA n t l)) = underscore n) as -> by (destruct t; reflexivity).
  destruct n; [discriminate|reflexivity].
Qed.

Lemma table_type m tm : In (TypeA m tm) S -> lookup m table = Some (parsed_as (TypeA m tm)).
Proof.
  intros I. destruct (parsed_key m tm I) as [K V]. apply registered_lookup; auto.
  - left. apply (in_map parsed_as _ _ I).
  - intros q Q HV E. apply in_map_iff in Q as (a & <- & A). destruct a as [n t|n t l].
    + destruct (parsed_key n t A) as [K' _]. rewrite K' in E. subst. f_equal. f_equal. apply (same_type m); assumption.
    + rewrite (value_has_value n t l A) in HV. discriminate.
Qed.

Lemma registered_keys l : forall old n p, In (n, p) (registered old l) ->
  In (n, p) old \/ (In p l /\ has_value p = false /\ type_key p = n).
Proof.
  unfold registered. induction l as [|q l IH]; intros old n p I; cbn [fold_left] in I; [now left|].
  apply IH in I as [I|(I & V & K)].
  - destruct (has_value q) eqn:V; [now left|]. destruct I as [E|I]; [|now left].
    injection E as E ->. right. split; [now left|]. now split.
  - right. split; [now right|]. now split.
Qed.
Lemma table_none n : (forall t, ~ In (TypeA n t) S) -> lookup n table = None.
Proof.
  intros N. apply lookup_none. intros I. apply in_map_iff in I as ((m & p) & <- & I). cbn [fst] in *.
  apply registered_keys in I as [[]|(I & V & K)]. apply in_map_iff in I as (a & <- & A).
  destruct a as [n t|n t l]; [|rewrite (value_has_value n t l A) in V; discriminate].
  rewrite (proj1 (parsed_key n t A)) in K. subst. now apply (N t).
Qed.
Lemma table_lib k : lookup (lib_name k) library <> None -> lookup (lib_name k) table = None.
Proof.
  intros H. apply table_none. intros t I. destruct (fine_types S FS _ _ I) as (_ & N & _). apply N.
  rewrite in_app_iff. left. assert (underscore (lib_name k) = lib_name k) as -> by (destruct k; reflexivity).
  destruct (lookup (lib_name k) library) as [o|] eqn:E; [|contradiction]. apply lookup_in in E.
  exact (in_map fst _ _ E).
Qed.

Definition part_ptype (p : part asn) : ptype :=
  built (own_ref (p_type p)) (p_name p) (p_status p) (p_type p).

Lemma part_typeref p : typeref (part_ptype p) = own_ref (p_type p). Proof. apply built_typeref. Qed.
Lemma part_ident p : ident (part_ptype p) = p_name p. Proof. apply built_ident. Qed.
Lemma part_kind p : pkind (part_ptype p) = kind_of (p_type p). Proof. apply built_kind. Qed.
Lemma part_constraint p : constraint (part_ptype p) = con_of (p_type p). Proof. apply built_constraint. Qed.
Lemma part_optional p : optional (part_ptype p) = is_optional (p_status p). Proof. apply built_optional. Qed.
Lemma part_dflt p : dflt (part_ptype p) = default_text (p_status p). Proof. apply built_dflt. Qed.

Definition part_known (p : part asn) : Prop := forall m, refers (p_type p) m -> exists tm, In (TypeA m tm) S.

Lemma part_field p : fine_part S p -> part_known p ->
  field_ty (fill_named (part_ptype p)) =
  if own_class (p_type p) then underscore (p_name p) else elem_name (p_type p).
Proof.
  intros F K. destruct F as [n s t F FS' W N]. cbn [p_type p_name] in *.
  pose proof (own_ref_nonempty t K) as E.
  unfold fill_named, part_ptype. cbn [field_ty p_type p_name p_status].
  unfold class_name, field_type, elem_name.
  rewrite built_typeref, built_constraint, built_ident, E, (value_word_nonempty n W).
  destruct t as [r| |r|r| | | | |m r]; try (destruct r as [r|]); try reflexivity.
  - inversion F.
  - destruct (K m (refers_here m None)) as (tm & I).
    destruct (own_ref_type m tm I) as (_ & L1 & L2 & _). cbn [own_ref own_class]. now rewrite L1, L2.
Qed.

Lemma lit_text_nonempty t l v : not_ref t -> fine_default S t l -> lit_is S t l v -> String.eqb (lit_text l) "" = false.
Proof.
  intros NR [FR FD] L. destruct l as [z|b|s|h|s|n]; cbn [lit_text].
  - apply num_text_nonempty.
  - now destruct b.
  - reflexivity.
  - reflexivity.
  - destruct t; inversion L; subst; cbn in NR; try contradiction. destruct FD as [_ FD].
    apply value_word_nonempty. now apply FD.
  - apply value_word_nonempty. now apply FR.
Qed.

Lemma parsed_kind m tm : pkind (parsed_as (TypeA m tm)) = kind_of tm.
Proof. destruct tm; reflexivity. Qed.

Lemma lit_through m r tm l v : In (TypeA m tm) S -> lit_is S (ARef m r) l v -> lit_is S tm l v.
Proof.
  intros I L. remember (ARef m r) as t eqn:E. induction L; try discriminate.
  - now apply (lit_value S n tm t' l v); auto.
  - injection E as -> ->. now rewrite (same_type m tm t).
Qed.

(** What a literal default is printed as. *)
Lemma entry_default p l T v k attrs locals : fine_part S p -> part_known p ->
  p_status p = Default l -> lit_is S (p_type p) l v -> means S (p_type p) T -> member T v ->
  (forall n, l = LRef n -> lookup n locals = None) ->
  class_ty k attrs = Ok T ->
  (forall l, enum_of (p_type p) l -> values_attr "namedValues" attrs = Ok (combine l (seq 0 (List.length l)))) ->
  exists a x, entry_of table [] KSeq (part_ptype p) =
    Entry EDefault (p_name p) (New (field_ty (fill_named (part_ptype p))) (Some a)) /\
    eval_arg locals g a = Ok x /\ make k attrs T x = Ok v.
Proof.
  intros FP K PS L M MB LO CT EN. destruct FP as [n s t F FS' W N]. cbn [p_type p_name p_status] in *. subst s.
  unfold entry_of, default_of. rewrite part_optional, part_dflt, part_ident, part_kind, part_typeref.
  cbn [is_optional default_text p_type p_name p_status].
  assert (not_ref t \/ exists m tm, t = ARef m None /\ In (TypeA m tm) S /\ not_ref tm /\ fine_default S tm l) as C.
  { destruct t; try (left; exact Logic.I). right. inversion F; subst.
    destruct (K n0 (refers_here n0 None)) as (tm & I). exists n0, tm.
    cbn [fine_status] in FS'. specialize (FS' tm I). split; [reflexivity|]. split; [exact I|]. split; [|exact FS'].
    destruct tm; try exact Logic.I. destruct FS' as [_ []]. }
  destruct C as [NR|(m & tm & -> & I & NR & FD)].
  - assert (fine_default S t l) as FD by (destruct t; try exact FS'; contradiction).
    rewrite (lit_text_nonempty t l v NR FD L).
    destruct (lit_argument t l v T k attrs locals NR F FD L M MB CT EN LO) as (a & x & P & E & MK).
    exists a, x. rewrite P. cbn [mem existsb].
    assert (lookup (own_ref t) table = None) as ->.
    { destruct t; cbn in NR; try contradiction; apply table_lib; discriminate. }
    split; [reflexivity|]. now split.
  - pose proof (lit_through m None tm l v I L) as H5.
    inversion M as [| | | | | | | | |? t ? I2 H2|]; subst. assert (t = tm) as -> by (apply (same_type m); assumption).
    assert (fine S tm) as FT by exact (proj2 (proj2 (fine_types S FS m tm I))).
    rewrite (lit_text_nonempty tm l v NR FD H5).
    destruct (lit_argument tm l v T k attrs locals NR FT FD H5 H2 MB CT) as (a & x & P & E & MK).
    { intros l' E. apply EN. now apply (enum_ref m None tm). }
    { exact LO. }
    exists a, x. cbn [kind_of parse_value mem existsb own_ref]. rewrite (table_type m tm I), parsed_kind, P.
    split; [reflexivity|]. now split.
Qed.

Lemma part_comp kd p c locals : fine_part S p -> part_means S p c -> lows locals ->
  (forall m, refers (p_type p) m -> bound_type g m) ->
  (own_class (p_type p) = true -> exists o, lookup (underscore (p_name p)) locals = Some o /\ good (p_type p) (cty c) o) ->
  (forall n, p_status p = Default (LRef n) -> lookup n locals = None) ->
  kd = KSeq \/ (kd = KChoice /\ p_status p = Mandatory) ->
  comp_of locals g (entry_of table [] kd (part_ptype p)) = Ok c.
Proof.
  intros F M L B OC LO KD. pose proof (bound_known _ B) as K. pose proof (part_field p F K) as FT.
  assert (exists o, resolve locals g (field_ty (fill_named (part_ptype p))) = Ok o /\ good (p_type p) (cty c) o) as (o & R & G).
  { rewrite FT. destruct F as [n s t F _ W N]. inversion M as [? ? ? ? T H2 ST]; subst. cbn [p_type p_name cty] in *.
    destruct (own_class t) eqn:O.
    - destruct (OC eq_refl) as (o & E & G). exists o. split; [|exact G]. unfold resolve. now rewrite E.
    - destruct (named_object t T O F H2 B) as (o & E & H & G). exists o. split; [|exact G]. now apply resolve_high. }
  destruct G as (k & attrs & -> & CT & EN). inversion M as [n s t pr T MT ST]; subst. cbn [p_type p_name p_status cty] in *.
  assert (forall md, comp_of locals g (Entry md n (New (field_ty (fill_named (part_ptype (Part n s t)))) None)) =
            Ok (Comp n (match md with EPlain => Mand | EOptional => Opt | EDefault => Dflt (fresh T) end) T)) as PL.
  { intros md. unfold comp_of. cbn [e_mode e_expr e_name].
    assert (call locals g (mode_text md) = Ok tt) as -> by (destruct md; now apply lib_call).
    cbn [bind]. unfold new. rewrite R. cbn [bind]. rewrite CT. reflexivity. }
  assert (ident (part_ptype (Part n s t)) = n) as ID by apply part_ident.
  destruct KD as [-> | [-> MS]].
  - destruct s as [| |l]; cbn [status_is] in ST.
    + subst. unfold entry_of. rewrite ID, part_optional. cbn [is_optional p_status].
      unfold default_of. rewrite part_dflt. cbn [default_text p_status]. apply PL.
    + subst. unfold entry_of. rewrite ID, part_optional. cbn [is_optional p_status]. apply PL.
    + destruct ST as (v & LI & MB & ->).
      destruct (entry_default (Part n (Default l) t) l T v k attrs locals F K eq_refl LI MT MB) as (a & x & E & EV & MK).
      { intros m ->. now apply LO. }
      { exact CT. }
      { exact EN. }
      rewrite E. unfold comp_of. cbn [e_mode e_expr e_name p_name mode_text].
      rewrite (lib_call locals g "DefaultedNamedType" L GL eq_refl). cbn [bind].
      unfold new. rewrite R. cbn [bind]. rewrite CT. cbn [bind]. rewrite EV. cbn [bind]. rewrite MK. reflexivity.
  - subst. cbn [status_is] in ST. subst. unfold entry_of. rewrite ID. apply PL.
Qed.

(** * SEQUENCE and CHOICE *)

(** The loop of [inline] and the loop of [exec_class], by name. *)
Definition comps_loop (ts : list (string * ptype)) (cs : list string) (k : kind)
    : list (string + ptype) -> work -> res work :=
  fix loop (ms : list (string + ptype)) (w : work) : res work :=
  match ms with
  | [] => Ok w
  | inl s :: r => let* w' := mark w s in loop r w'
  | inr q :: r =>
    let w1 := put w (entry_of ts cs k q) in
    if mem (typeref q) leaf_refs then
      match constraint q with
      | None => loop r w1
      | Some _ => let* (_, c) := inline ts cs q in loop r (add_sub w1 c [])
      end
    else if mem (typeref q) nested_refs then
      let* (l, c) := inline ts cs q in loop r (add_sub w1 c l)
    else loop r (add_comp w1 q)
  end.

Lemma comps_nil ts cs k w : comps_loop ts cs k [] w = Ok w.
Proof. reflexivity. Qed.
Lemma comps_mark ts cs k s r w : comps_loop ts cs k (inl s :: r) w = let* w' := mark w s in comps_loop ts cs k r w'.
Proof. reflexivity. Qed.
Lemma comps_part ts cs k q r w : comps_loop ts cs k (inr q :: r) w =
    let w1 := put w (entry_of ts cs k q) in
    if mem (typeref q) leaf_refs then
      match constraint q with
      | None => comps_loop ts cs k r w1
      | Some _ => let* (_, c) := inline ts cs q in comps_loop ts cs k r (add_sub w1 c [])
      end
    else if mem (typeref q) nested_refs then
      let* (l, c) := inline ts cs q in comps_loop ts cs k r (add_sub w1 c l)
    else comps_loop ts cs k r (add_comp w1 q).
Proof. reflexivity. Qed.

Lemma inline_comps ts cs k tr id vr o d v con ms : k = KSeq \/ k = KChoice ->
  inline ts cs (PT k tr id vr o d v con ms) =
  let* w := comps_loop ts cs k ms (Work [] [] [] [] false false [] []) in
  Ok (w_comps w, CComps (class_name (PT k tr id vr o d v con ms)) (lib_name k) (w_subs w) (w_ext w)
                        (w_root w) (w_adds w) (w_groups w)).
Proof. intros [-> | ->]; reflexivity. Qed.

Definition subs_loop : list pclass -> space -> res space :=
  fix loop (subs : list pclass) (mine : space) : res space :=
  match subs with
  | [] => Ok mine
  | d :: r => let* o := exec_class mine g d in
              if mem (class_id d) attributes then Err NotModelled
              else let* mine' := bound_to (class_id d) o mine in loop r mine'
  end.
Lemma subs_nil mine : subs_loop [] mine = Ok mine.
Proof. reflexivity. Qed.
Lemma subs_cons d r mine : subs_loop (d :: r) mine =
  let* o := exec_class mine g d in
  if mem (class_id d) attributes then Err NotModelled
  else let* mine' := bound_to (class_id d) o mine in subs_loop r mine'.
Proof. reflexivity. Qed.

Definition exec_body (nested : space) (ext : bool) (root adds : list entry) (groups : list (list entry))
    (k : lib) (attrs : space) : res obj :=
    let* m := marker_own nested g ext in
    let own0 := m ++ nested in
    let* ro := named_types own0 g root in
    let own1 := ("rootComponent", OTypes ro) :: own0 in
    let* (ad, own2) := match adds with
                       | [] => Ok ([], own1)
                       | _ => let* ad := named_types own1 g adds in
                              Ok (ad, ("extensionAddition", OTypes ad) :: own1)
                       end in
    let* (gr, own3) := match groups with
                       | [] => Ok ([], own2)
                       | _ => let* gr := named_groups own2 g groups in
                              Ok (gr, ("extensionAdditionGroups", OGroups gr) :: own2)
                       end in
    Ok (OClass k (("componentType", OTypes (all_comps ro ad gr)) :: own3 ++ attrs)).

Lemma exec_comps locals n b subs ext root adds groups :
  exec_class locals g (CComps n b subs ext root adds groups) =
  let* (k, attrs) := base_class locals g b in
  let* nested := subs_loop subs [] in
  exec_body nested ext root adds groups k attrs.
Proof. reflexivity. Qed.

Definition ent (k : kind) (p : part asn) : entry := entry_of table [] k (part_ptype p).

(** The classes and the postponed types of a component. *)
Definition outs_of (p : part asn) : list pclass * list ptype :=
  if own_class (p_type p) then
    match inline table [] (part_ptype p) with
    | Ok (l, c) => ([c], if is_leaf (p_type p) then [] else l)
    | Err _ => ([], [])
    end
  else match p_type p with ARef _ _ => ([], [part_ptype p]) | _ => ([], []) end.
Definition subs (l : list (part asn)) : list pclass := flat_map (fun p => fst (outs_of p)) l.
Definition coms (l : list (part asn)) : list ptype := flat_map (fun p => snd (outs_of p)) l.

Definition inlined (p : part asn) : Prop :=
  own_class (p_type p) = true -> exists l c, inline table [] (part_ptype p) = Ok (l, c).

Definition grow (w : work) (cl : list pclass) (l : list ptype) : work :=
  let 'Work ro ad gr op i x su co := w in Work ro ad gr op i x (su ++ cl) (co ++ l).

Definition easy (p : part asn) : Prop := fine_part S p /\ part_known p /\ inlined p.

Lemma grow_nil w : grow w [] [] = w.
Proof. destruct w. cbn [grow]. now rewrite !app_nil_r. Qed.

Lemma loop_part k p ms w : easy p ->
  comps_loop table [] k (inr (part_ptype p) :: ms) w =
  comps_loop table [] k ms (grow (put w (ent k p)) (fst (outs_of p)) (snd (outs_of p))).
Proof.
  intros (F & K & IL). rewrite comps_part; cbv zeta. fold (ent k p). rewrite part_typeref, part_constraint.
  unfold outs_of, inlined in *. destruct F as [n s t F _ W N]. unfold part_known in K. cbn [p_type] in *.
  generalize (put w (ent k (Part n s t))) as w1. intros w1.
  assert (forall c l, add_sub w1 c l = grow w1 [c] l) as AS by (intros; destruct w1; reflexivity).
  assert (forall q, add_comp w1 q = grow w1 [] [q]) as AC.
  { intros; destruct w1; cbn [grow add_comp]. now rewrite app_nil_r. }
  destruct t as [r| |r|r| | | | |m r]; try (destruct r as [r|]); cbn [own_class own_ref kind_of lib_name is_leaf con_of range_con option_map] in *;
    try (change (mem _ leaf_refs) with true; cbv iota);
    try (change (mem _ leaf_refs) with false; change (mem _ nested_refs) with true; cbv iota);
    try (destruct (IL eq_refl) as (l & c & ->); cbn [bind fst snd]; rewrite AS; reflexivity);
    try (cbn [fst snd]; rewrite grow_nil; reflexivity).
  - inversion F.
  - destruct (K m (refers_here m None)) as (tm & I).
    destruct (own_ref_type m tm I) as (_ & L1 & L2 & _). rewrite L1, L2. cbn [fst snd]. now rewrite AC.
Qed.

Definition tok (p : part asn) : string + ptype := inr (part_ptype p).

Lemma loop_root k l ms ro ad gr op su co : Forall easy l ->
  comps_loop table [] k (map tok l ++ ms) (Work ro ad gr op false false su co) =
  comps_loop table [] k ms (Work (ro ++ map (ent k) l) ad gr op false false (su ++ subs l) (co ++ coms l)).
Proof.
  intros F. revert ro su co. induction F as [|p l P F IH]; intros ro su co; cbn [map app].
  - unfold subs, coms. cbn [flat_map]. now rewrite !app_nil_r.
  - unfold tok at 1. rewrite (loop_part k p _ _ P). cbn [put negb grow]. rewrite IH.
    unfold subs, coms. cbn [flat_map]. now rewrite <- !app_assoc.
Qed.
Lemma loop_adds k l ms ro ad gr op su co : Forall easy l ->
  comps_loop table [] k (map tok l ++ ms) (Work ro ad gr op false true su co) =
  comps_loop table [] k ms (Work ro (ad ++ map (ent k) l) gr op false true (su ++ subs l) (co ++ coms l)).
Proof.
  intros F. revert ad su co. induction F as [|p l P F IH]; intros ad su co; cbn [map app].
  - unfold subs, coms. cbn [flat_map]. now rewrite !app_nil_r.
  - unfold tok at 1. rewrite (loop_part k p _ _ P). cbn [put negb grow]. rewrite IH.
    unfold subs, coms. cbn [flat_map]. now rewrite <- !app_assoc.
Qed.
Lemma loop_group k l ms ro ad gr op su co : Forall easy l ->
  comps_loop table [] k (map tok l ++ ms) (Work ro ad gr op true true su co) =
  comps_loop table [] k ms (Work ro ad gr (op ++ map (ent k) l) true true (su ++ subs l) (co ++ coms l)).
Proof.
  intros F. revert op su co. induction F as [|p l P F IH]; intros op su co; cbn [map app].
  - unfold subs, coms. cbn [flat_map]. now rewrite !app_nil_r.
  - unfold tok at 1. rewrite (loop_part k p _ _ P). cbn [put negb grow]. rewrite IH.
    unfold subs, coms. cbn [flat_map]. now rewrite <- !app_assoc.
Qed.
Lemma subs_app a b : subs (a ++ b) = subs a ++ subs b.
Proof. apply flat_map_app. Qed.
Lemma coms_app a b : coms (a ++ b) = coms a ++ coms b.
Proof. apply flat_map_app. Qed.

Lemma loop_groups k gs ro ad gr su co : Forall (Forall easy) gs ->
  comps_loop table [] k (flat_map (fun g => inl "[[" :: map tok g ++ [inl "]]"]) gs) (Work ro ad gr [] false true su co) =
  Ok (Work ro ad (gr ++ map (map (ent k)) gs) [] false true (su ++ subs (List.concat gs)) (co ++ coms (List.concat gs))).
Proof.
  intros F. revert gr su co. induction F as [|l gs P F IH]; intros gr su co; cbn [flat_map].
  - rewrite comps_nil. cbn [map List.concat]. unfold subs, coms. cbn [flat_map]. now rewrite !app_nil_r.
  - cbn [app]. rewrite comps_mark. unfold mark at 1. cbn [String.eqb Ascii.eqb Bool.eqb bind].
    rewrite <- app_assoc, (loop_group k l _ _ _ _ _ _ _ P). cbn [app]. rewrite comps_mark. unfold mark at 1.
    cbn [String.eqb Ascii.eqb Bool.eqb bind]. rewrite IH. cbn [map List.concat]. rewrite subs_app, coms_app, <- !app_assoc. reflexivity.
Qed.

Definition tokens (ext : bool) (root adds : list (part asn)) (groups : list (list (part asn))) : list (string + ptype) :=
  map tok root ++
  (if ext then inl "..." :: map tok adds ++ flat_map (fun g => inl "[[" :: map tok g ++ [inl "]]"]) groups else []).

Lemma loop_tokens k ext root adds groups : Forall easy (all_parts root adds groups) ->
  (ext = false -> adds = [] /\ groups = []) ->
  comps_loop table [] k (tokens ext root adds groups) (Work [] [] [] [] false false [] []) =
  Ok (Work (map (ent k) root) (map (ent k) adds) (map (map (ent k)) groups) [] false ext
           (subs (all_parts root adds groups)) (coms (all_parts root adds groups))).
Proof.
  unfold all_parts. intros F X. apply Forall_app in F as [F1 F]. apply Forall_app in F as [F2 F3].
  assert (Forall (Forall easy) groups) as F4.
  { clear -F3. induction groups as [|l gs IH]; [constructor|]. cbn [List.concat] in F3. apply Forall_app in F3 as [A B].
    constructor; auto. }
  unfold tokens. rewrite loop_root by exact F1. cbn [app]. destruct ext.
  - rewrite comps_mark. unfold mark at 1. cbn [String.eqb Ascii.eqb Bool.eqb bind].
    rewrite loop_adds by exact F2. cbn [app]. rewrite loop_groups by exact F4. cbn [app].
    rewrite !subs_app, !coms_app, <- !app_assoc. reflexivity.
  - destruct (X eq_refl) as [-> ->]. rewrite comps_nil. cbn [map List.concat app]. now rewrite !app_nil_r.
Qed.

Lemma built_tokens ext root adds groups tr id s :
  members (built tr id s (ASequence ext root adds groups)) = tokens ext root adds groups /\
  members (built tr id s (AChoice ext root adds groups)) = tokens ext root adds groups.
Proof.
  assert (forall l : list (part asn), map (fun p => match p with Part n s t => inr (built (own_ref t) n s t) end) l = map tok l) as E.
  { intros l. apply map_ext. now intros []. }
  assert (forall gs : list (list (part asn)),
    flat_map (fun g => inl "[[" :: map (fun p => match p with Part n s t => inr (built (own_ref t) n s t) end) g ++ [inl "]]"]) gs =
    flat_map (fun g => inl "[[" :: map tok g ++ [inl "]]"]) gs) as E2.
  { intros gs. induction gs as [|x gs IH]; [reflexivity|]. cbn [flat_map]. rewrite IH, E. reflexivity. }
  cbn [built members]. unfold tokens. now rewrite !E, E2.
Qed.

Definition set_up (p : part asn) (c : comp ty) : Prop :=
  fine_part S p /\ part_known p /\
  (own_class (p_type p) = true -> exists l k, inline table [] (part_ptype p) = Ok (l, k) /\
     class_id k = underscore (p_name p) /\
     forall locals, lows locals -> exists o, exec_class locals g k = Ok o /\ good (p_type p) (cty c) o).

Lemma exec_subs parts cs : Forall2 set_up parts cs -> NoDup (map p_name parts) -> forall mine, lows mine ->
  exists mine', subs_loop (subs parts) mine = Ok mine' /\ lows mine' /\
    (forall n, (forall p, In p parts -> own_class (p_type p) = true -> underscore (p_name p) <> n) ->
               lookup n mine' = lookup n mine) /\
    Forall2 (fun p c => own_class (p_type p) = true ->
               exists o, lookup (underscore (p_name p)) mine' = Some o /\ good (p_type p) (cty c) o) parts cs.
Proof.
  intros F. induction F as [|p c parts cs (FP & K & U) F IH]; intros ND mine L.
  - exists mine. unfold subs. cbn [flat_map]. rewrite subs_nil. split; [reflexivity|]. split; [exact L|]. split; [reflexivity|constructor].
  - cbn [map] in ND. inversion ND as [|? ? N1 N2]; subst.
    assert (value_word (p_name p) = true) as VW by (inversion FP; assumption).
    destruct (own_class (p_type p)) eqn:OC.
    + destruct (U eq_refl) as (l & k & IL & ID & EX). destruct (EX mine L) as (o & E1 & G).
      assert (~ In (underscore (p_name p)) (keywords ++ body_names)) as NI by (inversion FP; subst; auto).
      assert (py_name (underscore (p_name p)) = true) as PN.
      { apply value_py_name; [exact VW|]. intros X. apply NI, in_or_app. now left. }
      assert (mem (underscore (p_name p)) attributes = false) as NA.
      { apply not_in_mem. intros X. apply NI, in_or_app. right. apply in_or_app. now right. }
      destruct (IH N2 ((underscore (p_name p), o) :: mine)) as (mine' & R & L' & FR & GO).
      { constructor; [now apply value_word_low|exact L]. }
      exists mine'.
      assert (lookup (underscore (p_name p)) mine' = Some o) as LO.
      { rewrite FR; [cbn [lookup]; now rewrite String.eqb_refl|]. intros q I _ E. apply N1.
        apply underscore_inj in E; [rewrite <- E; now apply in_map| |now apply value_word_plain].
        apply value_word_plain. clear -F I. revert I. induction F as [|a b ? ? (H & _) ? IH]; intros []; [subst; now inversion H|auto]. }
      split; [|split; [exact L'|split]].
      * unfold subs. cbn [flat_map]. fold (subs parts). unfold outs_of. rewrite OC, IL. cbn [fst app].
        rewrite subs_cons, E1. cbn [bind]. rewrite ID, NA. unfold bound_to. rewrite PN. cbn [bind]. exact R.
      * intros n H. rewrite FR by (intros q I; apply H; now right). cbn [lookup].
        destruct (String.eqb_spec n (underscore (p_name p))) as [->|]; [|reflexivity].
        exfalso. apply (H p (or_introl eq_refl) OC eq_refl).
      * constructor; [|exact GO]. intros _. now exists o.
    + destruct (IH N2 mine L) as (mine' & R & L' & FR & GO). exists mine'. split; [|split; [exact L'|split]].
      * unfold subs. cbn [flat_map]. fold (subs parts). unfold outs_of. rewrite OC. destruct (p_type p); cbn [fst app]; exact R.
      * intros n H. apply FR. intros q I. apply H. now right.
      * constructor; [intros X; congruence|exact GO].
Qed.

(** Entries in a name space that has the classes of the body. *)
Definition in_body (kd : kind) (locals : space) (p : part asn) (c : comp ty) : Prop :=
  fine_part S p /\ part_means S p c /\ (forall m, refers (p_type p) m -> bound_type g m) /\
  (own_class (p_type p) = true -> exists o, lookup (underscore (p_name p)) locals = Some o /\ good (p_type p) (cty c) o) /\
  (forall n, p_status p = Default (LRef n) -> lookup n locals = None) /\
  (kd = KSeq \/ (kd = KChoice /\ p_status p = Mandatory)).

Lemma parts_comps kd locals l cs : lows locals -> Forall2 (in_body kd locals) l cs ->
  named_types locals g (map (ent kd) l) = Ok cs.
Proof.
  intros L F. unfold named_types. rewrite (lib_call locals g "AdditiveNamedTypes" L GL eq_refl). cbn [bind].
  induction F as [|p c l cs (A & B & C & D & E & G) F IH]; [reflexivity|]. cbn [map comps_of_entries].
  unfold ent at 1. rewrite (part_comp kd p c locals) by assumption. cbn [bind]. rewrite IH. reflexivity.
Qed.
Lemma groups_comps kd locals l cs : lows locals -> Forall2 (Forall2 (in_body kd locals)) l cs ->
  named_groups locals g (map (map (ent kd)) l) = Ok cs.
Proof.
  intros L F. induction F as [|p c l cs A F IH]; [reflexivity|]. cbn [map named_groups].
  rewrite (parts_comps kd locals p c L A). cbn [bind]. rewrite IH. reflexivity.
Qed.

Definition agree (a b : space) : Prop :=
  forall n, lookup n b = lookup n a \/ In n ["subtypeSpec"; "rootComponent"; "extensionAddition"; "extensionAdditionGroups"].

Lemma in_body_agree kd a b p c : agree a b ->
  (forall n, p_status p = Default (LRef n) -> ~ In n ["subtypeSpec"; "rootComponent"; "extensionAddition"; "extensionAdditionGroups"]) ->
  in_body kd a p c -> in_body kd b p c.
Proof.
  intros AG ND (A & B & C & D & E & G). repeat (split; [assumption|]). split; [|split; [|exact G]].
  - intros OC. destruct (D OC) as (o & LO & GO). exists o. split; [|exact GO].
    destruct (AG (underscore (p_name p))) as [->|I]; [exact LO|]. exfalso.
    assert (In (underscore (p_name p)) body_names).
    { destruct I as [<-|[<-|[<-|[<-|[]]]]]; apply in_mem; reflexivity. }
    inversion A as [? ? ? ? ? ? Q]; subst. cbn [p_type p_name] in *. apply (Q OC), in_or_app. now right.
  - intros n H. destruct (AG n) as [->|I]; [now apply E|]. now apply ND in H.
Qed.

Lemma default_named p c n : fine_part S p -> part_means S p c -> p_status p = Default (LRef n) -> ~ In n body_names.
Proof.
  intros [x s t F FD W N] M E. cbn [p_status] in E. subst s. inversion M as [? ? ? pr T M1 M2]; subst.
  assert (exists t', fine_default S t' (LRef n)) as (t' & A & _).
  { cbn [fine_status] in FD. destruct t; try (eexists; exact FD). inversion M1; subst; eexists; eapply FD; eassumption. }
  now apply (A n eq_refl).
Qed.

Definition comps_lib : space :=
  [("subtypeSpec", OSpec CNone); ("rootComponent", ONone); ("extensionAddition", ONone);
   ("extensionAdditionGroups", OGroups [])].

Lemma agree_refl a : agree a a. Proof. intros n. now left. Qed.
Lemma agree_cons a b n o : agree a b -> In n ["subtypeSpec"; "rootComponent"; "extensionAddition"; "extensionAdditionGroups"] ->
  agree a ((n, o) :: b).
Proof.
  intros A I x. cbn [lookup]. destruct (String.eqb_spec x n) as [->|]; [now right|apply A].
Qed.
Lemma names_in_body n : In n ["subtypeSpec"; "rootComponent"; "extensionAddition"; "extensionAdditionGroups"] -> In n body_names.
Proof. intros [<-|[<-|[<-|[<-|[]]]]]; apply in_mem; reflexivity. Qed.

Lemma bodies_agree kd a b l cs : agree a b -> Forall2 (in_body kd a) l cs -> Forall2 (in_body kd b) l cs.
Proof.
  intros AG F. induction F as [|p c l cs B F IH]; [constructor|]. constructor; [|exact IH].
  apply (in_body_agree kd a b p c AG); [|exact B]. intros n D I. destruct B as (A & B & _).
  apply (default_named p c n A B D). now apply names_in_body.
Qed.
Lemma groups_agree kd a b l cs : agree a b -> Forall2 (Forall2 (in_body kd a)) l cs -> Forall2 (Forall2 (in_body kd b)) l cs.
Proof.
  intros AG F. induction F as [|p c l cs B F IH]; [constructor|]. constructor; [|exact IH].
  now apply (bodies_agree kd a b).
Qed.

Lemma same_names_refl l : same_names l l = true.
Proof. unfold same_names. destruct (list_eq_dec string_dec (map cname l) (map cname l)) as [|N]; [reflexivity|now elim N]. Qed.

Lemma exec_body_ok kd k mk nested ext root adds groups root' adds' groups' :
  k = LSeq /\ mk = TSeq \/ k = LChoice /\ mk = TChoice ->
  lows nested -> (forall n, In n body_names -> lookup n nested = None) ->
  Forall2 (in_body kd nested) root root' -> Forall2 (in_body kd nested) adds adds' ->
  Forall2 (Forall2 (in_body kd nested)) groups groups' ->
  exists attrs, exec_body nested ext (map (ent kd) root) (map (ent kd) adds) (map (map (ent kd)) groups) k comps_lib =
                Ok (OClass k attrs) /\ class_ty k attrs = Ok (mk ext root' adds' groups').
Proof.
  intros K L NB R A G. unfold exec_body.
  assert (exists m, marker_own nested g ext = Ok m /\ (m = [] /\ ext = false \/ m = [("subtypeSpec", OSpec (CExt true))] /\ ext = true))
    as (m & -> & MM).
  { unfold marker_own. destruct ext; [|exists []; auto]. rewrite (lib_call nested g "ExtensionMarker" L GL eq_refl).
    cbn [bind]. eexists. split; [reflexivity|right; auto]. }
  cbn [bind].
  assert (lows (m ++ nested)) as L0.
  { destruct MM as [[-> _]|[-> _]]; [exact L|]. constructor; [reflexivity|exact L]. }
  assert (agree nested (m ++ nested)) as A0.
  { destruct MM as [[-> _]|[-> _]]; [apply agree_refl|]. cbn [app]. apply agree_cons; [apply agree_refl|now left]. }
  assert (lookup "subtypeSpec" (m ++ nested ++ comps_lib) = Some (OSpec (if ext then CExt true else CNone))) as S0.
  { destruct MM as [[-> ->]|[-> ->]]; [|reflexivity]. cbn [app]. rewrite lookup_app, NB by (apply in_mem; reflexivity). reflexivity. }
  assert (forall n, In n body_names -> n <> "subtypeSpec" -> lookup n (m ++ nested ++ comps_lib) = lookup n comps_lib) as S1.
  { intros n I D. rewrite !lookup_app, (NB n I). destruct MM as [[-> _]|[-> _]]; [reflexivity|]. cbn [lookup].
    destruct (String.eqb_spec n "subtypeSpec"); [contradiction|reflexivity]. }
  rewrite (parts_comps kd (m ++ nested) root root' L0 (bodies_agree _ _ _ _ _ A0 R)). cbn [bind].
  set (own1 := ("rootComponent", OTypes root') :: m ++ nested).
  assert (lows own1) as L1 by (constructor; [reflexivity|exact L0]).
  assert (agree nested own1) as A1 by (apply agree_cons; [exact A0|cbn; tauto]).
  set (own2 := match adds' with [] => own1 | _ => ("extensionAddition", OTypes adds') :: own1 end).
  assert (lows own2) as L2 by (unfold own2; destruct adds'; [exact L1|constructor; [reflexivity|exact L1]]).
  assert (agree nested own2) as A2 by (unfold own2; destruct adds'; [exact A1|apply agree_cons; [exact A1|cbn; tauto]]).
  assert (match map (ent kd) adds with
          | [] => Ok ([], own1)
          | _ => let* ad := named_types own1 g (map (ent kd) adds) in Ok (ad, ("extensionAddition", OTypes ad) :: own1)
          end = Ok (adds', own2)) as ->.
  { unfold own2. pose proof (parts_comps kd own1 adds adds' L1 (bodies_agree _ _ _ _ _ A1 A)) as E.
    destruct A as [|p c l cs B F]; [reflexivity|]. cbn [map] in E |- *. rewrite E. reflexivity. }
  cbn [bind].
  set (own3 := match groups' with [] => own2 | _ => ("extensionAdditionGroups", OGroups groups') :: own2 end).
  assert (match map (map (ent kd)) groups with
          | [] => Ok ([], own2)
          | _ => let* gr := named_groups own2 g (map (map (ent kd)) groups) in Ok (gr, ("extensionAdditionGroups", OGroups gr) :: own2)
          end = Ok (groups', own3)) as ->.
  { unfold own3. pose proof (groups_comps kd own2 groups groups' L2 (groups_agree _ _ _ _ _ A2 G)) as E.
    destruct G as [|p c l cs B F]; [reflexivity|]. cbn [map] in E |- *. rewrite E. reflexivity. }
  cbn [bind]. eexists. split; [reflexivity|].
  assert (comps_ty mk (("componentType", OTypes (all_comps root' adds' groups')) :: own3 ++ comps_lib) = Ok (mk ext root' adds' groups')) as E.
  { assert (forall n, In n body_names -> n <> "rootComponent" -> n <> "extensionAddition" -> n <> "extensionAdditionGroups" ->
                      lookup n (own3 ++ comps_lib) = lookup n (m ++ nested ++ comps_lib)) as Q0.
    { intros n I D1 D2 D3. unfold own3, own2, own1. rewrite (app_assoc m nested).
      destruct groups', adds'; cbn [app lookup];
        repeat match goal with |- context [String.eqb n ?x] => destruct (String.eqb_spec n x); [contradiction|] end; reflexivity. }
    assert (lookup "rootComponent" (own3 ++ comps_lib) = Some (OTypes root')) as Q1
      by (unfold own3, own2, own1; destruct groups', adds'; reflexivity).
    assert (lookup "extensionAddition" (own3 ++ comps_lib) = Some (match adds' with [] => ONone | _ => OTypes adds' end)) as Q2.
    { unfold own3, own2, own1. destruct groups', adds'; cbn [app lookup String.eqb Ascii.eqb Bool.eqb]; try reflexivity;
        rewrite <- app_assoc, S1 by (try discriminate; apply in_mem; reflexivity); reflexivity. }
    assert (lookup "extensionAdditionGroups" (own3 ++ comps_lib) = Some (OGroups groups')) as Q3.
    { unfold own3, own2, own1. destruct groups', adds'; cbn [app lookup String.eqb Ascii.eqb Bool.eqb]; try reflexivity;
        rewrite <- app_assoc, S1 by (try discriminate; apply in_mem; reflexivity); reflexivity. }
    assert (lookup "subtypeSpec" (own3 ++ comps_lib) = Some (OSpec (if ext then CExt true else CNone))) as Q4
      by (rewrite Q0 by (try discriminate; apply in_mem; reflexivity); exact S0).
    clearbody own3. unfold comps_ty, spec_attr, types_attr, adds_attr, groups_attr. cbn [lookup String.eqb Ascii.eqb Bool.eqb].
    rewrite Q1, Q2, Q3, Q4. cbn [bind].
    assert (match match adds' with [] => ONone | _ :: _ => OTypes adds' end with
            | OTypes l => Ok l | ONone => Ok [] | _ => Err NotModelled end = Ok adds') as -> by (destruct adds'; reflexivity).
    cbn [bind]. rewrite same_names_refl. now destruct ext. }
  destruct K as [[-> ->]|[-> ->]]; exact E.
Qed.

(** What a class leaves to be generated before it: known references, and library
    classes as elements. *)
Definition tame (q : ptype) : Prop :=
  (exists m tm n s, In (TypeA m tm) S /\ q = built m n s (ARef m None)) \/
  (exists e, is_leaf e = true /\ own_class e = false /\ q = built (own_ref e) "" Mandatory e).

Definition known (t : asn) : Prop := forall m, refers t m -> exists tm, In (TypeA m tm) S.

Definition inline_fine (t : asn) : Prop := forall tr id s, not_ref t -> fine S t -> known t ->
  exists l c, inline table [] (built tr id s t) = Ok (l, c) /\ class_id c = class_name (built tr id s t) /\ Forall tame l.

Lemma own_class_not_ref t : own_class t = true -> not_ref t.
Proof. now destruct t. Qed.

Lemma part_class p : fine_part S p -> class_name (part_ptype p) = underscore (p_name p).
Proof.
  intros F. unfold class_name. rewrite part_ident, value_word_nonempty; [reflexivity|]. now destruct F.
Qed.

Lemma easy_parts l : (forall p, In p l -> inline_fine (p_type p)) -> Forall (fine_part S) l ->
  (forall p, In p l -> known (p_type p)) -> Forall easy l /\ Forall tame (coms l).
Proof.
  induction l as [|p l IH]; intros I F K; [split; constructor|]. inversion F as [|? ? F1 F2]; subst.
  destruct IH as [A B]; try assumption; try (intros; (apply I || apply K); now right).
  assert (fine S (p_type p)) as FT by (destruct F1; assumption).
  assert (K1 := K p (or_introl eq_refl)).
  assert (forall OC : own_class (p_type p) = true, exists k c, inline table [] (part_ptype p) = Ok (k, c) /\ Forall tame k) as I1.
  { intros OC. destruct (I p (or_introl eq_refl) (own_ref (p_type p)) (p_name p) (p_status p) (own_class_not_ref _ OC) FT K1)
      as (k & c & E & _ & T). exists k, c. now split. }
  split.
  - constructor; [|exact A]. split; [exact F1|]. split; [exact K1|]. intros OC. destruct (I1 OC) as (k & c & E & _). eauto.
  - unfold coms. cbn [flat_map]. apply Forall_app. split; [|exact B]. unfold outs_of.
    destruct (own_class (p_type p)) eqn:OC.
    + destruct (I1 eq_refl) as (k & c & -> & T). cbn [snd]. destruct (is_leaf (p_type p)); [constructor|exact T].
    + destruct (p_type p) eqn:E; try constructor; [|constructor]. left. destruct (K1 n (refers_here n r)) as (tm & IN).
      exists n, tm, (p_name p), (p_status p). split; [exact IN|]. unfold part_ptype. rewrite E.
      assert (r = None) as -> by (now inversion FT). reflexivity.
Qed.

Lemma inline_body k tr id s t ext root adds groups :
  k = KSeq /\ t = ASequence ext root adds groups \/ k = KChoice /\ t = AChoice ext root adds groups ->
  Forall easy (all_parts root adds groups) -> (ext = false -> adds = [] /\ groups = []) ->
  inline table [] (built tr id s t) =
  Ok (coms (all_parts root adds groups),
      CComps (class_name (built tr id s t)) (lib_name k) (subs (all_parts root adds groups)) ext
             (map (ent k) root) (map (ent k) adds) (map (map (ent k)) groups)).
Proof.
  intros K E X. destruct (built_tokens ext root adds groups tr id s) as [T1 T2].
  destruct K as [[-> ->]|[-> ->]].
  - destruct (built tr id s (ASequence ext root adds groups)) as [k tr' id' vr o d v con ms] eqn:D.
    assert (k = KSeq) as -> by (cbn [built] in D; now injection D). cbn [members] in T1. subst ms.
    rewrite inline_comps by now left. rewrite loop_tokens by assumption. reflexivity.
  - destruct (built tr id s (AChoice ext root adds groups)) as [k tr' id' vr o d v con ms] eqn:D.
    assert (k = KChoice) as -> by (cbn [built] in D; now injection D). cbn [members] in T2. subst ms.
    rewrite inline_comps by now right. rewrite loop_tokens by assumption. reflexivity.
Qed.

Lemma inline_ok t : inline_fine t.
Proof.
  induction t as [r| |r|r|root adds|ext root adds groups IH|ext root adds groups IH|r e IH|n r] using asn_rect';
    intros tr id s NR F K.
  1-5: eexists [], _; split; [reflexivity|split; [reflexivity|constructor]].
  - inversion F as [| | | | |? ? ? ? F1 F2 F3 F4| | |]; subst.
    destruct (easy_parts (all_parts root adds groups) IH F1) as [A B].
    { intros p I m R. apply K. econstructor; eassumption. }
    rewrite (inline_body KSeq tr id s _ ext root adds groups (or_introl (conj eq_refl eq_refl)) A F4).
    eexists _, _. split; [reflexivity|]. split; [reflexivity|exact B].
  - inversion F as [| | | | | |? ? ? ? F1 F2 F3 F4| |]; subst.
    destruct (easy_parts (all_parts root adds groups) IH F1) as [A B].
    { intros p I m R. apply K. econstructor; eassumption. }
    rewrite (inline_body KChoice tr id s _ ext root adds groups (or_intror (conj eq_refl eq_refl)) A F4).
    eexists _, _. split; [reflexivity|]. split; [reflexivity|exact B].
  - inversion F as [| | | | | | |? ? F1 F2 F3|]; subst. eexists _, _. split; [reflexivity|]. split; [reflexivity|].
    constructor; [|constructor]. change (tame (built (own_ref e) "" Mandatory e)). destruct e as [[]| |[]|[]| | | | |m r']; cbn [fine_element] in F2; try contradiction;
      try (match goal with |- tame (built _ _ _ ?e) => right; exists e; split; [reflexivity|split; reflexivity] end).
    left. assert (r' = None) as -> by now inversion F3.
    destruct (K m) as (tm & I); [constructor; constructor|]. exists m, tm, "", Mandatory. now split.
  - destruct NR.
Qed.

(** The class of a type, run in any body, is the meaning of the type. *)
Definition exec_fine (t : asn) : Prop := forall tr id s T l c, not_ref t -> fine S t -> means S t T ->
  (forall m, refers t m -> bound_type g m) -> inline table [] (built tr id s t) = Ok (l, c) ->
  forall locals, lows locals -> exists o, exec_class locals g c = Ok o /\ good t T o.

Lemma set_parts l cs : (forall p, In p l -> exec_fine (p_type p)) -> Forall (fine_part S) l ->
  (forall p, In p l -> forall m, refers (p_type p) m -> bound_type g m) -> Forall2 (part_means S) l cs ->
  Forall2 set_up l cs.
Proof.
  intros E F B M. induction M as [|p c l cs PM M IH]; [constructor|]. inversion F as [|? ? F1 F2]; subst.
  constructor; [|apply IH; [intros; apply E; now right|assumption|intros q I; apply B; now right]].
  assert (part_known p) as K by (intros m R; eapply bound_known; [apply (B p); now left|exact R]).
  split; [exact F1|]. split; [exact K|]. intros OC.
  assert (fine S (p_type p)) as FT by (destruct F1; assumption).
  destruct (inline_ok (p_type p) (own_ref (p_type p)) (p_name p) (p_status p) (own_class_not_ref _ OC) FT K) as (k & d & IL & ID & _).
  exists k, d. split; [exact IL|]. split.
  - rewrite ID. now apply part_class.
  - intros locals L. eapply (E p); try eassumption; try (now left); try (now apply own_class_not_ref).
    + inversion PM; subst. assumption.
    + apply (B p). now left.
Qed.

Lemma forall2_app_inv {A B} (R : A -> B -> Prop) a b : forall cs, Forall2 R (a ++ b) cs ->
  exists c d, cs = c ++ d /\ Forall2 R a c /\ Forall2 R b d.
Proof. intros cs F. apply Forall2_app_inv_l in F as (c & d & F1 & F2 & ->). eauto. Qed.

Lemma forall2_length {A B} (R : A -> B -> Prop) a b : Forall2 R a b -> List.length a = List.length b.
Proof. induction 1; cbn [List.length]; congruence. Qed.

Lemma forall2_concat {A B} (R : A -> B -> Prop) a b : Forall2 (Forall2 R) a b -> Forall2 R (List.concat a) (List.concat b).
Proof. induction 1; cbn [List.concat]; [constructor|]. now apply Forall2_app. Qed.

Lemma forall2_in {A B} (R Q : A -> B -> Prop) l cs : Forall2 R l cs -> (forall p c, In p l -> R p c -> Q p c) -> Forall2 Q l cs.
Proof.
  induction 1 as [|p c l cs X F IH]; intros H; [constructor|]. constructor; [apply H; [now left|exact X]|].
  apply IH. intros; apply H; [now right|assumption].
Qed.

Lemma forall2_and {A B} (R Q : A -> B -> Prop) l cs : Forall2 R l cs -> Forall2 Q l cs -> Forall2 (fun a b => R a b /\ Q a b) l cs.
Proof. induction 1; intros F; inversion F; subst; constructor; auto. Qed.

Lemma forall2_split {A B} (R : A -> B -> Prop) a b c d : List.length a = List.length c ->
  Forall2 R (a ++ b) (c ++ d) -> Forall2 R a c /\ Forall2 R b d.
Proof.
  revert c. induction a as [|x a IH]; intros [|y c] L F; try discriminate; [split; [constructor|exact F]|].
  cbn [app] in F. inversion F; subst. injection L as L. destruct (IH c L) as [P Q]; [assumption|]. split; [constructor; assumption|exact Q].
Qed.

Lemma forall2_unconcat {A B} (R Q : A -> B -> Prop) a b : Forall2 (Forall2 R) a b ->
  Forall2 Q (List.concat a) (List.concat b) -> Forall2 (Forall2 Q) a b.
Proof.
  induction 1 as [|x y a b X F IH]; intros H; [constructor|]. cbn [List.concat] in H.
  apply forall2_split in H as [P N]; [|now apply (forall2_length _ _ _ X)]. constructor; auto.
Qed.

Lemma exec_parts k kd mk cn ext root adds groups root' adds' groups' locals :
  k = LSeq /\ kd = KSeq /\ mk = TSeq /\ unhidden (all_parts root adds groups) \/
  k = LChoice /\ kd = KChoice /\ mk = TChoice /\ Forall (fun p => p_status p = Mandatory) (all_parts root adds groups) ->
  lows locals ->
  (forall p, In p (all_parts root adds groups) -> exec_fine (p_type p)) ->
  Forall (fine_part S) (all_parts root adds groups) ->
  NoDup (map p_name (all_parts root adds groups)) ->
  (forall p, In p (all_parts root adds groups) -> forall m, refers (p_type p) m -> bound_type g m) ->
  Forall2 (part_means S) root root' -> Forall2 (part_means S) adds adds' ->
  Forall2 (Forall2 (part_means S)) groups groups' ->
  exists attrs, exec_class locals g (CComps cn (lib_name kd) (subs (all_parts root adds groups)) ext
                 (map (ent kd) root) (map (ent kd) adds) (map (map (ent kd)) groups)) = Ok (OClass k attrs) /\
    class_ty k attrs = Ok (mk ext root' adds' groups').
Proof.
  intros K L E F ND B MR MA MG.
  assert (Forall2 (part_means S) (all_parts root adds groups) (all_comps root' adds' groups')) as M.
  { unfold all_parts, all_comps. apply Forall2_app; [exact MR|]. apply Forall2_app; [exact MA|]. now apply forall2_concat. }
  rewrite exec_comps.
  assert (base_class locals g (lib_name kd) = Ok (k, comps_lib)) as ->.
  { destruct K as [(-> & -> & _)|(-> & -> & _)]; apply lib_base; try assumption; reflexivity. }
  cbn [bind].
  destruct (exec_subs _ _ (set_parts _ _ E F B M) ND [] (Forall_nil _)) as (nested & -> & LN & FR & GO). cbn [bind].
  assert (forall n, In n body_names -> lookup n nested = None) as NB.
  { intros n I. rewrite FR; [reflexivity|]. intros p IP OC <-. apply (proj1 (Forall_forall _ _) F p) in IP.
    destruct IP as [x s t ? ? ? Q]. apply (Q OC), in_or_app. now right. }
  assert (Forall2 (in_body kd nested) (all_parts root adds groups) (all_comps root' adds' groups')) as IB.
  { apply (forall2_in _ _ _ _ (forall2_and _ _ _ _ M GO)). intros p c IP (PM & G1).
    assert (fine_part S p) as FP by now apply (proj1 (Forall_forall _ _) F p).
    split; [exact FP|]. split; [exact PM|]. split; [now apply B|]. split; [exact G1|]. split.
    - intros n D. rewrite FR; [reflexivity|]. intros q IQ OC. destruct K as [(_ & _ & _ & U)|(_ & _ & _ & U)].
      + now apply (U p q n).
      + apply (proj1 (Forall_forall _ _) U p) in IP. congruence.
    - destruct K as [(_ & -> & _)|(_ & -> & _ & U)]; [now left|right]. split; [reflexivity|]. now apply (proj1 (Forall_forall _ _) U p). }
  unfold all_parts, all_comps in IB. apply forall2_split in IB as [I1 IB]; [|now apply (forall2_length _ _ _ MR)].
  apply forall2_split in IB as [I2 IB]; [|now apply (forall2_length _ _ _ MA)]. apply (forall2_unconcat _ _ _ _ MG) in IB.
  apply exec_body_ok; try assumption.
  destruct K as [(-> & _ & -> & _)|(-> & _ & -> & _)]; auto.
Qed.

Lemma exec_ok t : exec_fine t.
Proof.
  induction t as [r| |r|r|root adds|ext root adds groups IH|ext root adds groups IH|r e IH|n r] using asn_rect';
    intros tr id s T l c NR F M B IL locals L.
  1-4: match type of M with means S ?t _ =>
         assert (c = leaf_class (built tr id s t)) as -> by (change (Ok ([], leaf_class (built tr id s t)) = Ok (l, c)) in IL; congruence);
         now apply exec_leaf
       end.
  - assert (c = enum_class (built tr id s (AEnumer root adds))) as ->
      by (change (Ok ([], enum_class (built tr id s (AEnumer root adds))) = Ok (l, c)) in IL; congruence).
    now apply exec_enum.
  - inversion F as [| | | | |? ? ? ? F1 F2 F3 F4| | |]; subst. inversion M as [| | | | | |? ? ? ? root' adds' groups' MR MA MG| | | |]; subst.
    assert (forall p, In p (all_parts root adds groups) -> forall m, refers (p_type p) m -> bound_type g m) as B'.
    { intros p I m R. apply B. econstructor; eassumption. }
    destruct (easy_parts (all_parts root adds groups) (fun p _ => inline_ok (p_type p)) F1) as [A _].
    { intros p I m R. exact (bound_known _ (B' p I) m R). }
    rewrite (inline_body KSeq tr id s _ ext root adds groups (or_introl (conj eq_refl eq_refl)) A F4) in IL. injection IL as <- <-.
    destruct (exec_parts LSeq KSeq TSeq (class_name (built tr id s (ASequence ext root adds groups))) ext root adds groups root' adds' groups' locals)
      as (attrs & E & CT); try assumption; [now left; repeat split|].
    eexists. split; [exact E|]. exists LSeq, attrs. split; [reflexivity|]. split; [exact CT|]. intros q Q. inversion Q.
  - inversion F as [| | | | | |? ? ? ? F1 F2 F3 F4| |]; subst. inversion M as [| | | | | | |? ? ? ? root' adds' groups' MR MA MG| | |]; subst.
    assert (forall p, In p (all_parts root adds groups) -> forall m, refers (p_type p) m -> bound_type g m) as B'.
    { intros p I m R. apply B. econstructor; eassumption. }
    destruct (easy_parts (all_parts root adds groups) (fun p _ => inline_ok (p_type p)) F1) as [A _].
    { intros p I m R. exact (bound_known _ (B' p I) m R). }
    rewrite (inline_body KChoice tr id s _ ext root adds groups (or_intror (conj eq_refl eq_refl)) A F4) in IL. injection IL as <- <-.
    destruct (exec_parts LChoice KChoice TChoice (class_name (built tr id s (AChoice ext root adds groups))) ext root adds groups root' adds' groups' locals)
      as (attrs & E & CT); try assumption; [now right; repeat split|].
    eexists. split; [exact E|]. exists LChoice, attrs. split; [reflexivity|]. split; [exact CT|]. intros q Q. inversion Q.
  - destruct (exec_seqof r e T tr id s locals F M L B) as (d & o & E1 & _ & E2 & G). exists o.
    assert (inline table [] (built tr id s (ASeqOf r e)) = let* (x, y) := seqof_class (built tr id s (ASeqOf r e)) in Ok ([x], y)) as E by reflexivity.
    rewrite E, E1 in IL. cbn [bind] in IL. injection IL as <- <-. now split.
  - destruct NR.
Qed.

End Space.
End OneSchema.
