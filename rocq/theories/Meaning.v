(** ASN.1 schemas and what they mean.

    First the notation: modules made of type and value assignments, as far as the
    generator has classes for it.  Then [parsed_as], the object the parse actions
    build from an assignment (classes/parse_actions.py): this is the only part
    that describes code.  Then what a type means: the relation [means], written
    after X.680 and using nothing of the generator, from a type in a schema to a
    type of the codec.  Last [fine_schema], the schemas the generator is claimed
    to treat right (Modules.v); each exclusion is a region where it does not. *)

From Coq Require Import ZArith List String Ascii Bool Arith DecimalString.
Import ListNotations.
From Verif Require Import PyBase Schema Generator Emit Exec.

Open Scope string_scope.
Open Scope list_scope.
Open Scope nat_scope.

(** * Notation *)

(** MIN, MAX, a number, a value reference. *)
Inductive bound : Type := BMin | BMax | BNum (z : Z) | BRef (n : string).
(** [(lower..upper)] or, with [extensible], [(lower..upper, ...)]; a single value is
    a range of one. *)
Record range := Range { lower : bound; upper : bound; extensible : bool }.

(** 12, TRUE, '0101'B, '0AF'H, red, a value reference. *)
Inductive lit : Type :=
| LNum (z : Z) | LBoolean (b : bool) | LBin (s : bits) | LHex (h : list Z)
| LItem (s : string) | LRef (n : string).

Inductive status : Type := Mandatory | Optional | Default (l : lit).
Record part (A : Type) := Part { p_name : string; p_status : status; p_type : A }.
Arguments Part {A}. Arguments p_name {A}. Arguments p_status {A}. Arguments p_type {A}.

(** The body of a SEQUENCE or CHOICE: root components; then, behind "...", single
    additions followed by addition groups [[ ]].  (Other orders of additions and
    second root lists: C41.)  ASN.1 lets a reference carry a constraint;
    the grammar of the library does not (ConstrainedType is BuiltinType followed by a
    constraint, or TypeWithConstraint: asn_definitions/module_def.py), so that such a
    module is rejected with a ParseException and [fine] below leaves it out. *)
Inductive asn : Type :=
| AInteger (r : option range)
| ABoolean
| AOctets (r : option range)
| ABitstr (r : option range)
| AEnumer (root : list string) (adds : option (list string))
| ASequence (ext : bool) (root adds : list (part asn)) (groups : list (list (part asn)))
| AChoice (ext : bool) (root adds : list (part asn)) (groups : list (list (part asn)))
| ASeqOf (r : option range) (e : asn)
| ARef (n : string) (r : option range).

(** [n ::= t] and [n t ::= l]. *)
Inductive assignment : Type :=
| TypeA (n : string) (t : asn)
| ValueA (n : string) (t : asn) (l : lit).
Definition schema := list assignment.

Definition name_of (a : assignment) : string := match a with TypeA n _ | ValueA n _ _ => n end.

(** * Parsed objects (classes/parse_actions.py) *)

(** The tokens are texts: of a number, of a literal. *)
Definition num_text (z : Z) : string := NilZero.string_of_int (Z.to_int z).
Definition bin_text (b : bool) : string := if b then "1" else "0".
Definition hex_text (d : Z) : string :=
  String (ascii_of_nat (if (d <? 10)%Z then 48 + Z.to_nat d else 55 + Z.to_nat d)) EmptyString.
Definition lit_text (l : lit) : string :=
  match l with
  | LNum z => num_text z
  | LBoolean true => "TRUE"
  | LBoolean false => "FALSE"
  | LBin s => cat ["'"; cat (map bin_text s); "'B"]
  | LHex h => cat ["'"; cat (map hex_text h); "'H"]
  | LItem s => s
  | LRef n => n
  end.
Definition bound_text (b : bound) : string :=
  match b with BMin => "MIN" | BMax => "MAX" | BNum z => num_text z | BRef n => n end.

(** parse_actions.py 179-189 on a plain range. *)
Definition range_con (r : option range) : option (string * string * bool) :=
  option_map (fun r => (bound_text (lower r), bound_text (upper r), extensible r)) r.

Definition kind_of (t : asn) : kind :=
  match t with
  | AInteger _ => KInt | ABoolean => KBool | AOctets _ => KOcts | ABitstr _ => KBits
  | AEnumer _ _ => KEnum | ASequence _ _ _ _ => KSeq | AChoice _ _ _ _ => KChoice
  | ASeqOf _ _ => KSeqOf | ARef _ _ => KDefined
  end.

(** The typereference of a new object (types/builtin/*.py, [__init__]; for a
    reference parse_actions.py 74-75). *)
Definition own_ref (t : asn) : string :=
  match t with ARef n _ => n | _ => lib_name (kind_of t) end.

(** parse_actions.py 124-128, 131-138, 179-189. *)
Definition con_of (t : asn) : option (string * string * bool) :=
  match t with
  | AInteger r | AOctets r | ABitstr r | ASeqOf r _ | ARef _ r => range_con r
  | _ => None
  end.

Definition is_optional (s : status) : bool := match s with Optional => true | _ => false end.
Definition default_text (s : status) : option string :=
  match s with Default l => Some (lit_text l) | _ => None end.

(** What iterating over the object yields (parse_actions.py 53-71, 145-176): the
    marks and the components, whose identifier, optional and default are set in
    parse_actions.py 106-117 (SEQUENCE), 145-151 and 154-169 (CHOICE). *)
Fixpoint built (tr id : string) (s : status) (t : asn) {struct t} : ptype :=
  let comp (p : part asn) : string + ptype :=
    match p with Part n s t => inr (built (own_ref t) n s t) end in
  let body ext root adds groups :=
    map comp root ++
    (if ext : bool then
       inl "..." :: map comp adds ++
       flat_map (fun g => inl "[[" :: map comp g ++ [inl "]]"]) groups
     else []) in
  PT (kind_of t) tr id "" (is_optional s) (default_text s) None (con_of t)
     match t with
     | AEnumer root adds =>
       map inl root ++ match adds with Some l => inl "..." :: map inl l | None => [] end
     | ASequence ext root adds groups => body ext root adds groups
     | AChoice ext root adds groups => body ext root adds groups
     | ASeqOf _ e => [inr (built (own_ref e) "" Mandatory e)]
     | _ => []
     end.

(** parse_TypeAssignment (33-42) and parse_ValueAssignment (24-30); the setter of
    valuereference is type.py 47-49. *)
Definition parsed_as (a : assignment) : ptype :=
  match a with
  | TypeA n (ARef m r) => built m n Mandatory (ARef m r)
  | TypeA n t => built n "" Mandatory t
  | ValueA n t l =>
    let 'PT k tr id _ o d _ c ms := built (own_ref t) "" Mandatory t in
    PT k tr id (underscore n) o d (Some (lit_text l)) c ms
  end.

(** * Meaning (X.680) *)

(** The number an end point is (MIN and MAX are none). *)
Inductive bound_is (S : schema) : bound -> Z -> Prop :=
| bound_num z : bound_is S (BNum z) z
| bound_ref n r z : In (ValueA n (AInteger r) (LNum z)) S -> bound_is S (BRef n) z.

Definition lower_is (S : schema) (b : bound) (lo : option Z) : Prop :=
  match b with BMin => lo = None | BMax => False | _ => exists z, bound_is S b z /\ lo = Some z end.
(** A size is at least 0 (X.680 51.5). *)
Definition size_lower_is (S : schema) (b : bound) (lo : option Z) : Prop :=
  match b with BMin => lo = Some 0%Z | BMax => False | _ => exists z, bound_is S b z /\ lo = Some z end.
Definition upper_is (S : schema) (b : bound) (hi : option Z) : Prop :=
  match b with BMax => hi = None | BMin => False | _ => exists z, bound_is S b z /\ hi = Some z end.

Definition range_is (S : schema) (r : option range) (c : constr) : Prop :=
  match r with
  | None => c = CNone
  | Some r => exists lo hi, lower_is S (lower r) lo /\ upper_is S (upper r) hi /\
                            c = CRange (extensible r) lo hi
  end.
Definition size_is (S : schema) (r : option range) (c : constr) : Prop :=
  match r with
  | None => c = CNone
  | Some r => exists lo hi, size_lower_is S (lower r) lo /\ upper_is S (upper r) hi /\
                            c = CRange (extensible r) lo hi
  end.
Definition count_is (S : schema) (r : option range) (c : constr) : Prop :=
  match r with
  | None => c = CSeqSize false (Some 0%Z) None
  | Some r => exists lo hi, size_lower_is S (lower r) lo /\ upper_is S (upper r) hi /\
                            c = CSeqSize (extensible r) lo hi
  end.

Definition halves (o : Z) : list Z := [o / 16; o mod 16]%Z.
Definition list_of (o : option (list string)) : list string :=
  match o with Some l => l | None => [] end.

(** The value a literal stands for as a value of a type.  A bstring or hstring for
    an OCTET STRING is filled up with zeros (X.680 23.5, 23.6). *)
Inductive lit_is (S : schema) : asn -> lit -> val -> Prop :=
| lit_num r z : lit_is S (AInteger r) (LNum z) (VInt z)
| lit_boolean b : lit_is S ABoolean (LBoolean b) (VBool b)
| lit_bin r s : lit_is S (ABitstr r) (LBin s) (VBits s)
| lit_hex r h : Forall (fun d => 0 <= d < 16)%Z h ->
    lit_is S (ABitstr r) (LHex h) (VBits (flat_map nibble h))
| lit_obin r s k bs : k < 8 -> Forall (fun o => 0 <= o < 256)%Z bs ->
    flat_map (fun o => nibble (o / 16) ++ nibble (o mod 16)) bs = s ++ repeat false k ->
    lit_is S (AOctets r) (LBin s) (VOcts bs)
| lit_ohex r h k bs : k < 2 -> Forall (fun o => 0 <= o < 256)%Z bs ->
    flat_map halves bs = h ++ repeat 0%Z k ->
    lit_is S (AOctets r) (LHex h) (VOcts bs)
| lit_item root adds s i : nth_error (root ++ list_of adds) i = Some s ->
    lit_is S (AEnumer root adds) (LItem s) (VEnum (Z.of_nat i))
| lit_value n t t' l v : In (ValueA n t' l) S -> (forall m, l <> LRef m) ->
    lit_is S t l v -> lit_is S t (LRef n) v
| lit_type n t r l v : In (TypeA n t) S -> lit_is S t l v -> lit_is S (ARef n r) l v.

(** The constraint of the type allows the value. *)
Definition allows (c : constr) (n : Z) : Prop :=
  match c with
  | CRange false lo hi => (forall l, lo = Some l -> (l <= n)%Z) /\ (forall h, hi = Some h -> (n <= h)%Z)
  | _ => True
  end.
Definition member (T : ty) (v : val) : Prop :=
  match T, v with
  | TInt c, VInt z => allows c z
  | TBits c, VBits s => allows c (Z.of_nat (List.length s))
  | TOcts c, VOcts bs => allows c (Z.of_nat (List.length bs))
  | TBool, VBool _ => True
  | TEnum _ _ _, VEnum _ => True
  | _, _ => False
  end.

Definition status_is (S : schema) (t : asn) (T : ty) (s : status) (p : presence) : Prop :=
  match s with
  | Mandatory => p = Mand
  | Optional => p = Opt
  | Default l => exists v, lit_is S t l v /\ member T v /\ p = Dflt v
  end.

(** Numbers from [k] on. *)
Definition count_from (k n : nat) : list Z := map Z.of_nat (seq k n).

Inductive means (S : schema) : asn -> ty -> Prop :=
| mean_int r c : range_is S r c -> means S (AInteger r) (TInt c)
| mean_bool : means S ABoolean TBool
| mean_octs r c : size_is S r c -> means S (AOctets r) (TOcts c)
| mean_bits r c : size_is S r c -> means S (ABitstr r) (TBits c)
| mean_enum root : means S (AEnumer root None) (TEnum false (count_from 0 (List.length root)) [])
| mean_enum_ext root adds :
    means S (AEnumer root (Some adds))
          (TEnum true (count_from 0 (List.length root))
                 (count_from (List.length root) (List.length adds)))
| mean_seq ext root adds groups root' adds' groups' :
    Forall2 (part_means S) root root' -> Forall2 (part_means S) adds adds' ->
    Forall2 (Forall2 (part_means S)) groups groups' ->
    means S (ASequence ext root adds groups) (TSeq ext root' adds' groups')
| mean_choice ext root adds groups root' adds' groups' :
    Forall2 (part_means S) root root' -> Forall2 (part_means S) adds adds' ->
    Forall2 (Forall2 (part_means S)) groups groups' ->
    means S (AChoice ext root adds groups) (TChoice ext root' adds' groups')
| mean_seqof r e c T : count_is S r c -> means S e T -> means S (ASeqOf r e) (TSeqOf c T)
| mean_ref n t T : In (TypeA n t) S -> means S t T -> means S (ARef n None) T
| mean_narrow n t r c : In (TypeA n t) S -> means S t (TInt CNone) -> range_is S (Some r) c ->
    means S (ARef n (Some r)) (TInt c)
with part_means (S : schema) : part asn -> comp ty -> Prop :=
| part_mean n s t p T : means S t T -> status_is S t T s p ->
    part_means S (Part n s t) (Comp n p T).

(** * The schemas the claim is about *)

(** Words of ASN.1 (X.680 12.2, 12.3): letters, digits and hyphens. *)
Definition word_char (c : ascii) : bool := is_upper c || is_lower c || is_digit c || Ascii.eqb c "-".
Definition type_word (s : string) : bool :=
  match s with EmptyString => false | String c r => is_upper c && all_chars word_char r end.
Definition value_word (s : string) : bool :=
  match s with EmptyString => false | String c r => is_lower c && all_chars word_char r end.

Definition no_hyphen (s : string) : Prop := all_chars (fun c => negb (Ascii.eqb c "-")) s = true.

(** A type that gets a class of its own when it is the type of a component. *)
Definition own_class (t : asn) : bool :=
  match t with
  | AInteger r | AOctets r | ABitstr r => match r with Some _ => true | None => false end
  | ABoolean | ARef _ _ => false
  | _ => true
  end.
Definition body_names : list string :=
  ["rootComponent"; "extensionAddition"; "extensionAdditionGroups"; "componentType"] ++ attributes.

(** Values stand for end points by their Python name; the lower end is not above
    the upper one; sizes have no MIN. *)
Definition fine_bound (b : bound) : Prop := match b with BRef n => value_word n = true /\ no_hyphen n | _ => True end.
Definition fine_range (S : schema) (r : option range) : Prop :=
  match r with
  | None => True
  | Some r => fine_bound (lower r) /\ fine_bound (upper r) /\
              (forall lo hi, bound_is S (lower r) lo -> bound_is S (upper r) hi -> (lo <= hi)%Z)
  end.
Definition fine_size (S : schema) (r : option range) : Prop :=
  fine_range S r /\ match r with Some r => lower r <> BMin | None => True end.

(** Elements of a SEQUENCE OF: references and simple types without constraint. *)
Definition fine_element (e : asn) : Prop :=
  match e with
  | ARef _ _ | ABoolean | AInteger None | AOctets None | ABitstr None => True
  | _ => False
  end.

(** Defaults: literals, for an INTEGER also a value; a referenced type is not
    itself a reference; not ''B for an OCTET STRING. *)
Definition fine_default (S : schema) (t : asn) (l : lit) : Prop :=
  (forall n, l = LRef n -> value_word n = true /\ no_hyphen n /\ ~ In n body_names) /\
  match t with
  | AInteger _ => True
  | ABoolean | ABitstr _ => forall n, l <> LRef n
  | AEnumer _ _ => (forall n, l <> LRef n) /\ forall s, l = LItem s -> value_word s = true
  | AOctets _ => (forall n, l <> LRef n) /\ l <> LBin []
  | _ => False
  end.
Definition fine_status (S : schema) (t : asn) (s : status) : Prop :=
  match s, t with
  | Default l, ARef m _ => forall t', In (TypeA m t') S -> fine_default S t' l
  | Default l, _ => fine_default S t l
  | _, _ => True
  end.

Definition all_parts {A} (root adds : list (part A)) (groups : list (list (part A))) : list (part A) :=
  root ++ adds ++ List.concat groups.

(** A value named in a DEFAULT is not hidden by a class of the same body. *)
Definition unhidden (l : list (part asn)) : Prop :=
  forall p q n, In p l -> In q l -> p_status p = Default (LRef n) -> own_class (p_type q) = true ->
  underscore (p_name q) <> n.

Inductive fine (S : schema) : asn -> Prop :=
| fine_integer r : fine_range S r -> fine S (AInteger r)
| fine_boolean : fine S ABoolean
| fine_octets r : fine_size S r -> fine S (AOctets r)
| fine_bitstr r : fine_size S r -> fine S (ABitstr r)
| fine_enumer root adds : NoDup (root ++ list_of adds) ->
    Forall (fun s => value_word s = true) (root ++ list_of adds) -> fine S (AEnumer root adds)
| fine_sequence ext root adds groups :
    Forall (fine_part S) (all_parts root adds groups) ->
    NoDup (map p_name (all_parts root adds groups)) -> unhidden (all_parts root adds groups) ->
    (ext = false -> adds = [] /\ groups = []) -> fine S (ASequence ext root adds groups)
| fine_choice ext root adds groups :
    Forall (fine_part S) (all_parts root adds groups) ->
    NoDup (map p_name (all_parts root adds groups)) ->
    Forall (fun p => p_status p = Mandatory) (all_parts root adds groups) ->
    (ext = false -> adds = [] /\ groups = []) -> fine S (AChoice ext root adds groups)
| fine_seqof r e : fine_size S r -> fine_element e -> fine S e -> fine S (ASeqOf r e)
| fine_ref n : fine S (ARef n None)
with fine_part (S : schema) : part asn -> Prop :=
| fine_a_part n s t : fine S t -> fine_status S t s -> value_word n = true ->
    (own_class t = true -> ~ In (underscore n) (keywords ++ body_names)) ->
    fine_part S (Part n s t).

(** Types with assignments of their own that a type refers to. *)
Inductive refers : asn -> string -> Prop :=
| refers_here n r : refers (ARef n r) n
| refers_element r e m : refers e m -> refers (ASeqOf r e) m
| refers_sequence ext root adds groups p m : In p (all_parts root adds groups) ->
    refers (p_type p) m -> refers (ASequence ext root adds groups) m
| refers_choice ext root adds groups p m : In p (all_parts root adds groups) ->
    refers (p_type p) m -> refers (AChoice ext root adds groups) m.

Definition builtin_value (t : asn) : Prop :=
  match t with AInteger _ | ABoolean | AOctets _ | ABitstr _ => True | _ => False end.

Record fine_schema (S : schema) : Prop := Fine {
  fine_names : NoDup (map name_of S);
  fine_types : forall n t, In (TypeA n t) S ->
    type_word n = true /\ ~ In (underscore n) (map fst library ++ keywords) /\ fine S t;
  fine_means : forall n t, In (TypeA n t) S -> exists T, means S t T;
  fine_values : forall n t l, In (ValueA n t l) S ->
    value_word n = true /\ ~ In (underscore n) keywords /\ builtin_value t /\
    (forall m, l <> LRef m) /\ (forall r, t = AOctets r -> l <> LBin []) /\ exists v, lit_is S t l v
}.

(** ** Order *)

Definition structure (t : asn) : bool :=
  match t with ASequence _ _ _ _ | AChoice _ _ _ _ | ASeqOf _ _ => true | _ => false end.
Definition reference (t : asn) : bool := match t with ARef _ _ => true | _ => false end.

(** Structured types, each referring to the next. *)
Inductive ref_path (S : schema) : list string -> Prop :=
| path_one n t : In (TypeA n t) S -> structure t = true -> ref_path S [n]
| path_more n t m p : In (TypeA n t) S -> structure t = true -> refers t m -> ref_path S (m :: p) ->
    ref_path S (n :: m :: p).

(** Words of ASN.1 that the generator has classes for and that are not names of
    the header. *)
Definition other_words : list string :=
  ["IA5String"; "NumericString"; "REAL"; "NULL"; "DATE"; "VisibleString"].

(** What sorting in passes can put in order (C38): no path of more than 101 types;
    aliases name types that are not aliases; and structured types use no alias of
    a structured type. *)
Record sortable (S : schema) : Prop := Sortable {
  sort_words : forall n t, In (TypeA n t) S -> ~ In n other_words;
  sort_depth : forall p, ref_path S p -> List.length p <= 101;
  sort_alias : forall n m r t, In (TypeA n (ARef m r)) S -> In (TypeA m t) S -> reference t = false;
  sort_use : forall n t m m' r t', In (TypeA n t) S -> structure t = true -> refers t m ->
    In (TypeA m (ARef m' r)) S -> In (TypeA m' t') S -> structure t' = false
}.
