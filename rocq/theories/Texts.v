(** Texts of ASN.1 modules: lexical items with blanks between them, and which
    items spell which schema (X.680, as far as the notation of Meaning.v goes).
    Nothing here is code of the library. *)

From Coq Require Import ZArith List String Ascii Bool Arith.
Import ListNotations.
From Verif Require Import PyBase Generator Emit Exec Meaning Subtypes Grammar.

Open Scope string_scope.
Open Scope list_scope.
Open Scope nat_scope.

Definition blank (g : string) : Prop := all_chars is_white g = true.
Definition starts (f : ascii -> bool) (s : string) : bool :=
  match s with String c _ => f c | EmptyString => false end.

(** * Lexical items *)

(** A fixed text; a name that begins with an upper case letter, with a lower case
    letter; a number; a bstring; an hstring. *)
Inductive token : Type := K (s : string) | R (s : string) | I (s : string) | D (s : string) | B (s : string) | H (s : string).

Definition t_text (t : token) : string :=
  match t with
  | K s | R s | I s | D s => s
  | B s => "'" ++ s ++ "'B"
  | H s => "'" ++ s ++ "'H"
  end.

Definition proper (t : token) : bool :=
  match t with
  | K s => starts (fun c => negb (is_white c)) s && all_chars (fun c => negb (is_white c) || Ascii.eqb c " ") s
  | R s => type_word s
  | I s => value_word s
  | D s => starts is_digit s && all_chars is_digit s
  | B s => all_chars is_bit s
  | H s => all_chars is_hex s
  end.

(** Words must not run into each other. *)
Definition wordy (t : token) : bool :=
  match t with
  | K s => starts (fun c => is_upper c || is_lower c) s
  | R _ | I _ | D _ => true
  | B _ | H _ => false
  end.
Definition apart (t : token) (s : string) : Prop := wordy t = true -> starts is_word s = false.

(** [laid l s r]: the text [s] consists of the items [l], with blanks in front of
    each as one likes, and then [r], which does not begin with "::=". *)
Definition ended (s : string) : Prop := prefixed "::=" (skip s) = None.
Inductive laid : list token -> string -> string -> Prop :=
| laid_nil s : ended s -> laid [] s s
| laid_cons g t l s r : blank g -> proper t = true -> apart t s -> laid l s r ->
    laid (t :: l) (g ++ t_text t ++ s) r.

(** * Spelling *)

(** "INTEGER" is one item, and so is "OCTET STRING": the library wants exactly one
    blank there. *)

Definition num_toks (z : Z) : list token :=
  if (z <? 0)%Z then [K "-"; D (num_text (- z))] else [D (num_text z)].

Definition lit_toks (l : Meaning.lit) : list token :=
  match l with
  | LNum z => num_toks z
  | LBoolean true => [K "TRUE"]
  | LBoolean false => [K "FALSE"]
  | LBin s => [B (cat (map bin_text s))]
  | LHex h => [H (cat (map hex_text h))]
  | LItem n | LRef n => [I n]
  end.
Definition good_lit (l : Meaning.lit) : Prop :=
  match l with LHex h => Forall (fun d => (0 <= d < 16)%Z) h | LItem n | LRef n => value_word n = true | _ => True end.

Definition bound_toks (b : bound) : list token :=
  match b with BMin => [K "MIN"] | BMax => [K "MAX"] | BNum z => num_toks z | BRef n => [I n] end.

(** The inside of the parentheses: lower..upper, or a single value. *)
Definition good_bound (b : bound) : Prop := match b with BRef n => value_word n = true | _ => True end.
Inductive spells_range : range -> list token -> Prop :=
| sp_range r : good_bound (lower r) -> good_bound (upper r) -> lower r <> BMax -> upper r <> BMin ->
    spells_range r (bound_toks (lower r) ++ K ".." :: bound_toks (upper r) ++
                    if extensible r then [K ","; K "..."] else [])
| sp_single r : good_bound (lower r) -> lower r = upper r -> lower r <> BMax -> lower r <> BMin ->
    spells_range r (bound_toks (lower r) ++ if extensible r then [K ","; K "..."] else []).

(** A constraint on values, on sizes. *)
Inductive spells_values : option range -> list token -> Prop :=
| sp_no_values : spells_values None []
| sp_values r l : spells_range r l -> spells_values (Some r) (K "(" :: l ++ [K ")"]).
Inductive spells_size : option range -> list token -> Prop :=
| sp_no_size : spells_size None []
| sp_size r l : spells_range r l -> spells_size (Some r) (K "(" :: K "SIZE" :: K "(" :: l ++ [K ")"; K ")"]).

Inductive spells_names : list string -> list token -> Prop :=
| sp_name n : value_word n = true -> spells_names [n] [I n]
| sp_names n ns l : value_word n = true -> spells_names ns l -> spells_names (n :: ns) (I n :: K "," :: l).

(** Names for the values of an INTEGER and the bits of a BIT STRING, if any:
    name(number), or, for values, name(constant). *)
Inductive spells_mark : bool -> list token -> Prop :=
| sp_mark bits n z : value_word n = true -> (bits = true -> (0 <= z)%Z) ->
    spells_mark bits (I n :: K "(" :: num_toks z ++ [K ")"])
| sp_mark_ref n m : value_word n = true -> value_word m = true -> spells_mark false [I n; K "("; I m; K ")"].
Inductive spells_marks : bool -> list token -> Prop :=
| sp_mark_one bits l : spells_mark bits l -> spells_marks bits l
| sp_mark_more bits l l' : spells_mark bits l -> spells_marks bits l' -> spells_marks bits (l ++ K "," :: l').
Inductive spells_marked : bool -> list token -> Prop :=
| sp_unmarked bits : spells_marked bits []
| sp_marked bits l : spells_marks bits l -> spells_marked bits (K "{" :: l ++ [K "}"]).

Inductive spells_status : status -> list token -> Prop :=
| sp_mandatory : spells_status Mandatory []
| sp_optional : spells_status Optional [K "OPTIONAL"]
| sp_default l : good_lit l -> spells_status (Default l) (K "DEFAULT" :: lit_toks l).

(** Words that cannot name a type: the library does not know all reserved words of
    X.680 12.38, but these are its types, or begin one. *)
Definition reserved : list string :=
  ["BOOLEAN"; "INTEGER"; "NULL"; "REAL"; "DATE"; "IA5String"; "NumericString"; "UTF8String"; "VisibleString";
   "BIT"; "OCTET"; "SEQUENCE"].

(** [spells_type t l]: the items [l] are the type [t]; [choice] says whether the
    components are those of a CHOICE. *)
Inductive spells_type : asn -> list token -> Prop :=
| sp_integer r m l : spells_marked false m -> spells_values r l -> spells_type (AInteger r) (K "INTEGER" :: m ++ l)
| sp_boolean : spells_type ABoolean [K "BOOLEAN"]
| sp_octets r l : spells_size r l -> spells_type (AOctets r) (K "OCTET STRING" :: l)
| sp_bitstr r m l : spells_marked true m -> spells_size r l -> spells_type (ABitstr r) (K "BIT STRING" :: m ++ l)
| sp_enumer root l : spells_names root l ->
    spells_type (AEnumer root None) (K "ENUMERATED" :: K "{" :: l ++ [K "}"])
| sp_enumer_open root l : spells_names root l ->
    spells_type (AEnumer root (Some [])) (K "ENUMERATED" :: K "{" :: l ++ [K ","; K "..."; K "}"])
| sp_enumer_adds root adds l l' : spells_names root l -> spells_names adds l' ->
    spells_type (AEnumer root (Some adds)) (K "ENUMERATED" :: K "{" :: l ++ K "," :: K "..." :: K "," :: l' ++ [K "}"])
| sp_sequence ext root adds groups l : spells_body false ext root adds groups l ->
    spells_type (ASequence ext root adds groups) (K "SEQUENCE" :: K "{" :: l ++ [K "}"])
| sp_sequence_empty : spells_type (ASequence false [] [] []) [K "SEQUENCE"; K "{"; K "}"]
| sp_sequence_open adds groups l : spells_adds false adds groups l ->
    spells_type (ASequence true [] adds groups) (K "SEQUENCE" :: K "{" :: K "..." :: l ++ [K "}"])
| sp_choice ext root adds groups l : spells_body true ext root adds groups l ->
    spells_type (AChoice ext root adds groups) (K "CHOICE" :: K "{" :: l ++ [K "}"])
| sp_seqof e l : spells_type e l -> spells_type (ASeqOf None e) (K "SEQUENCE OF" :: l)
| sp_seqof_size r e l l' : spells_size (Some r) l -> spells_type e l' ->
    spells_type (ASeqOf (Some r) e) (K "SEQUENCE" :: l ++ K "OF" :: l')
| sp_ref n : type_word n = true -> ~ In n reserved -> spells_type (ARef n None) [R n]
(** Components: one or more; what follows the "..."; all of it. *)
with spells_part : bool -> part asn -> list token -> Prop :=
| sp_part choice n s t l l' : value_word n = true -> spells_type t l -> spells_status s l' ->
    (choice = true -> s = Mandatory) -> spells_part choice (Part n s t) (I n :: l ++ l')
with spells_parts : bool -> list (part asn) -> list token -> Prop :=
| sp_one choice p l : spells_part choice p l -> spells_parts choice [p] l
| sp_more choice p ps l l' : spells_part choice p l -> spells_parts choice ps l' ->
    spells_parts choice (p :: ps) (l ++ K "," :: l')
with spells_adds : bool -> list (part asn) -> list (list (part asn)) -> list token -> Prop :=
| sp_no_adds choice : spells_adds choice [] [] []
| sp_add choice p ps gs l l' : spells_part choice p l -> spells_adds choice ps gs l' ->
    spells_adds choice (p :: ps) gs (K "," :: l ++ l')
| sp_group choice g gs l l' : spells_parts choice g l -> spells_adds choice [] gs l' ->
    spells_adds choice [] (g :: gs) (K "," :: K "[[" :: l ++ K "]]" :: l')
with spells_body : bool -> bool -> list (part asn) -> list (part asn) -> list (list (part asn)) -> list token -> Prop :=
| sp_closed choice root l : spells_parts choice root l -> spells_body choice false root [] [] l
| sp_open choice root adds groups l l' : spells_parts choice root l -> spells_adds choice adds groups l' ->
    spells_body choice true root adds groups (l ++ K "," :: K "..." :: l').

Inductive spells_assignment : assignment -> list token -> Prop :=
| sp_type n t l : type_word n = true -> spells_type t l -> (forall m r, t = ARef m r -> ~ In m builtin_types) ->
    spells_assignment (TypeA n t) (R n :: K "::=" :: l)
| sp_value n t v l : value_word n = true -> spells_type t l -> good_lit v ->
    spells_assignment (ValueA n t v) (I n :: l ++ K "::=" :: lit_toks v).
Inductive spells_assignments : schema -> list token -> Prop :=
| sp_nothing : spells_assignments [] []
| sp_assignment a S l l' : spells_assignment a l -> spells_assignments S l' -> spells_assignments (a :: S) (l ++ l').

(** The module: its name, and AUTOMATIC TAGS if one likes. *)
Inductive spells : schema -> list token -> Prop :=
| sp_module (tags : bool) n S l : type_word n = true -> spells_assignments S l ->
    spells S (R n :: K "DEFINITIONS" :: (if tags then [K "AUTOMATIC TAGS"] else []) ++
              K "::=" :: K "BEGIN" :: l ++ [K "END"]).

(** [text_of S s r]: the text [s] is a module with the assignments [S], followed by
    [r]. *)
Definition text_of (S : schema) (s r : string) : Prop := exists l, spells S l /\ laid l s r.

(** * Constraints in general *)

(** The items of the constraints of Subtypes.v. *)
Definition element_toks (e : element) : list token :=
  match e with
  | Single b => bound_toks b
  | Between lo a b hi =>
    bound_toks lo ++ (if a then [K "<"] else []) ++ K ".." :: (if b then [K "<"] else []) ++ bound_toks hi
  end.
Definition inter_toks (i : inter) : list token :=
  element_toks (i_elem i) ++ match i_except i with Some e => K "EXCEPT" :: element_toks e | None => [] end.
Fixpoint with_mark (sep : string) (l : list (list token)) : list token :=
  match l with [] => [] | [x] => x | x :: r => x ++ K sep :: with_mark sep r end.
Definition set_toks (s : set) : list token :=
  match s with
  | Union l => with_mark "|" (map (fun i => with_mark "^" (map inter_toks i)) l)
  | AllExcept e => K "ALL" :: K "EXCEPT" :: element_toks e
  end.
Definition cspec_toks (c : cspec) : list token :=
  set_toks (c_root c) ++
  match c_marker c with
  | NoMarker => []
  | Marker => [K ","; K "..."]
  | Additional s => [K ","; K "..."; K ","] ++ set_toks s
  end.

(** The ones the library reads: a value is not MIN or MAX, a range does not begin
    with MAX or end with MIN (both as X.680 has it), and an intersection has at most
    two operands (X.680 has no such limit). *)
Definition good_element (e : element) : Prop :=
  match e with
  | Single b => good_bound b /\ b <> BMin /\ b <> BMax
  | Between lo _ _ hi => good_bound lo /\ good_bound hi /\ lo <> BMax /\ hi <> BMin
  end.
Definition good_inter (i : inter) : Prop :=
  good_element (i_elem i) /\ forall e, i_except i = Some e -> good_element e.
Definition good_set (s : set) : Prop :=
  match s with
  | Union l => l <> [] /\ Forall (fun i => (List.length i = 1 \/ List.length i = 2) /\ Forall good_inter i) l
  | AllExcept e => good_element e
  end.
Definition good_cspec (c : cspec) : Prop :=
  good_set (c_root c) /\ match c_marker c with Additional s => good_set s | _ => True end.

(** * Comments *)

(** [strip s t]: [t] is [s] without its comments; a comment begins with two hyphens
    and ends at the next line end (X.680 12.6.3; a comment that ends with two
    hyphens is not described here, the library reads it differently). *)
Definition code (c : ascii) : Z := Z.of_nat (nat_of_ascii c).
Definition line_end (c : ascii) : bool := Z.eqb (code c) 10 || Z.eqb (code c) 13.
Definition hyphens (s : string) : bool := match s with String "-" (String "-" _) => true | _ => false end.
Fixpoint no_hyphens (s : string) : bool :=
  match s with String c r => negb (hyphens s) && no_hyphens r | EmptyString => true end.
Inductive strip : string -> string -> Prop :=
| strip_nil : strip "" ""
| strip_char c s t : hyphens (String c s) = false -> strip s t -> strip (String c s) (String c t)
| strip_note body s t : all_chars (fun c => negb (line_end c)) body = true -> no_hyphens body = true ->
    s = "" \/ starts line_end s = true -> strip s t -> strip ("--" ++ body ++ s) t.

(** The only line ends are line feed and carriage return. *)
Definition plain_lines (s : string) : Prop :=
  all_chars (fun c => negb (is_break (code c)) || line_end c) s = true.
