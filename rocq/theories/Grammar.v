(** The grammar of the library and the parser that runs it: from the text of a
    schema to the parsed objects of Generator.v.  Sources: asn_definitions/*.py,
    classes/parse_actions.py, asn1PERser/__init__.py 12-15; for the meaning of the
    combinators pyparsing (setup.py asks for 2.4.7 or later), which is not part of
    the library and is described from its published sources.

    Texts are ASCII texts here (lexical_items.py also admits the dash of code 8211
    in names). *)

From Coq Require Import ZArith List String Ascii Bool Arith.
Import ListNotations.
From Verif Require Import PyBase Generator Emit Exec.

Open Scope string_scope.
Open Scope list_scope.
Open Scope nat_scope.

(** * Characters and lexical items (lexical_items.py) *)

(** pyparsing skips blanks, line ends and tabs in front of every element. *)
Definition is_white (c : ascii) : bool :=
  match nat_of_ascii c with 32 | 10 | 9 | 13 => true | _ => false end.
Fixpoint skip (s : string) : string :=
  match s with
  | EmptyString => EmptyString
  | String c r => if is_white c then skip r else s
  end.

(** [\s] of a regular expression. *)
Definition is_space (c : ascii) : bool :=
  match nat_of_ascii c with 32 | 9 | 10 | 11 | 12 | 13 | 28 | 29 | 30 | 31 => true | _ => false end.

(** The longest run of characters of a class, and the rest. *)
Fixpoint span (f : ascii -> bool) (s : string) : string * string :=
  match s with
  | EmptyString => (EmptyString, EmptyString)
  | String c r => if f c then let '(a, b) := span f r in (String c a, b) else (EmptyString, s)
  end.

(** [startswith], with the rest. *)
Fixpoint prefixed (p s : string) : option string :=
  match p, s with
  | EmptyString, _ => Some s
  | String c p', String d s' => if Ascii.eqb c d then prefixed p' s' else None
  | String _ _, EmptyString => None
  end.

Definition is_hyphen (c : ascii) : bool := Ascii.eqb c "-".
Definition is_word (c : ascii) : bool := is_upper c || is_lower c || is_digit c || is_hyphen c.
Definition is_hex (c : ascii) : bool :=
  let n := nat_of_ascii c in is_digit c || (65 <=? n) && (n <=? 70).
Definition is_bit (c : ascii) : bool := Ascii.eqb c "0" || Ascii.eqb c "1".

(** Literal; typereference (= modulereference); identifier (= valuereference);
    encodingreference; number; realnumber; bstring; hstring; cstring. *)
Inductive terminal : Type :=
| ULit (s : string) | UType | UIdent | UEncoding | UNumber | UReal | UBits | UHex | UChars.

Definition word (f g : ascii -> bool) (s : string) : option (string * string) :=
  match s with
  | String c r => if f c then let '(a, b) := span g r in Some (String c a, b) else None
  | EmptyString => None
  end.
(** A run between quotes, with what must follow the closing one. *)
Definition quoted (q : ascii) (f : ascii -> bool) (close : string) (s : string) : option (string * string) :=
  match s with
  | String c r =>
    if Ascii.eqb c q then
      let '(a, b) := span f r in
      match prefixed (String q close) b with
      | Some r' => Some (String c (append a (String q close)), r')
      | None => None
      end
    else None
  | EmptyString => None
  end.
Definition real (s : string) : option (string * string) :=
  match word is_digit is_digit s with
  | Some (a, String c r) =>
    if Ascii.eqb c "." then
      match word is_digit is_digit r with
      | Some (b, r') => Some (append a (String c b), r')
      | None => None
      end
    else None
  | _ => None
  end.

(** The text matched and the rest; [None] is a ParseException. *)
Definition term (t : terminal) (s : string) : option (string * string) :=
  match t with
  | ULit l => match prefixed l s with Some r => Some (l, r) | None => None end
  | UType => word is_upper is_word s
  | UIdent => word is_lower is_word s
  | UEncoding => word is_upper (fun c => is_upper c || is_hyphen c) s
  | UNumber => word is_digit is_digit s
  | UReal => real s
  | UBits => quoted "'" (fun c => is_bit c || is_space c) "B" s
  | UHex => quoted "'" (fun c => is_hex c || is_space c) "H" s
  | UChars => quoted """" (fun c => is_digit c || is_upper c || is_lower c || is_space c) "" s
  end.

(** * Expressions of pyparsing *)

(** The parse actions. *)
Inductive action : Type :=
| ToSigned | ToDefined | ToReal | ToBoolean | ToInteger | ToEnumerated | ToBits | ToOctets
| ToComponent | ToSequence | ToSequenceOf | ToAlternatives | ToAdditions | ToChoice | ToDate
| ToIA5 | ToNumeric | ToUTF8 | ToVisible | ToConstraint | ToSizedList | ToConstrained
| ToTypeAssignment | ToValueAssignment | ToModule.

(** The Forward elements. *)
Inductive rule : Type := RType | RValue | RSet | RSets | RConstraint.

(** [PMany] is ZeroOrMore, [PMore] OneOrMore, [PSup] Suppress, [PNest]
    nestedExpr('(', ')') (type_def.py 19) without its action. *)
Inductive pexp : Type :=
| PTerm (t : terminal)
| PEmpty
| PSup (e : pexp)
| PAnd (l : list pexp)
| POr (l : list pexp)
| PMany (e : pexp)
| PMore (e : pexp)
| POpt (e : pexp)
| PGroup (e : pexp)
| PAct (a : action) (e : pexp)
| PRule (r : rule)
| PNest.

(** A token: a text, an object, a group, a constraint. *)
Inductive tok : Type :=
| Str (s : string)
| Obj (p : ptype)
| Grp (l : list tok)
| Con (c : string * string * bool).

(** [NoMatch] is a ParseException, [Raise] any other exception. *)
Inductive outcome (A : Type) : Type :=
| Match (rest : string) (a : A)
| NoMatch
| Raise (e : exn).
Arguments Match {A}. Arguments NoMatch {A}. Arguments Raise {A}.

(** * The parse actions (parse_actions.py) *)

Definition new_obj (k : kind) (tr : string) : ptype := PT k tr "" "" false None None None [].
Definition set_ident (id : string) (p : ptype) : ptype :=
  let 'PT k tr _ v o d w c ms := p in PT k tr id v o d w c ms.
Definition set_ref (tr : string) (p : ptype) : ptype :=
  let 'PT k _ id v o d w c ms := p in PT k tr id v o d w c ms.
Definition set_optional (p : ptype) : ptype :=
  let 'PT k tr id v _ d w c ms := p in PT k tr id v true d w c ms.
Definition set_default (d : string) (p : ptype) : ptype :=
  let 'PT k tr id v o _ w c ms := p in PT k tr id v o (Some d) w c ms.
Definition set_con (c : string * string * bool) (p : ptype) : ptype :=
  let 'PT k tr id v o d w _ ms := p in PT k tr id v o d w (Some c) ms.
Definition set_members (ms : list (string + ptype)) (p : ptype) : ptype :=
  let 'PT k tr id v o d w c _ := p in PT k tr id v o d w c ms.
(** type.py 47-57. *)
Definition set_value (vr : string) (w : string) (p : ptype) : ptype :=
  let 'PT k tr id _ o d _ c ms := p in PT k tr id (underscore vr) o d (Some w) c ms.

(** [Type[0]] of a group, then an attribute of it. *)
Definition first_obj (t : tok) : res ptype :=
  match t with
  | Grp (Obj p :: _) => Ok p
  | Grp (Str _ :: _) | Str _ => Err PyAttributeError
  | _ => Err NotModelled
  end.

(** [for Type in toks[1:]: x.list = Type]. *)
Fixpoint member_list (l : list tok) : res (list (string + ptype)) :=
  match l with
  | [] => Ok []
  | Str s :: r => let* ms := member_list r in Ok (inl s :: ms)
  | Obj p :: r => let* ms := member_list r in Ok (inr p :: ms)
  | _ => Err NotModelled
  end.

(** parse_EnumeratedType (parse_actions.py 172-176) with EnumeratedType.py 46-50. *)
Fixpoint enum_items (l : list tok) : res (list (string + ptype)) :=
  match l with
  | [] => Ok []
  | Str s :: r => let* ms := enum_items r in Ok (inl s :: ms)
  | Grp [Str n; Str v] :: r => let* ms := enum_items r in Ok (inl (item_text (ENumber n v)) :: ms)
  | _ => Err NotModelled
  end.

(** parse_AlternativeTypeList (145-151): pairs, a last single token is dropped. *)
Fixpoint pairs (l : list tok) : res (list tok) :=
  match l with
  | Str n :: t :: r => let* p := first_obj t in let* ps := pairs r in Ok (Obj (set_ident n p) :: ps)
  | [] | [_] => Ok []
  | _ => Err NotModelled
  end.

(** parse_ExtensionAdditionAlternativesList (154-169). *)
Definition is_str (s : string) (t : tok) : bool := match t with Str x => String.eqb x s | _ => false end.
Fixpoint drop_first (s : string) (l : list tok) : list tok :=
  match l with [] => [] | t :: r => if is_str s t then r else t :: drop_first s r end.
Definition additions (l : list tok) : res (list tok) :=
  if existsb (is_str "[[") l then
    let* ps := pairs (drop_first "]]" (drop_first "[[" l)) in
    Ok (Str "[[" :: ps ++ [Str "]]"])
  else pairs l.

(** parse_SequenceOfType (60-64): [toks[1][0]] of a name is its first letter. *)
Definition seqof_obj (t : tok) : res ptype :=
  match t with
  | Grp (Obj p :: _) => Ok (set_members [inr p] (new_obj KSeqOf "SequenceOfType"))
  | Grp (Str s :: _) => Ok (set_members [inl s] (new_obj KSeqOf "SequenceOfType"))
  | Str (String c _) => Ok (set_members [inl (String c EmptyString)] (new_obj KSeqOf "SequenceOfType"))
  | _ => Err NotModelled
  end.

(** types/builtin/__init__.py 19-21. *)
Definition builtin_types : list string :=
  ["BitStringType"; "BooleanType"; "ChoiceType"; "DateType"; "EnumeratedType"; "IA5String";
   "IntegerType"; "NullType"; "NumericString"; "OctetStringType"; "RealType"; "SequenceType";
   "SequenceOfType"; "UTF8String"; "VisibleString"].

Definition obj_only (x : res ptype) : res (list tok) := let* p := x in Ok [Obj p].

(** All actions of parse_actions.py but parse_Constraint (line numbers at the side). *)
Definition act_on (a : action) (l : list tok) : res (list tok) :=
  match a with
  | ToSigned =>                                   (* common_def.py 15 *)
    match l with
    | [Str n] => Ok [Str n]
    | [Str h; Str n] => Ok [Str (append h n)]
    | _ => Err NotModelled
    end
  | ToDefined => match l with Str n :: _ => Ok [Obj (new_obj KDefined n)] | _ => Err NotModelled end
  | ToReal => Ok [Obj (new_obj KText "REAL")]
  | ToBoolean => Ok [Obj (new_obj KBool "BooleanType")]
  | ToInteger => Ok [Obj (new_obj KInt "IntegerType")]
  | ToEnumerated => let* ms := enum_items (tl l) in Ok [Obj (set_members ms (new_obj KEnum "EnumeratedType"))]
  | ToBits => Ok [Obj (new_obj KBits "BitStringType")]
  | ToOctets => Ok [Obj (new_obj KOcts "OctetStringType")]
  | ToComponent =>                                (* 106-117 *)
    match l with
    | Str n :: t :: r =>
      let* p := first_obj t in
      let p := set_ident n p in
      match r with
      | Str m :: r' =>
        if String.eqb m "OPTIONAL" then Ok [Obj (set_optional p)]
        else if String.eqb m "DEFAULT" then
          match r' with
          | Str d :: _ => Ok [Obj (set_default d p)]
          | [] => Ok [Obj p]                      (* the IndexError is caught *)
          | _ => Err NotModelled
          end
        else Ok [Obj p]
      | [] => Ok [Obj p]
      | _ => Err NotModelled
      end
    | _ => Err NotModelled
    end
  | ToSequence => let* ms := member_list (tl l) in Ok [Obj (set_members ms (new_obj KSeq "SequenceType"))]
  | ToSequenceOf => match l with _ :: t :: _ => obj_only (seqof_obj t) | _ => Err NotModelled end
  | ToAlternatives => pairs l
  | ToAdditions => additions l
  | ToChoice => let* ms := member_list (tl l) in Ok [Obj (set_members ms (new_obj KChoice "ChoiceType"))]
  | ToDate => Ok [Obj (new_obj KPlain "DATE")]
  | ToIA5 => Ok [Obj (new_obj KText "IA5String")]
  | ToNumeric => Ok [Obj (new_obj KText "NumericString")]
  | ToUTF8 => Ok [Obj (new_obj KText "UTF8String")]
  | ToVisible => Ok [Obj (new_obj KPlain "VisibleString")]
  | ToConstraint => Err NotModelled               (* below *)
  | ToSizedList =>                                (* 131-138 *)
    match l with
    | Str w :: c :: _ :: t :: _ =>
      if String.eqb w "SEQUENCE" then let* p := seqof_obj t in Ok [Obj p; c]
      else Err RaiseNotImplemented
    | _ => Err NotModelled
    end
  | ToConstrained =>                              (* 124-128 *)
    match l with
    | Obj p :: Con c :: _ => Ok [Obj (set_con c p)]
    | Str _ :: _ => Err PyAttributeError
    | _ => Err NotModelled
    end
  | ToTypeAssignment =>                           (* 33-42 *)
    match l with
    | Str n :: _ :: t :: _ =>
      let* p := first_obj t in
      Ok [Obj (if mem (typeref p) builtin_types then set_ref n p else set_ident n p)]
    | _ => Err NotModelled
    end
  | ToValueAssignment =>                          (* 24-30 *)
    match l with
    | Str n :: t :: _ =>
      let* p := first_obj t in
      match last l t with
      | Str v => Ok [Obj (set_value n v p)]
      | _ => Err NotModelled
      end
    | _ => Err NotModelled
    end
  | ToModule =>                                   (* 14-21: the module body *)
    match filter (fun t => match t with Grp _ => true | _ => false end) l with
    | [Grp body] => Ok body
    | _ => Err NotModelled
    end
  end.

(** * Constraints: nestedExpr and parse_Constraint *)

(** Words are runs of characters other than parentheses and blanks.  (A quoted
    text is one word in nestedExpr; not modelled.) *)
Definition is_paren (c : ascii) : bool := Ascii.eqb c "(" || Ascii.eqb c ")".
Definition is_quote (c : ascii) : bool := Ascii.eqb c "'" || Ascii.eqb c """".
Definition in_nest (c : ascii) : bool := negb (is_paren c || is_quote c || is_white c).

(** parse_Constraint (179-189) on the items of a group; [parse] reads a text with
    the Constraint of constraint_def.py.  An IndexError in an action is a
    ParseException. *)
Section Nested.
Variable parse : string -> outcome (list tok).

Fixpoint join_words (l : list tok) : res string :=
  match l with
  | [] => Ok EmptyString
  | [Str s] => Ok s
  | Str s :: r => let* w := join_words r in Ok (append s (String " " w))
  | _ => Err PyTypeError
  end.

Definition all_str (l : list tok) : option (list string) :=
  all_some (fun t => match t with Str s => Some s | _ => None end) l.
Fixpoint remove_word (s : string) (l : list string) : list string :=
  match l with [] => [] | x :: r => if String.eqb x s then r else x :: remove_word s r end.

Definition constraint_of (l : list tok) : outcome tok :=
  match l with
  | [] => NoMatch                                 (* constraint[0] *)
  | t :: r =>
    if is_str "SIZE" t then
      match r with x :: _ => Match "" x | [] => NoMatch end
    else
      match join_words l with
      | Err e => Raise e
      | Ok w =>
        match parse (append "(" (append w ")")) with
        | Match _ ts =>
          match all_str ts with
          | None => Raise NotModelled
          | Some ws =>
            match remove_word "..." ws with
            | [] => NoMatch                       (* parsed[0] *)
            | lo :: rest => Match "" (Con (lo, last rest lo, mem "..." ws))
            end
          end
        | NoMatch => NoMatch
        | Raise e => Raise e
        end
      end
  end.

(** The items behind an opening parenthesis; groups inside have run the action
    when [act]. *)
Fixpoint nested (n : nat) (act : bool) (s : string) : outcome (list tok) :=
  match n with
  | O => Raise LoopFuel
  | S n' =>
    match skip s with
    | EmptyString => NoMatch
    | String c r =>
      if Ascii.eqb c ")" then Match r []
      else if Ascii.eqb c "(" then
        match nested n' act r with
        | Match r1 g =>
          match (if act then constraint_of g else Match "" (Grp g)) with
          | Match _ t =>
            match nested n' act r1 with
            | Match r2 l => Match r2 (t :: l)
            | o => o
            end
          | NoMatch => NoMatch
          | Raise e => Raise e
          end
        | o => o
        end
      else if is_quote c then Raise NotModelled
      else let '(w, r1) := span in_nest (String c r) in
           match nested n' act r1 with
           | Match r2 l => Match r2 (Str w :: l)
           | o => o
           end
    end
  end.
End Nested.

(** * The rules *)

Definition lit (s : string) : pexp := PTerm (ULit s).
Definition sup (s : string) : pexp := PSup (lit s).
Definition comma := sup ",".
Definition typereference := PTerm UType.
Definition identifier := PTerm UIdent.
Definition number := PTerm UNumber.
Definition ellipsis := lit "...".
Definition separated (e : pexp) : pexp := POr [PAnd [e; PMany (PAnd [comma; e])]].

(** common_def.py *)
Definition g_signed := PAct ToSigned (POr [number; PAnd [lit "-"; number]]).
Definition g_defined_value := POr [PAnd [typereference; lit "."; identifier]; identifier].
Definition g_named_number := POr
  [PGroup (PAnd [identifier; sup "("; g_signed; sup ")"]);
   PGroup (PAnd [identifier; sup "("; g_defined_value; sup ")"])].
Definition g_tuple := PAnd [sup "{"; number; comma; number; sup "}"].
Definition g_quadruple := PAnd [sup "{"; number; comma; number; comma; number; comma; number; sup "}"].
Definition g_chars := POr [PTerm UChars; g_quadruple; g_tuple; g_defined_value].
Definition g_char_list := PAnd [sup "{"; separated g_chars; sup "}"].

(** value_def.py *)
Definition g_named_value := PAnd [identifier; PRule RValue].
Definition g_sequence_value := POr
  [PAnd [sup "{"; separated g_named_value; sup "}"]; PAnd [sup "{"; sup "}"]].
Definition g_real_value := POr
  [POr [PTerm UReal; PAnd [lit "-"; PTerm UReal]; g_sequence_value];
   POr [lit "PLUS-INFINITY"; lit "MINUS-INFINITY"; lit "NOT-A-NUMBER"]].
Definition g_integer_value := POr [g_signed; identifier].
Definition g_octets_value := POr [PTerm UBits; PTerm UHex; PAnd [lit "CONTAINING"; PRule RValue]].
Definition g_boolean_value := POr [lit "TRUE"; lit "FALSE"].
Definition g_string_value := POr [POr [PTerm UChars; g_char_list; g_quadruple; g_tuple]].
Definition g_builtin_value := POr
  [g_boolean_value; g_string_value; g_integer_value; lit "NULL"; g_octets_value; g_real_value;
   g_sequence_value].
Definition g_value := POr [g_builtin_value; POr [g_defined_value]].

(** constraint_def.py *)
Definition g_upper_value := POr [PRule RValue; lit "MAX"].
Definition g_lower_value := POr [PRule RValue; lit "MIN"].
Definition g_upper := POr [g_upper_value; PAnd [lit "<"; g_upper_value]].
Definition g_lower := POr [g_lower_value; PAnd [g_lower_value; lit "<"]].
Definition g_value_range := PAnd [g_lower; lit ".."; g_upper].
Definition g_subtype := POr [PRule RValue; g_value_range; PAnd [lit "SIZE"; PRule RConstraint]].
Definition g_elements := POr [g_subtype; PAnd [sup "("; PRule RSet; sup ")"]].
Definition g_inter_mark := POr [lit "^"; lit "INTERSECTION"].
Definition g_union_mark := POr [lit "|"; lit "UNION"].
Definition g_exclusions := PAnd [lit "EXCEPT"; g_elements].
Definition g_inter_elements := POr [PAnd [g_elements; POpt g_exclusions]].
Definition g_intersections := POr [PMore (PAnd [g_inter_elements; POpt (PAnd [g_inter_mark; g_inter_elements])])].
Definition g_unions := POr [PMore (PAnd [g_intersections; POpt g_union_mark])].
Definition g_set := POr [g_unions; PAnd [lit "ALL"; g_exclusions]].
Definition g_sets := POr
  [PRule RSet; PAnd [PRule RSet; comma; ellipsis]; PAnd [PRule RSet; comma; ellipsis; comma; PRule RSet]].
Definition g_constraint := PAnd [sup "("; POr [PRule RSets]; POr [PEmpty]; sup ")"].

(** type_def.py *)
Definition g_nest := PAct ToConstraint PNest.
Definition g_defined_type := PAct ToDefined (POr [PAnd [typereference; lit "."; typereference]; typereference]).
Definition g_exception := POr
  [PAnd [lit "!"; POr [g_signed; g_defined_value; PAnd [PRule RType; lit ":"; PRule RValue]]]; PEmpty].
Definition g_referenced := POr [g_defined_type].
Definition g_named_type := PAnd [identifier; PRule RType].
Definition g_boolean := PAct ToBoolean (lit "BOOLEAN").
Definition g_integer := PAct ToInteger
  (POr [lit "INTEGER"; PAnd [lit "INTEGER"; sup "{"; separated g_named_number; sup "}"]]).
Definition g_enumeration := separated (POr [identifier; g_named_number]).
Definition g_enumerations := POr
  [g_enumeration; PAnd [g_enumeration; comma; ellipsis; g_exception];
   PAnd [g_enumeration; comma; ellipsis; g_exception; comma; g_enumeration]].
Definition g_enumerated := PAct ToEnumerated (PAnd [lit "ENUMERATED"; sup "{"; g_enumerations; sup "}"]).
Definition g_named_bit := POr
  [PAnd [identifier; sup "("; number; sup ")"]; PAnd [identifier; sup "("; g_defined_type; sup ")"]].
Definition g_bit_string := PAct ToBits
  (POr [lit "BIT STRING"; PAnd [lit "BIT STRING"; sup "{"; separated g_named_bit; sup "}"]]).
Definition g_octet_string := PAct ToOctets (lit "OCTET STRING").
Definition g_version := POr [PEmpty; PAnd [number; lit ":"]].
Definition g_marker := POr [ellipsis; PAnd [ellipsis; g_exception]].
Definition g_end_marker := PAnd [comma; ellipsis].
Definition g_optional_marker := POr [g_end_marker; PEmpty].
Definition g_component := PAct ToComponent
  (POr [g_named_type; PAnd [g_named_type; lit "OPTIONAL"]; PAnd [g_named_type; lit "DEFAULT"; PRule RValue]]).
Definition g_components := separated g_component.
Definition g_group := PAnd [lit "[["; g_version; g_components; lit "]]"].
Definition g_addition := POr [g_component; g_group].
Definition g_additions := POr [PAnd [comma; separated g_addition]; PEmpty].
Definition g_component_lists := POr
  [g_components;
   PAnd [g_components; comma; g_marker; g_additions; g_optional_marker];
   PAnd [g_components; comma; g_marker; g_additions; g_end_marker; comma; g_components];
   PAnd [g_marker; g_additions; g_end_marker; comma; g_components];
   PAnd [g_marker; g_additions; g_optional_marker]].
Definition g_sequence := PAct ToSequence
  (POr [PAnd [lit "SEQUENCE"; sup "{"; sup "}"];
        PAnd [lit "SEQUENCE"; sup "{"; g_component_lists; sup "}"]]).
Definition g_sequence_of := PAct ToSequenceOf
  (POr [PAnd [lit "SEQUENCE OF"; PRule RType]; PAnd [lit "SEQUENCE OF"; g_named_type]]).
Definition g_alternatives := PAct ToAlternatives (separated g_named_type).
Definition g_alt_group := PAnd [lit "[["; g_version; separated g_named_type; lit "]]"].
Definition g_alt_addition := PAct ToAdditions (POr [g_alt_group; g_named_type]).
Definition g_alt_additions := POr [PAnd [comma; separated g_alt_addition]; PEmpty].
Definition g_alt_lists := POr
  [g_alternatives; PAnd [g_alternatives; comma; g_marker; g_alt_additions; g_optional_marker]].
Definition g_choice := PAct ToChoice (PAnd [lit "CHOICE"; sup "{"; g_alt_lists; sup "}"]).
Definition g_date := PAct ToDate (lit "DATE").
Definition g_class := POr [lit "UNIVERSAL"; lit "APPLICATION"; lit "PRIVATE"; PEmpty].
Definition g_tag := PAnd [lit "["; POr [PAnd [PTerm UEncoding; lit ":"]; PEmpty]; g_class;
                          POr [number; g_defined_value]; lit "]"].
Definition g_tagged := POr
  [PAnd [g_tag; PRule RType]; PAnd [g_tag; lit "IMPLICIT"; PRule RType]; PAnd [g_tag; lit "EXPLICIT"; PRule RType]].
Definition g_prefixed := POr [g_tagged].
Definition g_string := POr [POr
  [PAct ToIA5 (lit "IA5String"); PAct ToNumeric (lit "NumericString"); PAct ToUTF8 (lit "UTF8String");
   PAct ToVisible (lit "VisibleString")]].
Definition g_builtin := POr
  [g_bit_string; g_boolean; g_string; g_choice; g_date; g_enumerated; g_integer; lit "NULL";
   g_octet_string; PAct ToReal (lit "REAL"); g_sequence; g_sequence_of; g_prefixed].
Definition g_sized_list := PAct ToSizedList (POr
  [PAnd [lit "SET"; g_nest; lit "OF"; PRule RType]; PAnd [lit "SEQUENCE"; g_nest; lit "OF"; PRule RType];
   PAnd [lit "SET"; g_nest; lit "OF"; g_named_type]; PAnd [lit "SEQUENCE"; g_nest; lit "OF"; g_named_type]]).
Definition g_constrained := PAct ToConstrained (POr [PAnd [g_builtin; g_nest]; g_sized_list]).
Definition g_type := POr [PGroup g_builtin; PGroup g_referenced; PGroup g_constrained].

Definition body (r : rule) : pexp :=
  match r with
  | RType => g_type | RValue => g_value | RSet => g_set | RSets => g_sets | RConstraint => g_constraint
  end.

(** assignment_def.py, module_def.py *)
Definition g_value_assignment := PAct ToValueAssignment (PAnd [identifier; PRule RType; lit "::="; PRule RValue]).
Definition g_type_assignment := PAct ToTypeAssignment (PAnd [typereference; lit "::="; PRule RType]).
Definition g_assignments := PMany (POr [g_type_assignment; g_value_assignment]).
Definition g_body := POr [PAnd [POr [PEmpty]; POr [PEmpty]; g_assignments]; PEmpty].
Definition g_module := PAct ToModule (PAnd
  [PAnd [typereference]; lit "DEFINITIONS"; POr [PEmpty]; POr [lit "AUTOMATIC TAGS"; PEmpty]; POr [PEmpty];
   lit "::="; lit "BEGIN"; PGroup g_body; lit "END"]).

(** * Running an expression *)

(** Or: the alternatives that match, longest match first (the first of equals
    first).  A location is given by the length of what is left. *)
Fixpoint insert_match (x : nat * pexp) (l : list (nat * pexp)) : list (nat * pexp) :=
  match l with
  | [] => [x]
  | y :: r => if fst x <=? fst y then x :: l else y :: insert_match x r
  end.
Definition sort_matches (l : list (nat * pexp)) : list (nat * pexp) := fold_right insert_match [] l.

Section Loops.
Variable run : bool -> pexp -> string -> outcome (list tok).

(** And.parseImpl *)
Fixpoint run_and (act : bool) (l : list pexp) (s : string) : outcome (list tok) :=
  match l with
  | [] => Match s []
  | e :: r => match run act e s with
              | Match s1 a => match run_and act r s1 with
                              | Match s2 b => Match s2 (a ++ b)
                              | o => o
                              end
              | o => o
              end
  end.

(** Or.parseImpl: try_parse of every alternative. *)
Fixpoint tries (l : list pexp) (s : string) : res (list (nat * pexp)) :=
  match l with
  | [] => Ok []
  | e :: r => match run false e s with
              | Match s1 _ => let* m := tries r s in Ok ((String.length s1, e) :: m)
              | NoMatch => tries r s
              | Raise x => Err x
              end
  end.

(** Then, with actions, from the longest on; an action can fail. *)
Definition answer (b : option (string * list tok)) : outcome (list tok) :=
  match b with Some (r, a) => Match r a | None => NoMatch end.
Fixpoint longest (l : list (nat * pexp)) (s : string) (best : option (string * list tok)) : outcome (list tok) :=
  match l with
  | [] => answer best
  | (n, e) :: r =>
    if match best with Some (b, _) => String.length b <=? n | None => false end
    then answer best
    else match run true e s with
         | Match s1 a => if String.length s1 <=? n then Match s1 a
                         else longest r s (match best with
                                           | Some (b, _) => if String.length s1 <? String.length b
                                                            then Some (s1, a) else best
                                           | None => Some (s1, a)
                                           end)
         | NoMatch => longest r s best
         | Raise x => Raise x
         end
  end.

(** _MultipleMatch.parseImpl behind the first match. *)
Fixpoint more (n : nat) (act : bool) (e : pexp) (s : string) (a : list tok) : outcome (list tok) :=
  match n with
  | O => Raise LoopFuel
  | S n' => match run act e s with
            | Match r b => more n' act e r (a ++ b)
            | NoMatch => Match s a
            | Raise x => Raise x
            end
  end.

Definition run_or (act : bool) (l : list pexp) (s : string) : outcome (list tok) :=
  match tries l s with
  | Err x => Raise x
  | Ok m => match sort_matches m with
            | [] => NoMatch
            | (n, e) :: r => if act then longest ((n, e) :: r) s None else run false e s
            end
  end.
End Loops.

(** ParserElement._parse, [self] and [or] being the calls inside. *)
Definition step (self : bool -> pexp -> string -> outcome (list tok))
    (or : bool -> list pexp -> string -> outcome (list tok))
    (n : nat) (act : bool) (e : pexp) (s : string) : outcome (list tok) :=
  match e with
  | PTerm t => match term t s with Some (m, r) => Match r [Str m] | None => NoMatch end
  | PEmpty => Match s []
  | PSup e => match self act e s with Match r _ => Match r [] | o => o end
  | PAnd l => run_and self act l s
  | POr l => or act l s
  | PMany e => match self act e s with
               | Match r a => more self n act e r a
               | NoMatch => Match s []
               | Raise x => Raise x
               end
  | PMore e => match self act e s with
               | Match r a => more self n act e r a
               | o => o
               end
  | POpt e => match self act e s with NoMatch => Match s [] | o => o end
  | PGroup e => match self act e s with Match r a => Match r [Grp a] | o => o end
  | PAct ToConstraint e =>
    match self act e s with
    | Match r a =>
      if act then
        match a with
        | [Grp g] => match constraint_of (self true g_constraint) g with
                     | Match _ t => Match r [t]
                     | NoMatch => NoMatch
                     | Raise x => Raise x
                     end
        | _ => Raise NotModelled
        end
      else Match r a
    | o => o
    end
  | PAct a e => match self act e s with
                | Match r l => if act then match act_on a l with Ok l' => Match r l' | Err x => Raise x end
                               else Match r l
                | o => o
                end
  | PRule r => self act (body r) s
  | PNest => match s with
             | String c r => if Ascii.eqb c "(" then
                               match nested (self true g_constraint) n act r with
                               | Match r' g => Match r' [Grp g]
                               | o => o
                               end
                             else NoMatch
             | EmptyString => NoMatch
             end
  end.

(** [n] bounds the depth of the calls. *)
Fixpoint run (n : nat) (act : bool) (e : pexp) (s : string) {struct n} : outcome (list tok) :=
  match n with
  | O => Raise LoopFuel
  | S n' => step (run n') (run_or (run n')) n' act e (skip s)
  end.

(** str.expandtabs (ParserElement.parseString). *)
Fixpoint expandtabs (col : nat) (s : string) : string :=
  match s with
  | EmptyString => EmptyString
  | String c r =>
    if Ascii.eqb c (ascii_of_nat 9) then
      let k := 8 - col mod 8 in append (string_of_list_ascii (repeat " "%char k)) (expandtabs (col + k) r)
    else if Ascii.eqb c (ascii_of_nat 10) || Ascii.eqb c (ascii_of_nat 13) then String c (expandtabs 0 r)
    else String c (expandtabs (S col) r)
  end.

(** The objects of a module, in the order of the text (asn1PERser/__init__.py
    13-14; what stands behind END is ignored). *)
Definition only_objs (l : list tok) : option (list ptype) :=
  all_some (fun t => match t with Obj p => Some p | _ => None end) l.
Definition parse_module (n : nat) (s : string) : outcome (list ptype) :=
  match run n true g_module (expandtabs 0 s) with
  | Match r l => match only_objs l with Some ps => Match r ps | None => Raise NotModelled end
  | NoMatch => NoMatch
  | Raise x => Raise x
  end.

(** parse_asn1_schema up to the parsed objects (asn1PERser/__init__.py 12-14). *)
Definition to_codes (s : string) : list Z := map (fun c => Z.of_nat (nat_of_ascii c)) (list_ascii_of_string s).
Definition of_codes (l : list Z) : string := string_of_list_ascii (map (fun z => ascii_of_nat (Z.to_nat z)) l).
Definition read_schema (n : nat) (s : string) : outcome (list ptype) :=
  parse_module n (of_codes (remove_comments (to_codes s))).
