(** The generator: from the parsed objects to the Python module.
    Sources: classes/types/type.py, classes/types/builtin/*.py,
    classes/templates/files/*.txt, classes/templates/creator.py,
    classes/module.py 31-37.

    [fill_template] builds texts.  Here it builds the statements those texts are
    the layout of ([pclass], [stmt]) and [class_text] and [stmt_text] lay them
    out: the texts are compared with the files of the test suite, byte for byte,
    in GoldenTests.v.  What a class is worth when Python runs it is in Exec.v. *)

From Coq Require Import ZArith List String Ascii Bool Arith.
Import ListNotations.
From Verif Require Import PyBase Generator.

Open Scope string_scope.
Open Scope list_scope.
Open Scope nat_scope.

(** * The statements of a generated module *)

(** What stands between the parentheses of a constructor call: the text itself,
    True/False, [binValue='01'], [hexValue='0A'], ['text'], None. *)
Inductive parg : Type :=
| ARaw (s : string)
| ABool (b : bool)
| ABin (s : string)
| AHex (s : string)
| AQuoted (s : string)
| ANone.

(** [New c a] is [c(a)] or [c()]; [Const n] is the name of a constant. *)
Inductive expr : Type :=
| New (c : string) (a : option parg)
| Const (n : string).

(** NamedType / OptionalNamedType / DefaultedNamedType('name', expr). *)
Inductive mode : Type := EPlain | EOptional | EDefault.
Record entry := Entry { e_mode : mode; e_name : string; e_expr : expr }.

(** [subtypeSpec = fn(lo, hi, extensionMarker=True)]. *)
Record spec := Spec { s_fn : string; s_lo : string; s_hi : string; s_ext : bool }.

Inductive pclass : Type :=
| CLeaf (name base : string) (s : option spec)
| CEnum (name base : string) (ext : bool) (root adds : list (string * nat))
| CSeqOf (name base : string) (s : option spec) (elem : string)
| CComps (name base : string) (subs : list pclass) (ext : bool)
         (root adds : list entry) (groups : list (list entry)).

Inductive stmt : Type :=
| SClass (c : pclass)
| SAlias (name target : string)
| SValue (name cls : string) (a : parg).

(** * Layout (templates/files) *)

Definition nl : string := String (ascii_of_nat 10) EmptyString.

Fixpoint cat (l : list string) : string :=
  match l with [] => EmptyString | s :: r => append s (cat r) end.

Definition arg_text (a : parg) : string :=
  match a with
  | ARaw s => s
  | ABool true => "True"
  | ABool false => "False"
  | ABin s => cat ["binValue="; s]
  | AHex s => cat ["hexValue="; s]
  | AQuoted s => cat ["'"; s; "'"]
  | ANone => "None"
  end.

Definition expr_text (e : expr) : string :=
  match e with
  | New c None => cat [c; "()"]
  | New c (Some a) => cat [c; "("; arg_text a; ")"]
  | Const n => n
  end.

Definition mode_text (m : mode) : string :=
  match m with
  | EPlain => "NamedType"
  | EOptional => "OptionalNamedType"
  | EDefault => "DefaultedNamedType"
  end.

(** One line of a component list; the defaulted ones of the additions stand
    further to the right (SequenceType.txt 27, 29, 46, 48). *)
Definition entry_text (wide narrow : string) (e : entry) : string :=
  cat [nl; match e_mode e with EDefault => wide | _ => narrow end;
       mode_text (e_mode e); "('"; e_name e; "', "; expr_text (e_expr e); "),"].

Definition spec_text (s : spec) : string :=
  cat [nl; "    subtypeSpec = "; s_fn s; "("; s_lo s; ", "; s_hi s;
       if s_ext s then ", extensionMarker=True)" else ")"].

Definition value_text (v : string * nat) : string :=
  cat [nl; "        ('"; fst v; "', ";
       (fix digits (fuel n : nat) (acc : string) : string :=
          match fuel with
          | O => acc
          | S f => let acc' := String (ascii_of_nat (48 + n mod 10)) acc in
                   if n <? 10 then acc' else digits f (n / 10) acc'
          end) (S (snd v)) (snd v) EmptyString; "),"].

(** The filter [indent(width=4)] (jinja2.filters.do_indent): every line but the
    first one and the empty ones. *)
Fixpoint indent (s : string) : string :=
  match s with
  | EmptyString => EmptyString
  | String c r =>
    if Ascii.eqb c (ascii_of_nat 10) then
      match r with
      | EmptyString => String c EmptyString
      | String d _ => if Ascii.eqb d (ascii_of_nat 10) then String c (indent r)
                      else String c (append "    " (indent r))
      end
    else String c (indent r)
  end.

(** [text[:-2]] (SequenceType.py 43, 47; ChoiceType.py 43, 47). *)
Definition cut2 (s : string) : string := substring 0 (String.length s - 2) s.

Definition header : string :=
  cat ["from pyasn1.type.namedtype import NamedType, NamedTypes, OptionalNamedType, DefaultedNamedType"; nl;
       "from pyasn1.type.namedval import NamedValues"; nl;
       "from asn1PERser.classes.data.builtin import *"; nl;
       "from asn1PERser.classes.types.type import AdditiveNamedTypes"; nl;
       "from asn1PERser.classes.types.constraint import MIN, MAX, NoConstraint, ExtensionMarker, SequenceOfValueSize, \"; nl;
       "    ValueRange, SingleValue, ValueSize, ConstraintOr, ConstraintAnd"; nl; nl; nl].

(** IntegerType.txt, BooleanType.txt, OctetStringType.txt, BitStringType.txt;
    EnumeratedType.txt; SequenceOfType.txt; SequenceType.txt and ChoiceType.txt
    (which differ in what the entries may be only). *)
Fixpoint class_text (c : pclass) : string :=
  match c with
  | CLeaf n b s =>
    cat ["class "; n; "("; b; "):";
         match s with Some s => spec_text s | None => cat [nl; "    pass"] end;
         nl; nl; nl]
  | CEnum n b ext root adds =>
    cat ["class "; n; "("; b; "):";
         if ext then cat [nl; "    subtypeSpec = ExtensionMarker(True)"] else EmptyString;
         nl; "    enumerationRoot = NamedValues("; cat (map value_text root); nl; "    )";
         match adds with
         | [] => cat [nl; "    namedValues = enumerationRoot"]
         | _ => cat [nl; "    extensionAddition = NamedValues("; cat (map value_text adds); nl; "    )";
                     nl; "    namedValues = enumerationRoot + extensionAddition"]
         end;
         nl; nl; nl]
  | CSeqOf n b s elem =>
    cat ["class "; n; "("; b; "):";
         match s with Some s => spec_text s | None => EmptyString end;
         nl; "    componentType = "; elem; "()"; nl; nl; nl]
  | CComps n b subs ext root adds groups =>
    cat ["class "; n; "("; b; "):";
         indent (cat (map (fun d => cat [nl; cut2 (class_text d)]) subs));
         if ext then cat [nl; "    subtypeSpec = ExtensionMarker(True)"] else EmptyString;
         nl; "    rootComponent = AdditiveNamedTypes(";
         cat (map (entry_text "        " "        ") root); nl; "    )";
         match adds with
         | [] => EmptyString
         | _ => cat [nl; "    extensionAddition = AdditiveNamedTypes(";
                     cat (map (entry_text "            " "        ") adds); nl; "    )"]
         end;
         match groups with
         | [] => EmptyString
         | _ => cat [nl; "    extensionAdditionGroups = [";
                     cat (map (fun g => cat [nl; "        AdditiveNamedTypes(";
                                             cat (map (entry_text "                " "            ") g);
                                             nl; "        ),"]) groups);
                     nl; "    ]"]
         end;
         nl; "    componentType = rootComponent";
         match adds with [] => EmptyString | _ => " + extensionAddition" end;
         match groups with [] => EmptyString | _ => " + extensionAdditionGroups" end;
         nl; nl; nl]
  end.

(** type_type.txt = DefinedType.txt; simple_value.txt. *)
Definition stmt_text (s : stmt) : string :=
  match s with
  | SClass c => class_text c
  | SAlias n t => cat [n; " = "; t; nl; nl; nl]
  | SValue n c a => cat [n; " = "; c; "("; arg_text a; ")"; nl; nl; nl]
  end.

(** * Values (parse_value) *)

Fixpoint ends_with (c : ascii) (s : string) : bool :=
  match s with
  | EmptyString => false
  | String d EmptyString => Ascii.eqb c d
  | String _ r => ends_with c r
  end.
Fixpoint but_last (s : string) : string :=        (* s[:-1] *)
  match s with
  | EmptyString => EmptyString
  | String _ EmptyString => EmptyString
  | String d r => String d (but_last r)
  end.

(** type.py 19-20; BooleanType.py 25-28; OctetStringType.py and BitStringType.py
    28-32 (None when the value is neither a bstring nor an hstring);
    EnumeratedType.py 52-53.  Applied to what an earlier [parse_value] returned,
    it looks at its text. *)
Definition parse_value (k : kind) (a : parg) : option parg :=
  match k with
  | KBool => Some (ABool (String.eqb (arg_text a) "TRUE"))
  | KOcts | KBits =>
    if ends_with "B" (arg_text a) then Some (ABin (but_last (arg_text a)))
    else if ends_with "H" (arg_text a) then Some (AHex (but_last (arg_text a)))
    else None
  | KEnum => Some (AQuoted (arg_text a))
  | _ => Some a
  end.

(** type.py 51-57 and the tests of [self.Value]: BooleanType.py 12 asks for a
    bool, the others for something true. *)
Definition value_of (p : ptype) : option parg :=
  match pvalue p with
  | None => None
  | Some s => match pkind p with
              | KBool | KOcts | KBits => parse_value (pkind p) (ARaw s)
              | _ => if String.eqb s "" then None else parse_value (pkind p) (ARaw s)
              end
  end.

(** type.py 67-71. *)
Definition default_of (p : ptype) : option parg :=
  match dflt p with
  | None => None
  | Some s => if String.eqb s "" then Some (ARaw s) else parse_value (pkind p) (ARaw s)
  end.

(** * State of the generator (module.py 10-13) *)

(** already_filled_template, typereference_to_type, the keys of constants. *)
Record gstate := G { filled : list string; types : list (string * ptype); consts : list string }.

Fixpoint lookup {A} (n : string) (l : list (string * A)) : option A :=
  match l with
  | [] => None
  | (m, x) :: r => if String.eqb n m then Some x else lookup n r
  end.

Definition known (n : string) (ts : list (string * ptype)) : bool := mem n (map fst ts).

(** [__class__.__name__]. *)
Definition lib_name (k : kind) : string :=
  match k with
  | KInt => "IntegerType" | KBool => "BooleanType" | KOcts => "OctetStringType"
  | KBits => "BitStringType" | KEnum => "EnumeratedType" | KSeq => "SequenceType"
  | KChoice => "ChoiceType" | KSeqOf => "SequenceOfType" | KDefined => "DefinedType"
  | KText | KPlain => ""                          (* not used *)
  end.

(** The condition of the templates: both end points are non-empty texts. *)
Definition spec_of (fn : string) (p : ptype) : option spec :=
  match constraint p with
  | None => None
  | Some (lo, hi, ext) =>
    if negb (String.eqb lo "") && negb (String.eqb hi "") then Some (Spec fn lo hi ext) else None
  end.

(** IntegerType.py 16-20, OctetStringType.py and BitStringType.py 16-20,
    BooleanType.py 16-17. *)
Definition leaf_class (p : ptype) : pclass :=
  CLeaf (class_name p) (lib_name (pkind p))
        match pkind p with
        | KInt => spec_of "ValueRange" p
        | KOcts | KBits => spec_of "ValueSize" p
        | _ => None
        end.

(** The items of an ENUMERATED are the strings of [members]: a name, '...', or
    the text of the dict made of a named number ([item_text]). *)
Definition items (p : ptype) : list eitem :=
  flat_map (fun m => match m with inl s => [EName s] | inr _ => [] end) (members p).

(** EnumeratedType.py 13-33. *)
Definition enum_class (p : ptype) : pclass :=
  let e := enum_fill (items p) in
  CEnum (class_name p) (lib_name (pkind p)) (e_ext e) (e_root e) (e_adds e).

(** SequenceOfType.py 13-19; [None] has no template_field_type. *)
Definition seqof_class (p : ptype) : res (ptype * pclass) :=
  match members p with
  | [inr e] => Ok (e, CSeqOf (class_name p) (lib_name (pkind p))
                             (spec_of "SequenceOfValueSize" p) (field_type e))
  | _ => Err PyAttributeError
  end.

(** SequenceType.py 82-107 with the lines of the template; ChoiceType.py 83-91. *)
Definition entry_of (ts : list (string * ptype)) (cs : list string) (k : kind) (p : ptype) : entry :=
  let t := field_ty (fill_named p) in
  match k with
  | KChoice => Entry EPlain (ident p) (New t None)
  | _ =>
    if optional p then Entry EOptional (ident p) (New t None)
    else match default_of p with
         | None => Entry EPlain (ident p) (New t None)
         | Some a =>
           if mem (arg_text a) cs then Entry EDefault (ident p) (Const (arg_text a))
           else Entry EDefault (ident p)
                  (New t (Some match lookup (typeref p) ts with
                               | Some d => match parse_value (pkind d) a with
                                           | Some b => b
                                           | None => ANone
                                           end
                               | None => a
                               end))
         end
  end.

(** State of the loop of SequenceType.py 13-20 = ChoiceType.py 13-20. *)
Record work := Work { w_root : list entry; w_adds : list entry; w_groups : list (list entry);
                      w_open : list entry; w_in : bool; w_ext : bool;
                      w_subs : list pclass; w_comps : list ptype }.

(** SequenceType.py 22-34 = ChoiceType.py 22-34, on a string. *)
Definition mark (w : work) (s : string) : res work :=
  let 'Work ro ad gr op i x su co := w in
  if String.eqb s "[[" then Ok (Work ro ad gr op true x su co)
  else if String.eqb s "]]" then Ok (Work ro ad (gr ++ [op]) [] false x su co)
  else if i then Err PyAttributeError
  else if String.eqb s "..." then Ok (Work ro ad gr op i true su co)
  else Err PyAttributeError.

(** SequenceType.py 30-39 = ChoiceType.py 30-39, on a type. *)
Definition put (w : work) (e : entry) : work :=
  let 'Work ro ad gr op i x su co := w in
  if i then Work ro ad gr (op ++ [e]) i x su co
  else if negb x then Work (ro ++ [e]) ad gr op i x su co
  else Work ro (ad ++ [e]) gr op i x su co.

Definition add_sub (w : work) (c : pclass) (l : list ptype) : work :=
  let 'Work ro ad gr op i x su co := w in Work ro ad gr op i x (su ++ [c]) (co ++ l).
Definition add_comp (w : work) (p : ptype) : work :=
  let 'Work ro ad gr op i x su co := w in Work ro ad gr op i x su (co ++ [p]).

(** [fill_template(has_parent=True)]: the types to look at later and the class.
    DefinedType and UTF8String take no [has_parent], the other classes inherit
    [Type.fill_template]: TypeError. *)
Fixpoint inline (ts : list (string * ptype)) (cs : list string) (p : ptype) {struct p}
  : res (list ptype * pclass) :=
  match p with
  | PT k _ _ _ _ _ _ _ ms =>
    match k with
    | KInt | KBool | KOcts | KBits => Ok ([], leaf_class p)
    | KEnum => Ok ([], enum_class p)
    | KSeqOf => let* (e, c) := seqof_class p in Ok ([e], c)
    | KSeq | KChoice =>
      let* w :=
        (fix loop (ms : list (string + ptype)) (w : work) : res work :=
           match ms with
           | [] => Ok w
           | inl s :: r => let* w' := mark w s in loop r w'
           | inr q :: r =>
             let w1 := put w (entry_of ts cs k q) in
             if mem (typeref q) leaf_refs then
               match constraint q with
               | None => loop r w1
               | Some _ => let* (_, c) := inline ts cs q in loop r (add_sub w1 c [])
               end
             else if mem (typeref q) nested_refs then
               let* (l, c) := inline ts cs q in loop r (add_sub w1 c l)
             else loop r (add_comp w1 q)
           end) ms (Work [] [] [] [] false false [] []) in
      Ok (w_comps w, CComps (class_name p) (lib_name k) (w_subs w) (w_ext w)
                            (w_root w) (w_adds w) (w_groups w))
    | KDefined | KText | KPlain => Err PyTypeError
    end
  end.

(** DefinedType.py 20-21: the loop follows typereferences until it meets one of
    four classes.  The answer is the key of the entry met.  More steps than there
    are entries means that it goes round for ever. *)
Fixpoint chase (n : nat) (ts : list (string * ptype)) (key : string) : res (string * ptype) :=
  match n with
  | O => Err LoopFuel
  | S n' => match lookup key ts with
            | None => Err PyKeyError
            | Some d => match pkind d with
                        | KInt | KBool | KOcts | KBits => Ok (key, d)
                        | _ => chase n' ts (typeref d)
                        end
            end
  end.

(** DefinedType.py 22-24: the entry of the dictionary is changed. *)
Definition set_entry (key : string) (d : ptype) (ts : list (string * ptype)) := (key, d) :: ts.

Definition with_value (vr tr : string) (v : option string) (p : ptype) : ptype :=
  let 'PT k _ id _ opt d _ con ms := p in PT k tr id vr opt d v con ms.

Definition put_text (st : gstate) (c : pclass) : gstate :=
  G (class_text c :: filled st) (types st) (consts st).

Definition once (st : gstate) (c : pclass) : gstate * list stmt :=
  if mem (class_text c) (filled st) then (st, []) else (put_text st c, [SClass c]).

(** [fill_template()] (has_parent=False) of every class.  [n] bounds the depth
    of the calls: see [emit]. *)
Fixpoint fill (n : nat) (st : gstate) (p : ptype) {struct n} : res (gstate * list stmt) :=
  match n with
  | O => Err LoopFuel
  | S n' =>
    match pkind p with
    | KInt | KBool | KOcts | KBits =>
      match value_of p with
      | Some a => Ok (st, [SValue (valref p) (field_type p) a])
      | None => Ok (once st (leaf_class p))
      end
    | KEnum => Ok (once st (enum_class p))
    | KText | KPlain => Err PyTypeError
    | KSeqOf =>
      let* (e, c) := seqof_class p in
      if mem (class_text c) (filled st) then Ok (st, [])
      else let st1 := put_text st c in
           if mem (typeref e) leaf_refs then Ok (st1, [SClass c])
           else let* (st2, l) := fill n' st1 e in Ok (st2, l ++ [SClass c])
    | KSeq | KChoice =>
      let* (comps, c) := inline (types st) (consts st) p in
      if mem (class_text c) (filled st) then Ok (st, [])
      else
        let* (st2, l) :=
          fold_left (fun acc q =>
                       let* (st', l) := acc in
                       if match default_of q with Some _ => true | None => false end
                          || known (typeref q) (types st') then Ok (st', l)
                       else let* (st'', l') := fill n' st' q in Ok (st'', l ++ l'))
                    comps (Ok (put_text st c, [])) in
        Ok (st2, l ++ [SClass c])
    | KDefined =>
      match lookup (typeref p) (types st) with
      | None => Err PyKeyError
      | Some d =>
        match value_of p with
        | None =>
          if negb (String.eqb (ident p) "") && negb (String.eqb (typeref p) "") then
            Ok (st, [SAlias (underscore (ident p)) (underscore (typeref p))])
          else match pkind d with
               | KDefined => Ok (st, [SAlias (field_type p) (class_name d)])
               | _ => fill n' st d
               end
        | Some a =>
          if negb (String.eqb (valref p) "") && negb (String.eqb (typeref p) "") then
            let* (key, d') := chase (S (List.length (types st))) (types st) (typeref p) in
            Ok (G (filled st)
                  (set_entry key (with_value (valref p) (typeref p) (pvalue p) d') (types st))
                  (consts st),
                [SValue (valref p) (underscore (typeref p))
                        match parse_value (pkind d') a with Some b => b | None => ANone end])
          else
            let d' := with_value (valref d) (typeref d) (pvalue p) d in
            fill n' (G (filled st) (set_entry (typeref p) d' (types st)) (consts st)) d'
        end
      end
    end
  end.

(** The name an assignment enters typereference_to_type with
    (parse_actions.py 33-42). *)
Definition type_key (p : ptype) : string :=
  if String.eqb (ident p) "" then typeref p else ident p.

(** What parsing leaves in typereference_to_type: later assignments replace
    earlier ones, [old] comes from modules parsed before. *)
Definition registered (old : list (string * ptype)) (l : list ptype) : list (string * ptype) :=
  fold_left (fun acc p => if has_value p then acc else (type_key p, p) :: acc) l old.

(** Number of nested objects; calls of [fill] go down in an object or to another
    entry, and an entry is never expanded inside itself: its text is already
    there. *)
Fixpoint psize (p : ptype) : nat :=
  match p with
  | PT _ _ _ _ _ _ _ _ ms =>
    S (list_sum (map (fun m => match m with inl _ => 0 | inr q => psize q end) ms))
  end.
Definition depth_bound (ts : list (string * ptype)) (l : list ptype) : nat :=
  S (list_sum (map psize l) + list_sum (map (fun e => psize (snd e)) ts)).

Fixpoint fill_all (n : nat) (st : gstate) (l : list ptype) : res (gstate * list stmt) :=
  match l with
  | [] => Ok (st, [])
  | p :: r => let* (st1, a) := fill n st p in
              let* (st2, b) := fill_all n st1 r in
              Ok (st2, a ++ b)
  end.

(** parse_asn1_schema without the grammar: sort (module.py 180-181), then
    module.py 31-37.  [old] is the state left by the modules before. *)
Definition emit_after (old : gstate) (l : list ptype) : res (gstate * list stmt) :=
  let ts := registered (types old) l in
  let cs := consts old ++ map valref (constants_of l) in
  let* sorted := sort_assignments l in
  fill_all (depth_bound ts l) (G [] ts cs) sorted.

Definition emit (l : list ptype) : res (list stmt) :=
  let* (_, s) := emit_after (G [] [] []) l in Ok s.

Definition module_text (s : list stmt) : string := cat (header :: map stmt_text s).
