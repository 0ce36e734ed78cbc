(** The schema side: what happens between the parsed assignments and the
    generated classes.  Sources: classes/module.py, classes/parse_actions.py,
    classes/types/type.py, classes/types/builtin/*.py, the templates in
    classes/templates/files.  The pyparsing grammar is not modelled: the model
    starts from the objects the parse actions build. *)

From Coq Require Import ZArith List String Ascii Bool Arith.
Import ListNotations.
From Verif Require Import PyBase.

Open Scope string_scope.
Open Scope list_scope.
Open Scope nat_scope.

(** * Parsed types *)

(** The class of a parsed object (classes/types/builtin/*.py).  [KText] is one of
    IA5String, NumericString, RealType, UTF8String, NullType (all SimpleType);
    [KPlain] is DateType or VisibleString, which derive from Type directly. *)
Inductive kind : Type :=
| KInt | KBool | KOcts | KBits | KEnum | KText | KPlain
| KDefined | KSeq | KChoice | KSeqOf.

(** A parsed object (types/type.py 6-14): class, typereference, identifier,
    valuereference, optional, default, Value (as handed to the setters of the last
    two), constraint (lowerEndpoint, upperEndpoint,
    extensionMarker; None is NoConstraint), and what iterating over it yields
    (SequenceType.ComponentTypeList, ChoiceType.AlternativeTypeList, and the one
    component of SequenceOfType): strings for the marks, types otherwise.
    Iteration uses [__getitem__] (SequenceType.py 109-110, ChoiceType.py 93-94,
    SequenceOfType.py 38-39). *)
Inductive ptype : Type :=
| PT (k : kind) (tr id vr : string) (opt : bool) (dflt value : option string)
     (con : option (string * string * bool)) (ms : list (string + ptype)).

Definition pkind (p : ptype) : kind := let 'PT k _ _ _ _ _ _ _ _ := p in k.
Definition typeref (p : ptype) : string := let 'PT _ t _ _ _ _ _ _ _ := p in t.
Definition ident (p : ptype) : string := let 'PT _ _ i _ _ _ _ _ _ := p in i.
Definition valref (p : ptype) : string := let 'PT _ _ _ v _ _ _ _ _ := p in v.
Definition optional (p : ptype) : bool := let 'PT _ _ _ _ o _ _ _ _ := p in o.
Definition dflt (p : ptype) : option string := let 'PT _ _ _ _ _ d _ _ _ := p in d.
Definition pvalue (p : ptype) : option string := let 'PT _ _ _ _ _ _ w _ _ := p in w.
Definition constraint (p : ptype) : option (string * string * bool) :=
  let 'PT _ _ _ _ _ _ _ c _ := p in c.
Definition members (p : ptype) : list (string + ptype) :=
  let 'PT _ _ _ _ _ _ _ _ m := p in m.

Definition mem (s : string) (l : list string) : bool := existsb (String.eqb s) l.

Fixpoint position (s : string) (l : list string) : option nat :=
  match l with
  | [] => None                                    (* list.index: ValueError *)
  | x :: r => if String.eqb s x then Some 0 else option_map S (position s r)
  end.

(** * Ordering of the assignments (module.py) *)

Definition skipped_refs : list string :=
  ["IntegerType"; "BooleanType"; "OctetStringType"; "BitStringType"; "EnumeratedType"].
Definition inline_refs : list string := ["ChoiceType"; "SequenceType"; "SequenceOfType"].

Definition is_defined (p : ptype) : bool :=
  match pkind p with KDefined => true | _ => false end.

(** module.py 107-121, [_get_subcomponents]; only the typereferences of the
    subcomponents are used by the caller. *)
Fixpoint subrefs (p : ptype) : list string :=
  match p with
  | PT KDefined tr _ _ _ _ _ _ _ => [tr]
  | PT _ _ _ _ _ _ _ _ ms =>
    flat_map (fun m => match m with
                       | inl _ => []
                       | inr q => if mem (typeref q) skipped_refs then []
                                  else if mem (typeref q) inline_refs then subrefs q
                                  else [typeref q]
                       end) ms
  end.

(** State of one pass of [sort_components] (module.py 63-105):
    new_order_typereferences, new_order_components, already_moved_typereferences,
    all_sorted. *)
Record pass := Pass { refs : list string; outs : list ptype;
                      moved : list string; quiet : bool }.

(** module.py 79-91: one subcomponent of the component at [ci]. *)
Definition visit_sub (comps : list ptype) (ci : nat) (st : pass) (r : string) : pass :=
  if mem r (refs st) then st
  else match position r (map typeref comps) with
       | None => st
       | Some j =>
         if (ci <? j) && negb (mem r (moved st)) then
           match nth_error comps j with
           | Some c => Pass (refs st ++ [r]) (outs st ++ [c]) (moved st ++ [r]) false
           | None => st                           (* not reached: j is an index *)
           end
         else st
       end.

(** module.py 77-95: one component; the [else] of the inner loop always runs. *)
Definition visit (comps : list ptype) (st : pass) (ic : nat * ptype) : pass :=
  let '(ci, c) := ic in
  let st' := fold_left (visit_sub comps ci) (subrefs c) st in
  if mem (typeref c) (refs st') then st'
  else Pass (refs st' ++ [typeref c]) (outs st' ++ [c]) (moved st') (quiet st').

Definition sort_pass (comps : list ptype) : pass :=
  fold_left (visit comps) (combine (seq 0 (List.length comps)) comps) (Pass [] [] [] true).

(** module.py 71-105: the loop over passes, [n] of them left. *)
Fixpoint sort_loop (n : nat) (comps : list ptype) : list ptype :=
  match n with
  | O => comps
  | S n' => let st := sort_pass comps in
            if quiet st then outs st else sort_loop n' (outs st)
  end.

(** module.py 64, MAX_ITERATIONS. *)
Definition max_iterations : nat := 100.

Definition sort_components (comps : list ptype) : list ptype :=
  sort_loop max_iterations comps.

Definition insert_at (i : nat) (x : ptype) (l : list ptype) : list ptype :=
  firstn i l ++ x :: skipn i l.

(** module.py 123-141, [additional_sort]: an alias goes right behind the
    component it names, or stays where it is. *)
Definition place_alias (st : list ptype * list ptype) (a : ptype) : list ptype * list ptype :=
  let '(types, comps) := st in
  match position (typeref a) (map typeref comps) with
  | None => (types ++ [a], comps)
  | Some i => (types, insert_at (i + 1) a comps)
  end.

Definition additional_sort (types comps : list ptype) : list ptype * list ptype :=
  fold_left place_alias types ([], comps).

(** isinstance(assignment, SimpleType) *)
Definition is_simple (p : ptype) : bool :=
  match pkind p with
  | KInt | KBool | KOcts | KBits | KEnum | KText => true
  | _ => false
  end.
Definition has_value (p : ptype) : bool := negb (String.eqb (valref p) "").

Definition is_struct (p : ptype) : bool := negb (is_simple p) && negb (is_defined p).
Definition values_of (l : list ptype) := filter (fun p => is_simple p && has_value p) l.
Definition simples_of (l : list ptype) := filter (fun p => is_simple p && negb (has_value p)) l.
Definition constants_of (l : list ptype) := filter (fun p => is_defined p && has_value p) l.
Definition aliases_of (l : list ptype) := filter (fun p => is_defined p && negb (has_value p)) l.
Definition structs_of (l : list ptype) := filter is_struct l.

(** [for subcomponent in component] raises TypeError on an object without
    [__getitem__] (DATE, VisibleString). *)
Definition iterable (p : ptype) : bool := match pkind p with KPlain => false | _ => true end.

(** module.py 39-61, [sort_assigment_list]. *)
Definition sort_assignments (l : list ptype) : res (list ptype) :=
  if forallb iterable (structs_of l) then
    let '(types, comps) := additional_sort (aliases_of l) (sort_components (structs_of l)) in
    Ok (values_of l ++ simples_of l ++ types ++ constants_of l ++ comps)
  else Err PyTypeError.

(** * ENUMERATED (EnumeratedType.py 12-39 and 46-50) *)

(** What the parse action hands to the setter: a string, or the pair
    (name, number) of a named number. *)
Inductive eitem : Type :=
| EName (s : string)
| ENumber (name number : string).

(** EnumeratedType.py 46-50 then [str(EnumerationItem).strip()] of 22 and 25: a
    named number is stored as the dict [{number: name}]. (Names and numbers have
    no blanks around them, so [strip] changes nothing.) *)
Definition item_text (i : eitem) : string :=
  match i with
  | EName s => s
  | ENumber name number => ("{'" ++ number ++ "': '" ++ name ++ "'}")%string
  end.

(** EnumeratedType.py 18: [EnumerationItem == '...'] (a dict never is). *)
Definition is_dots (i : eitem) : bool :=
  match i with EName s => String.eqb s "..." | ENumber _ _ => false end.

Record enum_lists := EL { e_ext : bool; e_root : list (string * nat);
                          e_adds : list (string * nat); e_next : nat }.

(** EnumeratedType.py 17-27, the body of the loop. *)
Definition enum_step (st : enum_lists) (i : eitem) : enum_lists :=
  if is_dots i then EL true (e_root st) (e_adds st) (e_next st)
  else if negb (e_ext st)
       then EL (e_ext st) (e_root st ++ [(item_text i, e_next st)]) (e_adds st) (S (e_next st))
       else EL (e_ext st) (e_root st) (e_adds st ++ [(item_text i, e_next st)]) (S (e_next st)).

Definition enum_fill (items : list eitem) : enum_lists :=
  fold_left enum_step items (EL false [] [] 0).

(** EnumeratedType.txt: [namedValues] is root, or root + additions. *)
Definition named_values (e : enum_lists) : list (string * nat) :=
  match e_adds e with [] => e_root e | _ => e_root e ++ e_adds e end.

(** * Comments (module.py 199-209) *)

(** A text is a list of code points. *)
Definition is_break (c : Z) : bool :=
  existsb (Z.eqb c) [10; 11; 12; 13; 28; 29; 30; 133; 8232; 8233]%Z.

(** str.splitlines: [cur] is the current line, reversed. CR LF is one end. *)
Fixpoint split_lines (cur : list Z) (s : list Z) : list (list Z) :=
  match s with
  | [] => match cur with [] => [] | _ => [rev cur] end
  | c :: r =>
    if Z.eqb c 13 then
      match r with
      | d :: r' => if Z.eqb d 10 then rev cur :: split_lines [] r'
                   else rev cur :: split_lines [] r
      | [] => [rev cur]
      end
    else if is_break c then rev cur :: split_lines [] r
    else split_lines (c :: cur) r
  end.

Definition splitlines (s : list Z) : list (list Z) := split_lines [] s.

(** [re.sub('--.*', '', line)] on a text without line feed: cut at the first
    double hyphen. *)
Fixpoint cut_comment (l : list Z) : list Z :=
  match l with
  | [] => []
  | c :: r => match r with
              | d :: _ => if (Z.eqb c 45 && Z.eqb d 45)%bool then [] else c :: cut_comment r
              | [] => [c]
              end
  end.

(** module.py 203-209. *)
Definition remove_comments (s : list Z) : list Z :=
  flat_map (fun l => cut_comment l ++ [10%Z]) (splitlines s).

(** * Components of SEQUENCE and CHOICE *)

Fixpoint underscore (s : string) : string :=      (* s.replace('-', '_') *)
  match s with
  | EmptyString => EmptyString
  | String c r => String (if Ascii.eqb c "-"%char then "_"%char else c) (underscore r)
  end.

(** templates/__init__.py 8-14. *)
Definition class_name (p : ptype) : string :=
  if String.eqb (ident p) "" then underscore (typeref p) else underscore (ident p).
Definition field_type (p : ptype) : string :=
  if String.eqb (typeref p) "" then underscore (ident p) else underscore (typeref p).

Definition leaf_refs : list string :=
  ["IntegerType"; "BooleanType"; "OctetStringType"; "BitStringType"].
Definition nested_refs : list string :=
  ["ChoiceType"; "SequenceType"; "EnumeratedType"; "SequenceOfType"].

(** One line of the generated component list.  Whether a DEFAULT names a constant
    and how its value is printed are left out. *)
Record named := Named { field_name : string; field_ty : string;
                        n_optional : bool; n_default : option string }.

(** SequenceType.py 82-107; ChoiceType.py 83-91 is the same without the last two
    fields. *)
Definition fill_named (p : ptype) : named :=
  Named (ident p)
        (if mem (typeref p) leaf_refs then
           match constraint p with Some _ => class_name p | None => field_type p end
         else if mem (typeref p) nested_refs then class_name p
         else field_type p)
        (optional p)
        (if optional p then None else dflt p).

(** State of the loop: root, additions, groups, the open group,
    in_extension_addition_group, extension_marker_present. *)
Record lists := Lists { l_root : list named; l_adds : list named;
                        l_groups : list (list named); l_open : list named;
                        l_in : bool; l_ext : bool }.

(** SequenceType.py 21-41 = ChoiceType.py 21-41: what the loop does to the lists.
    A mark inside a group reaches [_fill_named_types], which reads its
    [identifier]: AttributeError. Other strings cannot come from the grammar. *)
Definition lists_step (st : lists) (m : string + ptype) : res lists :=
  match m with
  | inl s =>
    if String.eqb s "[[" then
      Ok (Lists (l_root st) (l_adds st) (l_groups st) (l_open st) true (l_ext st))
    else if String.eqb s "]]" then
      Ok (Lists (l_root st) (l_adds st) (l_groups st ++ [l_open st]) [] false (l_ext st))
    else if l_in st then Err PyAttributeError
    else if String.eqb s "..." then
      Ok (Lists (l_root st) (l_adds st) (l_groups st) (l_open st) (l_in st) true)
    else Err PyAttributeError
  | inr p =>
    if l_in st then
      Ok (Lists (l_root st) (l_adds st) (l_groups st) (l_open st ++ [fill_named p])
                (l_in st) (l_ext st))
    else if negb (l_ext st) then
      Ok (Lists (l_root st ++ [fill_named p]) (l_adds st) (l_groups st) (l_open st)
                (l_in st) (l_ext st))
    else
      Ok (Lists (l_root st) (l_adds st ++ [fill_named p]) (l_groups st) (l_open st)
                (l_in st) (l_ext st))
  end.

Fixpoint lists_loop (st : lists) (ms : list (string + ptype)) : res lists :=
  match ms with
  | [] => Ok st
  | m :: r => match lists_step st m with Ok st' => lists_loop st' r | Err e => Err e end
  end.

Definition fill_lists (p : ptype) : res lists :=
  lists_loop (Lists [] [] [] [] false false) (members p).

(** types/type.py 115-122, [AdditiveNamedTypes.__add__], on the stored lists. *)
Definition add_types (a b : list named) : list named := a ++ b.
Definition add_groups (a : list named) (gs : list (list named)) : list named :=
  a ++ fold_left (fun acc g => acc ++ g) gs [].

(** The last lines of SequenceType.txt and ChoiceType.txt: [componentType]. *)
Definition component_type (l : lists) : list named :=
  match l_adds l, l_groups l with
  | [], [] => l_root l
  | _ :: _, [] => add_types (l_root l) (l_adds l)
  | [], _ :: _ => add_groups (l_root l) (l_groups l)
  | _ :: _, _ :: _ => add_groups (add_types (l_root l) (l_adds l)) (l_groups l)
  end.
