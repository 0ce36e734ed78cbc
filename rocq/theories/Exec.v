(** What a generated module is worth when Python runs it: the classes bound to its
    names, as types of the codec ([ty], Schema.v).  Sources: the statements of
    Emit.v; classes/data/builtin/*.py (the library classes), classes/types/
    constraint.py, classes/types/type.py 110-122; for the rest the rules of Python
    (class bodies, name lookup, inheritance) and the constructors of pyasn1, which
    is not in the sandbox and is described from its published sources. *)

From Coq Require Import ZArith List String Ascii Bool Arith DecimalString.
Import ListNotations.
From Verif Require Import PyBase Schema Encoder Decoder Generator Emit.

Open Scope string_scope.
Open Scope list_scope.
Open Scope nat_scope.

(** The library class a class descends from. *)
Inductive lib : Type := LInt | LBool | LOcts | LBits | LEnum | LSeq | LChoice | LSeqOf | LText.

(** Python objects: classes with their attributes (inherited ones behind own
    ones), instances (type and value), constraints, AdditiveNamedTypes, a list of
    them, NamedValues, a name imported by the header, None. *)
Inductive obj : Type :=
| OClass (k : lib) (attrs : list (string * obj))
| OInst (t : ty) (v : val)
| OSpec (c : constr)
| OTypes (l : list (comp ty))
| OGroups (l : list (list (comp ty)))
| OValues (l : list (string * nat))
| OFn (f : string)
| ONone.

Definition space := list (string * obj).

(** Names a Python statement may bind: an identifier that is not a keyword
    (Python 3.7 and later; keyword.kwlist). *)
Definition keywords : list string :=
  ["False"; "None"; "True"; "and"; "as"; "assert"; "async"; "await"; "break"; "class"; "continue";
   "def"; "del"; "elif"; "else"; "except"; "finally"; "for"; "from"; "global"; "if"; "import";
   "in"; "is"; "lambda"; "nonlocal"; "not"; "or"; "pass"; "raise"; "return"; "try"; "while";
   "with"; "yield"].
Definition is_digit (c : ascii) : bool :=
  let n := nat_of_ascii c in (48 <=? n) && (n <=? 57).
Definition is_upper (c : ascii) : bool :=
  let n := nat_of_ascii c in (65 <=? n) && (n <=? 90).
Definition is_lower (c : ascii) : bool :=
  let n := nat_of_ascii c in (97 <=? n) && (n <=? 122).
Definition start_char (c : ascii) : bool := is_upper c || is_lower c || Ascii.eqb c "_".
Fixpoint all_chars (f : ascii -> bool) (s : string) : bool :=
  match s with EmptyString => true | String c r => f c && all_chars f r end.
Definition py_name (s : string) : bool :=
  match s with
  | EmptyString => false
  | String c r => start_char c && all_chars (fun c => start_char c || is_digit c) r
                  && negb (mem s keywords)
  end.

(** Attributes of the library classes and of the pyasn1 classes above them that the
    codec or pyasn1 itself relies on: a nested class of that name would hide
    them.  (A list of the ones used here; pyasn1 has more.) *)
Definition attributes : list string :=
  ["subtypeSpec"; "fill_field_list"; "create_field_list"; "to_dict"; "get_root_field_list";
   "get_extension_field_list"; "isValue"; "tagSet"; "typeId"; "clone"; "subtype"; "encoding";
   "namedValues"; "defaultValue"; "strictConstraints"; "sizeSpec"; "reset"; "isSameTypeWith";
   "isSuperTypeOf"; "isNoValue"; "readOnly"; "effectiveTagSet"; "tagMap"; "componentTagMap";
   "getComponentByName"; "setComponentByName"; "getComponentByPosition";
   "setComponentByPosition"; "getComponentByType"; "setComponentByType"; "getComponent";
   "getName"; "getNameByPosition"; "getComponentTypeMap"; "getTypeMap"; "getTagMap";
   "verifySizeSpec"; "isInconsistent"; "components"; "clear"; "values"; "keys"; "items"; "update";
   "prettyPrint"; "prettyPrintType"; "setDefaultComponents"; "cloneComponents"].

Definition bound_to (n : string) (o : obj) (sp : space) : res space :=
  if py_name n then Ok ((n, o) :: sp) else Err PySyntaxError.

(** A name in a class body: the names bound in this body, then those of the
    module (the bodies around it are not searched). *)
Definition resolve (locals globals : space) (n : string) : res obj :=
  match lookup n locals with
  | Some o => Ok o
  | None => match lookup n globals with Some o => Ok o | None => Err PyNameError end
  end.

(** data/builtin/*.py: the class attributes of the library classes, and the other
    names of header.txt. *)
Definition library : space :=
  [("IntegerType", OClass LInt [("subtypeSpec", OSpec CNone)]);
   ("BooleanType", OClass LBool []);
   ("OctetStringType", OClass LOcts [("subtypeSpec", OSpec CNone)]);
   ("BitStringType", OClass LBits [("subtypeSpec", OSpec CNone)]);
   ("EnumeratedType", OClass LEnum [("subtypeSpec", OSpec CNone); ("enumerationRoot", ONone);
                                    ("extensionAddition", ONone)]);
   ("SequenceType", OClass LSeq [("subtypeSpec", OSpec CNone); ("rootComponent", ONone);
                                 ("extensionAddition", ONone);
                                 ("extensionAdditionGroups", OGroups [])]);
   ("ChoiceType", OClass LChoice [("subtypeSpec", OSpec CNone); ("rootComponent", ONone);
                                  ("extensionAddition", ONone);
                                  ("extensionAdditionGroups", OGroups [])]);
   ("SequenceOfType", OClass LSeqOf [("subtypeSpec", OSpec (CSeqSize false (Some 0%Z) None))]);
   ("UTF8String", OClass LText []);
   ("NamedType", OFn "NamedType"); ("NamedTypes", OFn "NamedTypes");
   ("OptionalNamedType", OFn "OptionalNamedType");
   ("DefaultedNamedType", OFn "DefaultedNamedType"); ("NamedValues", OFn "NamedValues");
   ("AdditiveNamedTypes", OFn "AdditiveNamedTypes"); ("MIN", OFn "MIN"); ("MAX", OFn "MAX");
   ("NoConstraint", OFn "NoConstraint"); ("ExtensionMarker", OFn "ExtensionMarker");
   ("SequenceOfValueSize", OFn "SequenceOfValueSize"); ("ValueRange", OFn "ValueRange");
   ("SingleValue", OFn "SingleValue"); ("ValueSize", OFn "ValueSize");
   ("ConstraintOr", OFn "ConstraintOr"); ("ConstraintAnd", OFn "ConstraintAnd")].

(** A name must stand for the function of the header: a schema can rebind it. *)
Definition call (locals globals : space) (f : string) : res unit :=
  let* o := resolve locals globals f in
  match o with OFn g => if String.eqb f g then Ok tt else Err NotModelled | _ => Err NotModelled end.

(** * Classes as types *)

Definition spec_attr (attrs : space) : res constr :=
  match lookup "subtypeSpec" attrs with Some (OSpec c) => Ok c | _ => Err NotModelled end.
Definition types_attr (n : string) (attrs : space) : res (list (comp ty)) :=
  match lookup n attrs with Some (OTypes l) => Ok l | _ => Err NotModelled end.
Definition adds_attr (attrs : space) : res (list (comp ty)) :=
  match lookup "extensionAddition" attrs with
  | Some (OTypes l) => Ok l
  | Some ONone => Ok []
  | _ => Err NotModelled
  end.
Definition groups_attr (attrs : space) : res (list (list (comp ty))) :=
  match lookup "extensionAdditionGroups" attrs with Some (OGroups l) => Ok l | _ => Err NotModelled end.
Definition values_attr (n : string) (attrs : space) : res (list (string * nat)) :=
  match lookup n attrs with Some (OValues l) => Ok l | _ => Err NotModelled end.
Definition numbers (l : list (string * nat)) : list Z := map (fun v => Z.of_nat (snd v)) l.

(** A SEQUENCE or CHOICE whose componentType is not made of the three lists it
    has (one of them is inherited) is not a [ty]; the lists of a class body and
    the sum of them have the same components, so the names tell. *)
Definition same_names (a b : list (comp ty)) : bool :=
  if list_eq_dec string_dec (map cname a) (map cname b) then true else false.

Definition comps_ty (mk : bool -> list (comp ty) -> list (comp ty) -> list (list (comp ty)) -> ty)
    (attrs : space) : res ty :=
  let* c := spec_attr attrs in
  let* root := types_attr "rootComponent" attrs in
  let* adds := adds_attr attrs in
  let* gs := groups_attr attrs in
  let* all := types_attr "componentType" attrs in
  if same_names all (all_comps root adds gs) then Ok (mk (cext c) root adds gs) else Err NotModelled.

(** What the codec sees of an object of a class: encoder.py and decoder.py read
    subtypeSpec, enumerationRoot, extensionAddition, rootComponent,
    extensionAdditionGroups and componentType. *)
Definition class_ty (k : lib) (attrs : space) : res ty :=
  match k with
  | LInt => let* c := spec_attr attrs in Ok (TInt c)
  | LBool => Ok TBool
  | LOcts => let* c := spec_attr attrs in Ok (TOcts c)
  | LBits => let* c := spec_attr attrs in Ok (TBits c)
  | LEnum =>
    let* c := spec_attr attrs in
    let* root := values_attr "enumerationRoot" attrs in
    match lookup "extensionAddition" attrs with
    | Some ONone => Ok (TEnum (cext c) (numbers root) [])
    | Some (OValues adds) => Ok (TEnum (cext c) (numbers root) (numbers adds))
    | _ => Err NotModelled
    end
  | LSeq => comps_ty TSeq attrs
  | LChoice => comps_ty TChoice attrs
  | LSeqOf =>
    let* c := spec_attr attrs in
    match lookup "componentType" attrs with
    | Some (OInst t _) => Ok (TSeqOf c t)
    | _ => Err NotModelled
    end
  | LText => Err NotModelled
  end.

(** * Values *)

(** A number in a schema is a number in Python (ASN.1 numbers have no leading
    zeros). *)
Definition int_literal (s : string) : option Z :=
  option_map Z.of_int (NilZero.int_of_string s).

Inductive pyval : Type :=
| PNum (z : Z)
| PBool (b : bool)
| PStr (s : string)
| PObj (t : ty) (v : val)
| PBin (s : string)                               (* a keyword argument *)
| PHex (s : string)
| PNone.

(** The part of a text before the first hyphen: a hyphen in an expression is a
    minus sign, whose left operand is evaluated first. *)
Fixpoint to_hyphen (s : string) : string :=
  match s with
  | EmptyString => EmptyString
  | String c r => if Ascii.eqb c "-"%char then EmptyString else String c (to_hyphen r)
  end.

Definition eval_arg (locals globals : space) (a : parg) : res pyval :=
  match a with
  | ARaw s =>
    match int_literal s with
    | Some z => Ok (PNum z)
    | None =>
      let* o := resolve locals globals (to_hyphen s) in
      if String.eqb (to_hyphen s) s then
        match o with OInst t v => Ok (PObj t v) | _ => Err NotModelled end
      else Err NotModelled
    end
  | ABool b => Ok (PBool b)
  | ABin s => Ok (PBin s)
  | AHex s => Ok (PHex s)
  | AQuoted s => Ok (PStr s)
  | ANone => Ok PNone
  end.

(** The digits between the quotes of ['0101'], ['0A']. *)
Fixpoint digits_to_quote (s : string) : option (list ascii) :=
  match s with
  | EmptyString => None
  | String c r =>
    if Ascii.eqb c "'"%char then match r with EmptyString => Some [] | _ => None end
    else option_map (cons c) (digits_to_quote r)
  end.
Definition unquote (s : string) : option (list ascii) :=
  match s with
  | String c r => if Ascii.eqb c "'"%char then digits_to_quote r else None
  | EmptyString => None
  end.
Fixpoint all_some {A B} (f : A -> option B) (l : list A) : option (list B) :=
  match l with
  | [] => Some []
  | x :: r => match f x, all_some f r with Some y, Some t => Some (y :: t) | _, _ => None end
  end.
Definition bin_digit (c : ascii) : option bool :=
  if Ascii.eqb c "0"%char then Some false else if Ascii.eqb c "1"%char then Some true else None.
Definition hex_digit (c : ascii) : option Z :=
  let n := nat_of_ascii c in
  if (48 <=? n) && (n <=? 57) then Some (Z.of_nat (n - 48))
  else if (65 <=? n) && (n <=? 70) then Some (Z.of_nat (n - 55))
  else if (97 <=? n) && (n <=? 102) then Some (Z.of_nat (n - 87))
  else None.
Definition bin_digits (s : string) : option bits :=
  match unquote s with Some l => all_some bin_digit l | None => None end.
Definition hex_digits (s : string) : option hexdigits :=
  match unquote s with Some l => all_some hex_digit l | None => None end.

(** OctetString.fromBinaryString: octets from the left, the last one filled up with
    zeros; the empty string gives one zero octet. *)
Fixpoint bin_octets (fuel : nat) (s : bits) : list Z :=
  match fuel with
  | O => []
  | S f => bval (firstn 8 s ++ repeat false (8 - List.length s)) ::
           match skipn 8 s with [] => [] | r => bin_octets f r end
  end.
Definition from_binary_string (s : bits) : list Z := bin_octets (S (List.length s)) s.

(** Four bits per digit (BitString.fromHexString). *)
Definition nibble (d : Z) : bits :=
  [Z.testbit d 3; Z.testbit d 2; Z.testbit d 1; Z.testbit d 0].

(** The value of a new object (pyasn1: prettyIn, then the constraint). *)
Definition make (k : lib) (attrs : space) (t : ty) (a : pyval) : res val :=
  match t with
  | TInt c =>
    let* z := match a with
              | PNum z => Ok z
              | PObj _ (VInt z) => Ok z
              | _ => Err NotModelled
              end in
    if ctest c z then Ok (VInt z) else Err PyAsn1Error
  | TBool => match a with
             | PBool b => Ok (VBool b)
             | PObj _ (VBool b) => Ok (VBool b)
             | _ => Err NotModelled
             end
  | TEnum _ _ _ =>
    match a with
    | PStr s => let* all := values_attr "namedValues" attrs in
                match lookup s all with Some n => Ok (VEnum (Z.of_nat n)) | None => Err PyAsn1Error end
    | _ => Err NotModelled
    end
  | TBits c =>
    let* s := match a with
              | PBin x => match bin_digits x with Some s => Ok s | None => Err PyAsn1Error end
              | PHex x => match hex_digits x with Some h => Ok (flat_map nibble h) | None => Err PyAsn1Error end
              | PObj _ (VBits s) => Ok s
              | _ => Err NotModelled
              end in
    if ctest c (zlen s) then Ok (VBits s) else Err PyAsn1Error
  | TOcts c =>
    let* bs := match a with
               | PBin x => match bin_digits x with Some s => Ok (from_binary_string s) | None => Err PyAsn1Error end
               | PHex x => match hex_digits x with Some h => Ok (from_hex_string h) | None => Err PyAsn1Error end
               | PObj _ (VOcts bs) => Ok bs
               | _ => Err NotModelled
               end in
    if ctest c (zlen bs) then Ok (VOcts bs) else Err PyAsn1Error
  | _ => Err NotModelled
  end.

Definition new (locals globals : space) (c : string) (a : option parg) : res (ty * val) :=
  let* o := resolve locals globals c in
  match o with
  | OClass k attrs =>
    let* t := class_ty k attrs in
    match a with
    | None => Ok (t, fresh t)
    | Some a => let* x := eval_arg locals globals a in
                let* v := make k attrs t x in Ok (t, v)
    end
  | _ => Err NotModelled
  end.

(** * Constraints (types/constraint.py) *)

(** An end point: MIN and MAX become None (constraint.py 48-49, 56-57, 80-81); an
    INTEGER object counts as its number. *)
Definition endpoint (globals : space) (inf : string) (s : string) : res (option Z) :=
  match int_literal s with
  | Some z => Ok (Some z)
  | None =>
    let* o := resolve [] globals (to_hyphen s) in
    if String.eqb (to_hyphen s) s then
      match o with
      | OFn f => if String.eqb f inf then Ok None else Err NotModelled
      | OInst _ (VInt z) => Ok (Some z)
      | _ => Err NotModelled
      end
    else Err NotModelled
  end.

(** ValueRangeConstraint refuses start > stop. *)
Definition spec_obj (globals : space) (s : spec) : res constr :=
  let* _ := call [] globals (s_fn s) in
  let* lo := endpoint globals "MIN" (s_lo s) in
  let* hi := endpoint globals "MAX" (s_hi s) in
  if String.eqb (s_fn s) "SequenceOfValueSize" then Ok (CSeqSize (s_ext s) lo hi)
  else match lo, hi with
       | Some a, Some b => if (b <? a)%Z then Err PyAsn1Error else Ok (CRange (s_ext s) lo hi)
       | _, _ => Ok (CRange (s_ext s) lo hi)
       end.

Definition spec_own (globals : space) (s : option spec) : res space :=
  match s with
  | None => Ok []
  | Some s => let* c := spec_obj globals s in Ok [("subtypeSpec", OSpec c)]
  end.

Definition marker_own (locals globals : space) (ext : bool) : res space :=
  if ext then let* _ := call locals globals "ExtensionMarker" in Ok [("subtypeSpec", OSpec (CExt true))]
  else Ok [].

(** * Component lists *)

(** NamedType and so on: one entry. *)
Definition comp_of (locals globals : space) (e : entry) : res (comp ty) :=
  let* _ := call locals globals (mode_text (e_mode e)) in
  let* (t, v) := match e_expr e with
                 | New c a => new locals globals c a
                 | Const n => let* o := resolve locals globals n in
                              match o with OInst t v => Ok (t, v) | _ => Err NotModelled end
                 end in
  Ok (Comp (e_name e) match e_mode e with EPlain => Mand | EOptional => Opt | EDefault => Dflt v end t).

Fixpoint comps_of_entries (locals globals : space) (l : list entry) : res (list (comp ty)) :=
  match l with
  | [] => Ok []
  | e :: r => let* c := comp_of locals globals e in
              let* cs := comps_of_entries locals globals r in Ok (c :: cs)
  end.
Definition named_types (locals globals : space) (l : list entry) : res (list (comp ty)) :=
  let* _ := call locals globals "AdditiveNamedTypes" in comps_of_entries locals globals l.
Fixpoint named_groups (locals globals : space) (l : list (list entry)) : res (list (list (comp ty))) :=
  match l with
  | [] => Ok []
  | g :: r => let* c := named_types locals globals g in
              let* cs := named_groups locals globals r in Ok (c :: cs)
  end.

Fixpoint nodupb (l : list string) : bool :=
  match l with [] => true | s :: r => negb (mem s r) && nodupb r end.
(** The template writes the names between single quotes (EnumeratedType.txt 7, 13):
    a name with a quote in it, such as the text of a dict (EnumeratedType.py
    46-50), ends the string and is no Python.  NamedValues refuses a name that is
    there twice (the numbers differ). *)
Definition has_quote (s : string) : bool := negb (all_chars (fun c => negb (Ascii.eqb c "'")) s).
Definition named_values_obj (l : list (string * nat)) : res obj :=
  if existsb has_quote (map fst l) then Err PySyntaxError
  else if nodupb (map fst l) then Ok (OValues l) else Err PyAsn1Error.

(** * Classes *)

Definition base_class (locals globals : space) (b : string) : res (lib * space) :=
  let* o := resolve locals globals b in
  match o with OClass k attrs => Ok (k, attrs) | _ => Err PyTypeError end.

Definition class_id (c : pclass) : string :=
  match c with
  | CLeaf n _ _ | CEnum n _ _ _ _ | CSeqOf n _ _ _ | CComps n _ _ _ _ _ _ => n
  end.

(** A class statement in a body whose names are [locals]: the class.  The body of
    the class sees its own names and [globals]; what it binds are the attributes,
    the last binding of a name first. *)
Fixpoint exec_class (locals globals : space) (c : pclass) {struct c} : res obj :=
  match c with
  | CLeaf _ b s =>
    let* (k, attrs) := base_class locals globals b in
    let* own := spec_own globals s in
    Ok (OClass k (own ++ attrs))
  | CEnum _ b ext root adds =>
    let* (k, attrs) := base_class locals globals b in
    let* own := marker_own [] globals ext in
    let* _ := call [] globals "NamedValues" in
    let* r := named_values_obj root in
    let own1 := ("enumerationRoot", r) :: own in
    match adds with
    | [] => Ok (OClass k (("namedValues", r) :: own1 ++ attrs))
    | _ => let* a := named_values_obj adds in
           let* n := named_values_obj (root ++ adds) in
           Ok (OClass k (("namedValues", n) :: ("extensionAddition", a) :: own1 ++ attrs))
    end
  | CSeqOf _ b s elem =>
    let* (k, attrs) := base_class locals globals b in
    let* own := spec_own globals s in
    let* (t, v) := new own globals elem None in
    Ok (OClass k (("componentType", OInst t v) :: own ++ attrs))
  | CComps _ b subs ext root adds groups =>
    let* (k, attrs) := base_class locals globals b in
    let* nested :=
      (fix loop (subs : list pclass) (mine : space) : res space :=
         match subs with
         | [] => Ok mine
         | d :: r => let* o := exec_class mine globals d in
                     if mem (class_id d) attributes then Err NotModelled
                     else let* mine' := bound_to (class_id d) o mine in loop r mine'
         end) subs [] in
    let* m := marker_own nested globals ext in
    let own0 := m ++ nested in
    let* ro := named_types own0 globals root in
    let own1 := ("rootComponent", OTypes ro) :: own0 in
    let* (ad, own2) := match adds with
                       | [] => Ok ([], own1)
                       | _ => let* ad := named_types own1 globals adds in
                              Ok (ad, ("extensionAddition", OTypes ad) :: own1)
                       end in
    let* (gr, own3) := match groups with
                       | [] => Ok ([], own2)
                       | _ => let* gr := named_groups own2 globals groups in
                              Ok (gr, ("extensionAdditionGroups", OGroups gr) :: own2)
                       end in
    Ok (OClass k (("componentType", OTypes (all_comps ro ad gr)) :: own3 ++ attrs))
  end.

(** * Modules *)

(** The new names of the module, in front.  (Python reports a name it cannot bind
    before it runs anything; the import fails either way.) *)
Definition exec_stmt (globals : space) (s : stmt) : res space :=
  match s with
  | SClass c => let* o := exec_class [] globals c in bound_to (class_id c) o globals
  | SAlias n t => let* o := resolve [] globals t in bound_to n o globals
  | SValue n c a => let* (t, v) := new [] globals c (Some a) in bound_to n (OInst t v) globals
  end.

Fixpoint exec (globals : space) (l : list stmt) : res space :=
  match l with
  | [] => Ok globals
  | s :: r => let* g := exec_stmt globals s in exec g r
  end.

(** Importing a generated module. *)
Definition run (l : list stmt) : res space := exec library l.

(** The name [n] of the module is a class whose objects the codec treats as [t]. *)
Definition binds (globals : space) (n : string) (t : ty) : Prop :=
  exists k attrs, lookup n globals = Some (OClass k attrs) /\ class_ty k attrs = Ok t.
