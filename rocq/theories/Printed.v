(** The text of a generated module, read back.

    Emit.v has the statements of a module and the text the templates make of them;
    Exec.v gives the meaning of the statements.  Here a reader of the text, written
    without the printer: it goes by lines and their indentation, skips blank lines,
    and takes the layout of lines only inside parentheses, as Python does. *)
From Coq Require Import ZArith List String Ascii Bool Arith Lia.
Import ListNotations.
From Verif Require Import PyBase Generator Emit Exec Grammar Nests Tokens.
Open Scope string_scope.
Open Scope list_scope.
Open Scope nat_scope.

(** * Lines *)

Definition newline (c : ascii) : bool := Ascii.eqb c (ascii_of_nat 10).

Fixpoint lines (s : string) : list string :=
  match s with
  | EmptyString => [""]
  | String c r =>
    if newline c then "" :: lines r
    else match lines r with
         | h :: t => String c h :: t
         | [] => [String c ""]
         end
  end.

Definition blank (s : string) : bool := String.eqb s "".

(** The blanks in front, and the rest. *)
Fixpoint depth (s : string) : nat * string :=
  match s with
  | String c r => if Ascii.eqb c " " then let '(n, x) := depth r in (S n, x) else (0, s)
  | EmptyString => (0, s)
  end.

Definition line : Type := (nat * string)%type.
Definition lines_of (s : string) : list line := map depth (filter (fun x => negb (blank x)) (lines s)).

(** * One line *)

Definition word_char (c : ascii) : bool := is_upper c || is_lower c || is_digit c || Ascii.eqb c "_" || Ascii.eqb c "-".

(** [s] without [c] at its end. *)
Definition without (c : ascii) (s : string) : option string := if ends_with c s then Some (but_last s) else None.

Definition read_arg (s : string) : option parg :=
  if String.eqb s "True" then Some (ABool true)
  else if String.eqb s "False" then Some (ABool false)
  else if String.eqb s "None" then Some ANone
  else match prefixed "binValue=" s with
       | Some r => Some (ABin r)
       | None =>
         match prefixed "hexValue=" s with
         | Some r => Some (AHex r)
         | None =>
           match prefixed "'" s with
           | Some r => option_map AQuoted (without "'" r)
           | None => Some (ARaw s)
           end
         end
       end.

(** [name], [name()] or [name(argument)]. *)
Definition read_expr (s : string) : option expr :=
  let '(c, r) := span word_char s in
  if String.eqb r "" then Some (Const c)
  else match prefixed "(" r with
       | Some r1 =>
         match without ")" r1 with
         | Some x => if String.eqb x "" then Some (New c None) else option_map (fun a => New c (Some a)) (read_arg x)
         | None => None
         end
       | None => None
       end.

Definition read_mode (s : string) : option mode :=
  if String.eqb s "NamedType" then Some EPlain
  else if String.eqb s "OptionalNamedType" then Some EOptional
  else if String.eqb s "DefaultedNamedType" then Some EDefault
  else None.

(** [Mode('name', expression),] *)
Definition read_entry (s : string) : option entry :=
  let '(m, r) := span word_char s in
  match read_mode m, prefixed "('" r with
  | Some m, Some r1 =>
    let '(n, r2) := span word_char r1 in
    match prefixed "', " r2 with
    | Some r3 =>
      match without "," r3 with
      | Some r4 =>
        match without ")" r4 with
        | Some x => option_map (Entry m n) (read_expr x)
        | None => None
        end
      | None => None
      end
    | None => None
    end
  | _, _ => None
  end.

(** The number that decimal digits stand for, after [a]. *)
Fixpoint number (s : string) (a : nat) : nat :=
  match s with
  | EmptyString => a
  | String c r => number r (10 * a + (nat_of_ascii c - 48))
  end.

(** [('name', number),] *)
Definition read_value (s : string) : option (string * nat) :=
  match prefixed "('" s with
  | Some r =>
    let '(n, r1) := span word_char r in
    match prefixed "', " r1 with
    | Some r2 =>
      let '(d, r3) := span is_digit r2 in
      if String.eqb r3 ")," && negb (String.eqb d "") then Some (n, number d 0) else None
    | None => None
    end
  | None => None
  end.

(** [subtypeSpec = Function(low, high)] or [..., extensionMarker=True)]. *)
Definition read_spec (s : string) : option spec :=
  match prefixed "subtypeSpec = " s with
  | Some r =>
    let '(f, r1) := span word_char r in
    match prefixed "(" r1 with
    | Some r2 =>
      let '(lo, r3) := span word_char r2 in
      match prefixed ", " r3 with
      | Some r4 =>
        let '(hi, r5) := span word_char r4 in
        if String.eqb r5 ")" then Some (Spec f lo hi false)
        else if String.eqb r5 ", extensionMarker=True)" then Some (Spec f lo hi true)
        else None
      | None => None
      end
    | None => None
    end
  | None => None
  end.

(** [class Name(Base):] *)
Definition read_head (s : string) : option (string * string) :=
  match prefixed "class " s with
  | Some r =>
    let '(n, r1) := span word_char r in
    match prefixed "(" r1 with
    | Some r2 => let '(b, r3) := span word_char r2 in if String.eqb r3 "):" then Some (n, b) else None
    | None => None
    end
  | None => None
  end.

(** * Classes *)

Fixpoint many {A} (f : string -> option A) (l : list line) : list A * list line :=
  match l with
  | (_, x) :: r => match f x with Some a => let '(t, r') := many f r in (a :: t, r') | None => ([], l) end
  | [] => ([], [])
  end.

(** The line [s] at the indentation [d]. *)
Definition expect (d : nat) (s : string) (l : list line) : option (list line) :=
  match l with
  | (n, x) :: r => if (n =? d) && String.eqb x s then Some r else None
  | [] => None
  end.

(** [open], items, [)] *)
Definition block {A} (f : string -> option A) (d : nat) (opens closes : string) (l : list line) : option (list A * list line) :=
  match expect d opens l with
  | Some r => let '(t, r1) := many f r in option_map (fun r2 => (t, r2)) (expect d closes r1)
  | None => None
  end.

Definition read_marker (d : nat) (l : list line) : bool * list line :=
  match expect d "subtypeSpec = ExtensionMarker(True)" l with Some r => (true, r) | None => (false, l) end.

Definition read_leaf (d : nat) (n b : string) (l : list line) : option (pclass * list line) :=
  match l with
  | (k, x) :: r =>
    if k =? d then
      if String.eqb x "pass" then Some (CLeaf n b None, r)
      else option_map (fun s => (CLeaf n b (Some s), r)) (read_spec x)
    else None
  | [] => None
  end.

Definition read_enum (d : nat) (n b : string) (l : list line) : option (pclass * list line) :=
  let '(ext, l1) := read_marker d l in
  match block read_value d "enumerationRoot = NamedValues(" ")" l1 with
  | Some (root, l2) =>
    match block read_value d "extensionAddition = NamedValues(" ")" l2 with
    | Some (adds, l3) =>
      option_map (fun r => (CEnum n b ext root adds, r)) (expect d "namedValues = enumerationRoot + extensionAddition" l3)
    | None => option_map (fun r => (CEnum n b ext root [], r)) (expect d "namedValues = enumerationRoot" l2)
    end
  | None => None
  end.

Definition read_seqof (d : nat) (n b : string) (l : list line) : option (pclass * list line) :=
  let '(s, l1) := match l with
                  | (k, x) :: r => match read_spec x with
                                   | Some s => if k =? d then (Some s, r) else (None, l)
                                   | None => (None, l)
                                   end
                  | [] => (None, l)
                  end in
  match l1 with
  | (k, x) :: r =>
    if k =? d then
      match prefixed "componentType = " x with
      | Some y => let '(e, z) := span word_char y in if String.eqb z "()" then Some (CSeqOf n b s e, r) else None
      | None => None
      end
    else None
  | [] => None
  end.

(** As many times as it goes, [m] times at most. *)
Fixpoint repeated {A} (f : list line -> option (A * list line)) (m : nat) (l : list line) : list A * list line :=
  match m with
  | O => ([], l)
  | S m' => match f l with
            | Some (a, r) => let '(t, r') := repeated f m' r in (a :: t, r')
            | None => ([], l)
            end
  end.

Definition read_adds (d : nat) (l : list line) : list entry * list line :=
  match block read_entry d "extensionAddition = AdditiveNamedTypes(" ")" l with Some x => x | None => ([], l) end.
Definition read_groups (d : nat) (l : list line) : list (list entry) * list line :=
  match expect d "extensionAdditionGroups = [" l with
  | Some r => let '(gs, r1) := repeated (block read_entry (d + 4) "AdditiveNamedTypes(" "),") (List.length r) r in
              match expect d "]" r1 with Some r2 => (gs, r2) | None => ([], l) end
  | None => ([], l)
  end.

Definition read_comps (d : nat) (n b : string) (subs : list pclass) (l : list line) : option (pclass * list line) :=
  let '(ext, l1) := read_marker d l in
  match block read_entry d "rootComponent = AdditiveNamedTypes(" ")" l1 with
  | Some (root, l2) =>
    let '(adds, l3) := read_adds d l2 in
    let '(groups, l4) := read_groups d l3 in
    option_map (fun r => (CComps n b subs ext root adds groups, r))
      (expect d (cat ["componentType = rootComponent";
                      match adds with [] => "" | _ => " + extensionAddition" end;
                      match groups with [] => "" | _ => " + extensionAdditionGroups" end]) l4)
  | None => None
  end.

(** The class whose header stands at the indentation [d]; [m] bounds the nesting
    and the number of classes. *)
Fixpoint read_class (m : nat) (d : nat) (l : list line) {struct m} : option (pclass * list line) :=
  match m with
  | O => None
  | S m' =>
    match l with
    | (k, x) :: r =>
      if k =? d then
        match read_head x with
        | Some (n, b) =>
          if String.eqb b "EnumeratedType" then read_enum (d + 4) n b r
          else if String.eqb b "SequenceOfType" then read_seqof (d + 4) n b r
          else if String.eqb b "SequenceType" || String.eqb b "ChoiceType" then
            let '(subs, r1) := repeated (read_class m' (d + 4)) m' r in
            read_comps (d + 4) n b subs r1
          else read_leaf (d + 4) n b r
        | None => None
        end
      else None
    | [] => None
    end
  end.

(** * Statements and modules *)

Definition read_stmt (m : nat) (l : list line) : option (stmt * list line) :=
  match read_class m 0 l with
  | Some (c, r) => Some (SClass c, r)
  | None =>
    match l with
    | (0, x) :: r =>
      let '(n, y) := span word_char x in
      match prefixed " = " y with
      | Some z =>
        match read_expr z with
        | Some (Const t) => Some (SAlias n t, r)
        | Some (New c (Some a)) => Some (SValue n c a, r)
        | _ => None
        end
      | None => None
      end
    | _ => None
    end
  end.

Fixpoint read_stmts (m : nat) (l : list line) : option (list stmt) :=
  match l with
  | [] => Some []
  | _ => match m with
         | O => None
         | S m' => match read_stmt m l with
                   | Some (s, r) => option_map (cons s) (read_stmts m' r)
                   | None => None
                   end
         end
  end.

Fixpoint drop (p l : list line) : option (list line) :=
  match p, l with
  | [], _ => Some l
  | (n, x) :: p', (k, y) :: l' => if (n =? k) && String.eqb x y then drop p' l' else None
  | _, [] => None
  end.

(** The import lines of a generated module. *)
Definition imports : list line :=
  [(0, "from pyasn1.type.namedtype import NamedType, NamedTypes, OptionalNamedType, DefaultedNamedType");
   (0, "from pyasn1.type.namedval import NamedValues");
   (0, "from asn1PERser.classes.data.builtin import *");
   (0, "from asn1PERser.classes.types.type import AdditiveNamedTypes");
   (0, "from asn1PERser.classes.types.constraint import MIN, MAX, NoConstraint, ExtensionMarker, SequenceOfValueSize, \");
   (4, "ValueRange, SingleValue, ValueSize, ConstraintOr, ConstraintAnd")].

(** The imports, then statements. *)
Definition read_module (text : string) : option (list stmt) :=
  match drop imports (lines_of text) with
  | Some l => read_stmts (S (List.length l)) l
  | None => None
  end.
