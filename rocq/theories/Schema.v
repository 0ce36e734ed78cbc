(** Constraints, types (the generated classes) and objects, as the codec sees
    them.  Sources: classes/types/constraint.py, classes/data/builtin/*.py and
    the parts of pyasn1 0.4.x the codec calls (pyasn1 is not in the sandbox: its
    behaviour is written here from its published sources). *)

From Coq Require Import ZArith List String Bool Lia.
Import ListNotations.
From Verif Require Import PyBase.
Open Scope Z_scope.

(** * Constraints *)

(** [CRange] is ValueRange (constraint.py 53-62) on INTEGER and ValueSize
    (77-86) on strings; the number tested is the value, respectively the length.
    [None] is an infinite end point (MIN/MAX). [CSeqSize] is SequenceOfValueSize
    (28-50), which checks nothing. [CSingle] is SingleValue (65-74), modelled on
    numbers only. [COr]/[CAnd] are ConstraintOr/ConstraintAnd (89-110). *)
Inductive constr : Type :=
| CNone                                             (* NoConstraint 9-17 *)
| CExt (ext : bool)                                 (* ExtensionMarker 20-25 *)
| CSeqSize (ext : bool) (lo hi : option Z)
| CRange (ext : bool) (lo hi : option Z)
| CSingle (ext : bool) (values : list Z)
| COr (ext : bool) (cs : list constr)
| CAnd (ext : bool) (cs : list constr).

Definition cext (c : constr) : bool :=
  match c with
  | CNone => false
  | CExt e | CSeqSize e _ _ | CRange e _ _ | CSingle e _ | COr e _ | CAnd e _ => e
  end.

(** Python [min]/[max] over numbers; [None] when the list is empty or holds a
    None (with two or more elements Python raises TypeError while the class is
    being created, so no such class exists). *)
Fixpoint opt_fold (f : Z -> Z -> Z) (l : list (option Z)) : option Z :=
  match l with
  | [] => None
  | [x] => x
  | x :: r => match x, opt_fold f r with
              | Some a, Some b => Some (f a b)
              | _, _ => None
              end
  end.

Fixpoint clo (c : constr) : option Z :=
  match c with
  | CNone | CExt _ => None
  | CSeqSize _ lo _ | CRange _ lo _ => lo
  | CSingle _ vs => opt_fold Z.min (map Some vs)
  | COr _ cs | CAnd _ cs => opt_fold Z.min (map clo cs)
  end.

Fixpoint chi (c : constr) : option Z :=
  match c with
  | CNone | CExt _ => None
  | CSeqSize _ _ hi | CRange _ _ hi => hi
  | CSingle _ vs => opt_fold Z.max (map Some vs)
  | COr _ cs | CAnd _ cs => opt_fold Z.max (map chi cs)
  end.

Definition le_opt_l (lo : option Z) (z : Z) : bool :=
  match lo with None => true | Some l => l <=? z end.
Definition le_opt_r (z : Z) (hi : option Z) : bool :=
  match hi with None => true | Some h => z <=? h end.

(** The check made when a simple object is built ([subtypeSpec(value)]): true
    when the value is accepted.  Every [_testValue] override accepts everything
    when its own extensionMarker is set. *)
Fixpoint ctest (c : constr) (z : Z) : bool :=
  match c with
  | CNone | CExt _ | CSeqSize _ _ _ => true
  | CRange e lo hi => e || (le_opt_l lo z && le_opt_r z hi)
  | CSingle e vs => e || existsb (Z.eqb z) vs
  | COr e cs => e || existsb (fun c' => ctest c' z) cs
  | CAnd e cs => e || forallb (fun c' => ctest c' z) cs
  end.

(** * Objects *)

(** [VUnset] is a simple object without a value (noValue).  An enumerated object
    holds its number.  [VSeq None] is a SEQUENCE whose component list has not
    been created; in [VSeq (Some slots)] a slot is [None] when nothing was set or
    instantiated at that position.  [VChoice (Some (i, v))]: component number i
    of [componentType] is selected. *)
Inductive val : Type :=
| VUnset
| VBool (b : bool)
| VInt (z : Z)
| VEnum (z : Z)
| VBits (s : bits)
| VOcts (bs : list Z)
| VSeq (slots : option (list (option val)))
| VSeqOf (vs : list val)
| VChoice (sel : option (nat * val)).

(** * Types *)

(** NamedType / OptionalNamedType / DefaultedNamedType. *)
Inductive presence : Type :=
| Mand
| Opt
| Dflt (v : val).

Record comp (T : Type) : Type := Comp { cname : string; cpres : presence; cty : T }.
Arguments Comp {T} _ _ _.
Arguments cname {T} _.
Arguments cpres {T} _.
Arguments cty {T} _.

(** [TEnum ext root adds]: numbers of the root items and of the additions, in
    declaration order; namedValues holds both.  [TSeq ext root adds groups] and
    [TChoice ext root adds groups]: rootComponent, extensionAddition,
    extensionAdditionGroups and the extension marker. *)
Inductive ty : Type :=
| TBool
| TInt (c : constr)
| TEnum (ext : bool) (root adds : list Z)
| TBits (c : constr)
| TOcts (c : constr)
| TSeq (ext : bool) (root adds : list (comp ty)) (groups : list (list (comp ty)))
| TSeqOf (c : constr) (t : ty)
| TChoice (ext : bool) (root adds : list (comp ty)) (groups : list (list (comp ty))).

(** componentType = rootComponent + extensionAddition + extensionAdditionGroups
    (templates; classes/types/type.py 110-122). *)
Definition all_comps {T} (root adds : list (comp T)) (groups : list (list (comp T))) :
  list (comp T) := root ++ adds ++ List.concat groups.

(** NamedTypes.getPositionByName. *)
Fixpoint index_of {T} (name : string) (cs : list (comp T)) : option nat :=
  match cs with
  | [] => None
  | c :: r => if String.eqb (cname c) name then Some O
              else match index_of name r with Some i => Some (S i) | None => None end
  end.

Definition is_optional {T} (c : comp T) : bool :=
  match cpres c with Opt => true | _ => false end.
Definition is_defaulted {T} (c : comp T) : bool :=
  match cpres c with Dflt _ => true | _ => false end.
Definition is_mandatory {T} (c : comp T) : bool :=
  match cpres c with Mand => true | _ => false end.

(** A new object of a type, as instantiated by pyasn1 for an untouched slot. *)
Definition fresh (t : ty) : val :=
  match t with
  | TSeq _ _ _ _ => VSeq None
  | TSeqOf _ _ => VSeqOf []
  | TChoice _ _ _ _ => VChoice None
  | _ => VUnset
  end.

Definition is_simple (t : ty) : bool :=
  match t with
  | TSeq _ _ _ _ | TSeqOf _ _ | TChoice _ _ _ _ => false
  | _ => true
  end.

(** getComponentByName/Position: what is found in a slot; an untouched slot is
    instantiated from the declaration (default value or empty object). *)
Definition slot_get (c : comp ty) (s : option val) : val :=
  match s with
  | Some v => v
  | None => match cpres c with Dflt d => d | _ => fresh (cty c) end
  end.

Definition slot_at (slots : option (list (option val))) (i : nat) : option val :=
  match slots with
  | None => None
  | Some l => nth i l None
  end.

(** The object under [name] in a SEQUENCE with components [cs]. *)
Definition get_by_name (cs : list (comp ty)) (slots : option (list (option val)))
    (name : string) : res val :=
  match index_of name cs with
  | None => Err PyAsn1Error
  | Some i => match nth_error cs i with
              | Some c => Ok (slot_get c (slot_at slots i))
              | None => Err PyAsn1Error
              end
  end.

Fixpoint update {A} (i : nat) (x : A) (l : list A) : list A :=
  match l, i with
  | [], _ => []
  | _ :: r, O => x :: r
  | y :: r, S j => y :: update j x r
  end.

(** [seq[name] = v]: the component list is created on first use. *)
Definition slot_set (n : nat) (slots : option (list (option val))) (i : nat) (v : val) :
  option (list (option val)) :=
  Some (update i (Some v) (match slots with Some l => l | None => repeat None n end)).

(** ** isValue

    Simple types: a value was given.  SequenceType.isValue
    (data/builtin/SequenceType.py 14-24) on top of pyasn1's
    [SequenceAndSetBase.isValue] (every component that is neither OPTIONAL nor
    DEFAULT is set and isValue), or any component isValue.  pyasn1 gives a fresh
    SEQUENCE an empty component list when it declares components, so that one
    whose components may all be absent isValue before anything is assigned; a
    SEQUENCE with no component at all has no list and no value.
    SequenceOf: not empty and every element isValue.  Choice: the selected
    component isValue. *)
Definition comps_of (t : ty) : list (comp ty) :=
  match t with
  | TSeq _ r a g | TChoice _ r a g => all_comps r a g
  | _ => []
  end.

Definition elem_of (t : ty) : ty :=
  match t with TSeqOf _ t' => t' | _ => TBool end.

Definition comp_ty (cs : list (comp ty)) (i : nat) : ty :=
  match nth_error cs i with Some c => cty c | None => TBool end.

Fixpoint is_value (t : ty) (v : val) {struct v} : bool :=
  match v with
  | VUnset => false
  | VBool _ | VInt _ | VEnum _ | VBits _ | VOcts _ => true
  | VSeq None =>
      match comps_of t with
      | [] => false
      | cs => forallb (fun c => negb (is_mandatory c)) cs
      end
  | VSeq (Some slots) =>
      (fix mand (ss : list (option val)) (cs : list (comp ty)) {struct ss} : bool :=
         match ss, cs with
         | s :: ss', c :: cs' =>
             (negb (is_mandatory c) ||
              match s with Some v' => is_value (cty c) v' | None => false end)
             && mand ss' cs'
         | [], cs => forallb (fun c => negb (is_mandatory c)) cs
         | _, [] => true
         end) slots (comps_of t)
      ||
      (fix any (ss : list (option val)) (cs : list (comp ty)) {struct ss} : bool :=
         match ss, cs with
         | s :: ss', c :: cs' =>
             match s with Some v' => is_value (cty c) v' | None => false end
             || any ss' cs'
         | _, _ => false
         end) slots (comps_of t)
  | VSeqOf vs =>
      match vs with [] => false | _ => forallb (is_value (elem_of t)) vs end
  | VChoice None => false
  | VChoice (Some (i, v')) => is_value (comp_ty (comps_of t) i) v'
  end.

(** [not hasattr(v, '_componentValues') or len(v._componentValues) > 0]
    (encoder.py 242-250, 286-296, 312-318). *)
Definition comp_values_ok (v : val) : bool :=
  match v with
  | VSeq None => false
  | VSeq (Some l) => match l with [] => false | _ => true end
  | VSeqOf l => match l with [] => false | _ => true end
  | VChoice None => false
  | _ => true
  end.

(** Comparison of the raw [_value] of two simple objects (encoder.py 257):
    BOOLEAN, INTEGER and ENUMERATED hold an int; a BIT STRING holds an int that
    also carries a length, and [!=] on it is the comparison of ints; an OCTET
    STRING holds bytes.  Constructed objects have no [_value]; unset ones raise. *)
Definition raw_ne (d v : val) : res bool :=
  match d, v with
  | VUnset, _ | _, VUnset => Err PyAsn1Error
  | VBool a, VBool b => Ok (negb (Bool.eqb a b))
  | VInt a, VInt b | VEnum a, VEnum b => Ok (negb (a =? b))
  | VBits a, VBits b => Ok (negb (bval a =? bval b))
  | VOcts a, VOcts b => Ok (negb (if list_eq_dec Z.eq_dec a b then true else false))
  | VSeq _, _ | VSeqOf _, _ | VChoice _, _ => Err PyAttributeError
  | _, VSeq _ | _, VSeqOf _ | _, VChoice _ => Err PyAttributeError
  | _, _ => Err IllTyped
  end.

(** Comparisons with a possibly infinite (None) end point raise TypeError. *)
Definition need (o : option Z) : res Z :=
  match o with Some z => Ok z | None => Err PyTypeError end.

(** Python's chained comparison [lo <= n <= hi]. *)
Definition chain_le (lo : option Z) (n : Z) (hi : option Z) : res bool :=
  let* l := need lo in
  if l <=? n then let* h := need hi in Ok (n <=? h) else Ok false.

(** Python truth of an end point: neither None nor 0. *)
Definition truthy (o : option Z) : bool :=
  match o with Some z => negb (z =? 0) | None => false end.

Definition opt_is (o : option Z) (z : Z) : bool :=
  match o with Some x => x =? z | None => false end.

(** [(lo is not None) and (lo == hi)]. *)
Definition some_eq (lo hi : option Z) : bool :=
  match lo, hi with Some a, Some b => a =? b | _, _ => false end.

(** [hi < 65536] for an end point known to be a number. *)
Definition lt65536 (o : option Z) : bool :=
  match o with Some h => h <? 65536 | None => false end.
