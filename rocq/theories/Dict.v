(** Conversion of objects to Python dictionaries, and what calls of [encode],
    [to_dict] and component reads leave behind in the object.
    Sources: classes/data/builtin/*.py, codec/per/encoder.py 234-433, and pyasn1's
    [getComponentByName]/[getComponentByPosition], which store the object they
    instantiate in the slot that is read. *)
From Coq Require Import ZArith List String Ascii Bool.
Import ListNotations.
From Verif Require Import PyBase Schema Encoder Spec.
Open Scope Z_scope.

(** Python values returned by [to_dict].  [DNoValue] is pyasn1's noValue and
    [DNone] Python's None.  [DName z] is the name that an ENUMERATED type gives
    to the number z (names of items are not modelled; pyasn1's NamedValues
    refuses a name or number declared twice). *)
Inductive dict : Type :=
| DNoValue
| DNone
| DBool (b : bool)
| DInt (z : Z)
| DName (z : Z)
| DHex (digits : string)
| DDict (items : list (string * dict))
| DList (items : list dict).

Definition hex_digit (z : Z) : ascii :=
  nth (Z.to_nat z)
      ["0"; "1"; "2"; "3"; "4"; "5"; "6"; "7"; "8"; "9"; "a"; "b"; "c"; "d"; "e"; "f"]%char
      "0"%char.

(** [''.join(format(byte, '02x') for byte in ...)] (OctetStringType.py 21-22). *)
Fixpoint hexlify (bs : list Z) : string :=
  match bs with
  | [] => EmptyString
  | b :: r => String (hex_digit (b / 16)) (String (hex_digit (b mod 16)) (hexlify r))
  end.

(** [component_dict[name] = value_dict] unless it is noValue. *)
Definition put (name : string) (d : dict) (l : list (string * dict)) : list (string * dict) :=
  match d with DNoValue => l | _ => (name, d) :: l end.

(** The loop of SequenceType.to_dict (SequenceType.py 35-41): a component is
    asked when it isValue or is of a constructed type. *)
Fixpoint seq_items (cas : list (comp ty * (bool -> val -> res dict)))
    (ss : list (option val)) : res (list (string * dict)) :=
  match cas, ss with
  | (c, f) :: cas', s :: ss' =>
      let v := slot_get c s in
      if is_value (cty c) v || negb (is_simple (cty c)) then
        let* d := f false v in
        let* l := seq_items cas' ss' in
        Ok (put (cname c) d l)
      else seq_items cas' ss'
  | _, _ => Ok []
  end.

(** The loop of SequenceOfType.to_dict (SequenceOfType.py 20-26). *)
Fixpoint list_items (t : ty) (f : val -> res dict) (vs : list val) : res (list dict) :=
  match vs with
  | [] => Ok []
  | v :: vs' =>
      if is_value t v || negb (is_simple t) then
        let* d := f v in
        let* l := list_items t f vs' in
        Ok (match d with DNoValue => l | _ => d :: l end)
      else list_items t f vs'
  end.

(** to_dict of every type (the [to_dict] methods of BooleanType.py 17-18,
    IntegerType.py 25-26, EnumeratedType.py 21-22, BitStringType.py 19-20,
    OctetStringType.py 19-20, SequenceType.py 34-47, SequenceOfType.py 19-31,
    ChoiceType.py 22-28).  [int(self.asBinary(), 2)] of an empty BIT STRING is 0:
    pyasn1 prints it as '0'. *)
Fixpoint to_dict (t : ty) (is_root : bool) (v : val) {struct t} : res dict :=
  match t, v with
  | TSeq _ root adds groups, VSeq slots =>
      let ss := slots_list (ncomps root adds groups) slots in
      let* l := seq_items (att to_dict root ++ att to_dict adds
                           ++ List.concat (map (att to_dict) groups)) ss in
      Ok (if is_root then DDict l
          else match l with [] => DNoValue | _ => DDict l end)
  | TSeqOf _ t', VSeqOf vs =>
      let* l := list_items t' (to_dict t' false) vs in
      Ok (if is_root then DList l
          else match l with [] => DNoValue | _ => DList l end)
  | TChoice _ root adds groups, VChoice None => Ok DNone
  | TChoice _ root adds groups, VChoice (Some (i, v')) =>
      match nth_error (att to_dict root ++ att to_dict adds
                       ++ List.concat (map (att to_dict) groups)) i with
      | None => Err IllTyped
      | Some (c, f) =>
          if is_value (cty c) v' then
            let* d := f false v' in
            Ok (DDict (put (cname c) d []))
          else Ok DNone
      end
  | TSeq _ _ _ _, _ | TSeqOf _ _, _ | TChoice _ _ _ _, _ => Err IllTyped
  | _, VUnset => Err PyAsn1Error
  | TBool, VBool b => Ok (DBool b)
  | TInt _, VInt z => Ok (DInt z)
  | TEnum _ root adds, VEnum z =>
      if existsb (Z.eqb z) (root ++ adds) then Ok (DName z) else Err PyKeyError
  | TBits _, VBits s => Ok (DInt (bval s))
  | TOcts _, VOcts bs => Ok (DHex (hexlify bs))
  | _, _ => Err IllTyped
  end.

(** * The object afterwards *)

(** The component lists of an object of a type without components are never
    created. *)
Definition slots_after (l : list (option val)) : option (list (option val)) :=
  match l with [] => None | _ => Some l end.

(** After [to_dict]: [self.items()] instantiates every slot, and constructed
    components are visited. *)
Definition dict_slot (ca : comp ty * (val -> val)) (s : option val) : option val :=
  Some (snd ca (slot_get (fst ca) s)).

Fixpoint after_to_dict (t : ty) (v : val) {struct t} : val :=
  match t, v with
  | TSeq _ root adds groups, VSeq slots =>
      let ss := slots_list (ncomps root adds groups) slots in
      VSeq (slots_after (zipw dict_slot (att after_to_dict root ++ att after_to_dict adds
                           ++ List.concat (map (att after_to_dict) groups)) ss))
  | TSeqOf _ t', VSeqOf vs => VSeqOf (map (after_to_dict t') vs)
  | TChoice _ root adds groups, VChoice (Some (i, v')) =>
      match nth_error (att after_to_dict root ++ att after_to_dict adds
                       ++ List.concat (map (att after_to_dict) groups)) i with
      | Some (c, f) => VChoice (Some (i, if is_value (cty c) v' then f v' else v'))
      | None => v
      end
  | _, _ => v
  end.

(** After [encode] (encoder.py 234-354): the loop over the root components asks
    for every one of them by name (239) and encodes the ones it sends; the
    additions (282) and the components of groups (305-318) are asked for when the
    extension marker is there, and encoded when sent. *)
Definition enc_root_slot (ca : comp ty * (val -> val)) (s : option val) : option val :=
  let v := slot_get (fst ca) s in
  Some (match cpres (fst ca) with
        | Mand => snd ca v
        | Opt => if present (cty (fst ca)) v then snd ca v else v
        | Dflt d => match raw_ne d v with Ok true => snd ca v | _ => v end
        end).

Definition enc_add_slot (ca : comp ty * (val -> val)) (s : option val) : option val :=
  let v := slot_get (fst ca) s in
  Some (if present (cty (fst ca)) v then snd ca v else v).

Definition enc_group_slots (g : list (comp ty * (val -> val))) (ss : list (option val)) :
  list (option val) :=
  if group_valued (map fst g) ss then zipw enc_root_slot g ss
  else zipw (fun ca s => Some (slot_get (fst ca) s)) g ss.

Fixpoint enc_groups_slots (gs : list (list (comp ty * (val -> val)))) (ss : list (option val)) :
  list (option val) :=
  match gs with
  | [] => []
  | g :: gs' => enc_group_slots g ss ++ enc_groups_slots gs' (skipn (List.length g) ss)
  end.

Fixpoint after_encode (t : ty) (v : val) {struct t} : val :=
  match t, v with
  | TSeq ext root adds groups, VSeq slots =>
      let ss := slots_list (ncomps root adds groups) slots in
      let rest := skipn (List.length root) ss in
      VSeq (slots_after
              (zipw enc_root_slot (att after_encode root) ss ++
               (if ext then zipw enc_add_slot (att after_encode adds) rest
                            ++ enc_groups_slots (map (att after_encode) groups)
                                                (skipn (List.length adds) rest)
                else rest)))
  | TSeqOf _ t', VSeqOf vs => VSeqOf (map (after_encode t') vs)
  | TChoice _ root adds groups, VChoice (Some (i, v')) =>
      match nth_error (att after_encode root ++ att after_encode adds
                       ++ List.concat (map (att after_encode) groups)) i with
      | Some (c, f) => VChoice (Some (i, f v'))
      | None => v
      end
  | _, _ => v
  end.

(** After reading one component, [m[name]].  Reading an alternative of a CHOICE that
    is not the selected one instantiates it, which selects it and drops the
    selected one (pyasn1 Choice.getComponentByPosition and
    setComponentByPosition). *)
Definition after_read (t : ty) (i : nat) (v : val) : val :=
  match t, v with
  | TSeq _ root adds groups, VSeq slots =>
      let cs := all_comps root adds groups in
      let ss := slots_list (List.length cs) slots in
      match nth_error cs i, nth_error ss i with
      | Some c, Some s => VSeq (Some (update i (Some (slot_get c s)) ss))
      | _, _ => v
      end
  | TChoice _ root adds groups, VChoice sel =>
      match nth_error (all_comps root adds groups) i with
      | Some c => if match sel with Some (j, _) => Nat.eqb j i | None => false end then v
                  else VChoice (Some (i, slot_get c None))
      | None => v
      end
  | _, _ => v
  end.
