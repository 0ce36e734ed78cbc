(** Model of asn1PERser/codec/per/encoder.py, function by function. *)

From Coq Require Import ZArith List String Bool Lia.
Import ListNotations.
From Verif Require Import PyBase Schema.
Open Scope Z_scope.

(** bit_field (encoder.py 10). *)
Record field : Type := F { falign : bool; fbits : bits }.

(** bit_field_size (encoder.py 9): octets, bits. *)
Definition bsize : Type := nat * nat.

(** [''.zfill(abs(len % 8 - 8))] (encoder.py 45, 51, 511). *)
Definition pad_to_octet (n : nat) : bits := repeat false (8 - Nat.modulo n 8).

(** One turn of the loop of _produce_complete_encoding (encoder.py 42-49). *)
Definition add_field (acc : bits) (f : field) : bits :=
  if falign f then
    (if Nat.eqb (Nat.modulo (List.length acc) 8) 0 then acc
     else acc ++ pad_to_octet (List.length acc)) ++ fbits f
  else acc ++ fbits f.

(** _produce_complete_encoding (encoder.py 40-52). *)
Definition produce_complete_encoding (fs : list field) : bits :=
  let s := fold_left add_field fs [] in
  if negb (Nat.eqb (Nat.modulo (List.length s) 8) 0) || Nat.eqb (List.length s) 0
  then s ++ pad_to_octet (List.length s) else s.

(** _bin_to_hex (encoder.py 55-57). *)
Definition bin_to_hex (s : bits) : res hexdigits :=
  let* z := py_int2 s in
  let* h := py_hex z in
  Ok (hzfill (Nat.div (List.length s) 4) h).

(** encode_non_negative_binary_integer (encoder.py 507-515), the two modes. *)
Definition encode_non_negative_min_octets (value : Z) : res bits :=
  let* s := py_bin value in
  Ok (if Nat.eqb (Nat.modulo (List.length s) 8) 0 then s
      else pad_to_octet (List.length s) ++ s).

Definition encode_non_negative_sized (value : Z) (size : bsize) : res bits :=
  py_format_b (fst size * 8 + snd size) value.

(** get_range_octet_len (encoder.py 613-620): [while True] with fuel. *)
Fixpoint range_octet_loop (fuel : nat) (range : Z) (m : nat) : res nat :=
  match fuel with
  | O => Err LoopFuel
  | S f => if range <? 2 ^ (Z.of_nat m * 8) then Ok m
           else range_octet_loop f range (S m)
  end.

Definition get_range_octet_len (range : Z) : res nat :=
  range_octet_loop (S (Z.to_nat (Z.log2 range))) range 3.

(** get_twos_complement_octet_len (encoder.py 623-636). *)
Fixpoint twos_octet_loop (fuel : nat) (z : Z) (m : nat) : res nat :=
  match fuel with
  | O => Err LoopFuel
  | S f =>
      if 0 <=? z then
        if z <? 2 ^ (Z.of_nat m * 8 - 1) then Ok m else twos_octet_loop f z (S m)
      else
        if - 2 ^ (Z.of_nat m * 8 - 1) <=? z then Ok m else twos_octet_loop f z (S m)
  end.

Definition get_twos_complement_octet_len (z : Z) : res nat :=
  twos_octet_loop (S (S (Z.to_nat (Z.log2 (Z.abs z))))) z 1.

(** get_bit_field_size (encoder.py 581-606); [None] is Python's None for a
    range below 1. *)
Definition get_bit_field_size (range : Z) : res (option bsize) :=
  if range =? 1 then Ok (Some (0, 0)%nat)
  else if range =? 2 then Ok (Some (0, 1)%nat)
  else if (3 <=? range) && (range <=? 4) then Ok (Some (0, 2)%nat)
  else if (5 <=? range) && (range <=? 8) then Ok (Some (0, 3)%nat)
  else if (9 <=? range) && (range <=? 16) then Ok (Some (0, 4)%nat)
  else if (17 <=? range) && (range <=? 32) then Ok (Some (0, 5)%nat)
  else if (33 <=? range) && (range <=? 64) then Ok (Some (0, 6)%nat)
  else if (65 <=? range) && (range <=? 128) then Ok (Some (0, 7)%nat)
  else if (129 <=? range) && (range <=? 255) then Ok (Some (0, 8)%nat)
  else if range =? 256 then Ok (Some (1, 0)%nat)
  else if (256 <? range) && (range <=? 65536) then Ok (Some (2, 0)%nat)
  else if 65536 <? range then let* k := get_range_octet_len range in Ok (Some (k, 0%nat))
  else Ok None.

(** integer_range (encoder.py 609-610). *)
Definition integer_range (lb ub : Z) : Z := ub - lb + 1.

(** encode_constrained_whole_number (encoder.py 465-484). *)
Definition encode_constrained_whole_number (n lb ub : Z) : res field :=
  let range := ub - lb + 1 in
  let* size := get_bit_field_size range in
  let value := n - lb in
  if range =? 1 then Ok (F false [])
  else
    let sized (al : bool) :=
      match size with
      | None => Err PyAttributeError
      | Some sz => let* s := encode_non_negative_sized value sz in Ok (F al s)
      end in
    if range <=? 255 then sized false
    else if range =? 256 then sized true
    else if (257 <=? range) && (range <=? 65536) then sized true
    else let* s := encode_non_negative_min_octets value in Ok (F true s).

(** encode_semi_constrained_whole_number (encoder.py 518-522). *)
Definition encode_semi_constrained_whole_number (n lb : Z) : res field :=
  let* s := encode_non_negative_min_octets (n - lb) in Ok (F true s).

(** encode_length_determinant (encoder.py 548-578), split by mode. *)
Definition length_normally_small (n : Z) : res (list field) :=
  if n <=? 64 then
    let* s := encode_non_negative_sized (n - 1) (0, 6)%nat in
    Ok [F false [false]; F false s]
  else Err RaiseNotImplemented.

Definition length_constrained (n : Z) (lb ub : option Z) : res (list field) :=
  let* u := need ub in
  let* l := need lb in
  let* f := encode_constrained_whole_number n l u in Ok [f].

Definition length_unconstrained (n : Z) : res (list field) :=
  if n <=? 127 then
    let* s := encode_non_negative_sized n (0, 7)%nat in Ok [F true (false :: s)]
  else if (127 <? n) && (n <=? 16384) then
    let* s := encode_non_negative_sized n (1, 6)%nat in Ok [F true (true :: false :: s)]
  else Err RaiseNotImplemented.

(** Number of whole octets of a bit string: [int(len(s) / 8)]. *)
Definition octets_of (s : bits) : Z := Z.of_nat (Nat.div (List.length s) 8).

(** create_field_list_for_constrained_whole_number (encoder.py 436-450). *)
Definition create_field_list_for_constrained_whole_number (n : Z) (lo hi : option Z) :
  res (list field) :=
  let* u := need hi in
  let* l := need lo in
  let* f := encode_constrained_whole_number n l u in
  if integer_range l u <=? 65536 then Ok [f]
  else
    let* ubnd := get_range_octet_len (u - l) in
    let* det := length_constrained (octets_of (fbits f)) (Some 1) (Some (Z.of_nat ubnd)) in
    Ok (det ++ [f]).

(** encode_normally_small_non_negative_whole_number (encoder.py 487-504). *)
Definition encode_normally_small (n lb : Z) : res (list field) :=
  if n <=? 63 then
    let* s := encode_non_negative_sized n (0, 6)%nat in
    Ok [F false [false]; F false s]
  else
    let* f := encode_semi_constrained_whole_number n lb in
    let* det := length_unconstrained (octets_of (fbits f)) in
    Ok (F false [true] :: det ++ [f]).

(** encode_twos_complement_binary_integer (encoder.py 538-545). *)
Definition encode_twos_complement (z : Z) (width : nat) : res bits :=
  if z =? 0 then Ok (repeat false width)
  else if 0 <? z then let* s := py_bin z in Ok (zfill width s)
  else
    let* ones := py_int2 (repeat true width) in
    py_bin (Z.lxor (Z.abs z - 1) ones).

(** create_field_list_for_unconstrained_whole_number and
    encode_unconstrained_whole_number (encoder.py 525-535). *)
Definition create_field_list_for_unconstrained_whole_number (z : Z) : res (list field) :=
  let* len := get_twos_complement_octet_len z in
  let* body := encode_twos_complement z (8 * len) in
  let* det := py_format_b 8 (Z.of_nat len) in
  Ok [F true (det ++ body)].

(** encode_boolean (encoder.py 60-64). *)
Definition encode_boolean (b : bool) : list field := [F false [b]].

(** encode_integer (encoder.py 67-100); is_constrained_whole_number,
    is_semi_constrained_whole_number and is_constant (639-652) are inlined as the
    match on the end points. *)
Definition encode_integer (c : constr) (z : Z) : res (list field) :=
  if cext c then
    let* inroot := chain_le (clo c) z (chi c) in
    if inroot then
      let* fs := create_field_list_for_constrained_whole_number z (clo c) (chi c) in
      Ok (F false [false] :: fs)
    else
      let* fs := create_field_list_for_unconstrained_whole_number z in
      Ok (F false [true] :: fs)
  else
    match clo c, chi c with
    | Some l, Some u => create_field_list_for_constrained_whole_number z (Some l) (Some u)
    | Some l, None =>
        let* f := encode_semi_constrained_whole_number z l in
        let* det := length_unconstrained (octets_of (fbits f)) in
        Ok (det ++ [f])
    | _, _ => create_field_list_for_unconstrained_whole_number z
    end.

Fixpoint zindex (z : Z) (l : list Z) : res Z :=
  match l with
  | [] => Err PyValueError
  | x :: r => if x =? z then Ok 0 else let* i := zindex z r in Ok (i + 1)
  end.

Definition zlen {A} (l : list A) : Z := Z.of_nat (List.length l).

(** encode_enumerated (encoder.py 103-118). *)
Definition encode_enumerated (ext : bool) (root adds : list Z) (z : Z) : res (list field) :=
  if negb ext then
    create_field_list_for_constrained_whole_number z (Some 0) (Some (zlen (root ++ adds) - 1))
  else if existsb (Z.eqb z) root then
    let* fs := create_field_list_for_constrained_whole_number z (Some 0) (Some (zlen root - 1)) in
    Ok (F false [false] :: fs)
  else
    let* n := zindex z adds in
    let* fs := encode_normally_small n 0 in
    Ok (F false [true] :: fs).

(** pyasn1 BitString.asBinary: the empty bit string gives '0'. *)
Definition as_binary (s : bits) : bits := match s with [] => [false] | _ => s end.

Definition opt_field (o : option field) : list field :=
  match o with Some f => [f] | None => [] end.

(** encode_bitstring (encoder.py 121-175).  [Ok None] is the bare [return] of
    line 142.  Named bits (122-123, an immediate exception) are not modelled. *)
Definition encode_bitstring (c : constr) (v : bits) : res (option (list field)) :=
  let s := as_binary v in
  let n := zlen s in
  let after (e : option field) : res (option (list field)) :=
    if opt_is (chi c) 0 then Ok None
    else if some_eq (clo c) (chi c) then
      if n <=? 16 then Ok (Some (opt_field e ++ [F false s]))
      else if (16 <? n) && (n <? 65536) then Ok (Some (opt_field e ++ [F true s]))
      else Err RaiseNotImplemented
    else if truthy (chi c) && lt65536 (chi c) then
      let* det := length_constrained n (clo c) (chi c) in
      Ok (Some (opt_field e ++ det ++ [F true s]))
    else
      let* det := length_unconstrained n in
      Ok (Some (opt_field e ++ det ++ [F true s])) in
  if cext c then
    let* inroot := chain_le (clo c) n (chi c) in
    if inroot then after (Some (F false [false]))
    else
      let* det := length_unconstrained n in
      Ok (Some (F false [true] :: det ++ [F true s]))
  else after None.

(** The bits of an octet string (encoder.py 179-181). *)
Fixpoint octets_bits (bs : list Z) : res bits :=
  match bs with
  | [] => Ok []
  | b :: r => let* s := py_bin b in let* t := octets_bits r in Ok (zfill 8 s ++ t)
  end.

(** encode_octetstring (encoder.py 178-231). *)
Definition encode_octetstring (c : constr) (bs : list Z) : res (option (list field)) :=
  let* s := octets_bits bs in
  let n := octets_of s in
  let after (e : option field) : res (option (list field)) :=
    if opt_is (chi c) 0 then Ok None
    else if some_eq (clo c) (chi c) then
      if n <=? 2 then Ok (Some (opt_field e ++ [F false s]))
      else if (2 <? n) && (n <? 65536) then Ok (Some (opt_field e ++ [F true s]))
      else Err RaiseNotImplemented
    else if truthy (chi c) then
      let* det := length_constrained n (clo c) (chi c) in
      Ok (Some (opt_field e ++ det ++ [F true s]))
    else
      let* det := length_unconstrained n in
      Ok (Some (opt_field e ++ det ++ [F true s])) in
  if cext c then
    let* inroot := chain_le (clo c) n (chi c) in
    if inroot then after (Some (F false [false]))
    else
      let* det := length_unconstrained n in
      Ok (Some (F false [true] :: det ++ [F false s]))
  else after None.

(** fill_field_list (data/builtin/*.py): nothing is added for None. *)
Definition fill (r : res (option (list field))) : res (list field) :=
  let* o := r in Ok (match o with Some fs => fs | None => [] end).

(** encode_open_type_field (encoder.py 453-462), given the fields of the type. *)
Definition encode_open_type_field (fs : list field) : res (list field) :=
  let s := produce_complete_encoding fs in
  let* det := length_unconstrained (octets_of s) in
  Ok (det ++ [F true s]).

(** encode_sequence, the root component loop (encoder.py 237-263): the bitmap
    and the fields.  [look] is getComponentByName; the object found under a
    component's name has that component's type because names are distinct. *)
Definition enc_root (enc : ty -> val -> res (list field)) (look : string -> res val) :=
  fix go (cs : list (comp ty)) : res (bits * list field) :=
    match cs with
    | [] => Ok ([], [])
    | c :: cs' =>
        let* v := look (cname c) in
        let* bf :=
          match cpres c with
          | Opt =>
              if is_value (cty c) v && comp_values_ok v
              then let* fs := enc (cty c) v in Ok ([true], fs)
              else Ok ([false], [])
          | Dflt d =>
              let* ne := raw_ne d v in
              if ne then let* fs := enc (cty c) v in Ok ([true], fs)
              else Ok ([false], [])
          | Mand => let* fs := enc (cty c) v in Ok ([], fs)
          end in
        let* r := go cs' in
        Ok (fst bf ++ fst r, snd bf ++ snd r)
    end.

(** encode_sequence 264-269: the bitmap is put in front. *)
Definition root_fields (r : bits * list field) : res (list field) :=
  match fst r with
  | [] => Ok (snd r)
  | b => if zlen b <? 65536 then Ok (F false b :: snd r) else Err RaiseNotImplemented
  end.

(** previous_extensionComponent / previous_extensionGroupComponent. *)
Record prev_comp : Type := Prev { pname : string; ppresent : bool; poptional : bool }.

Definition prev_missing (p : option prev_comp) : option string :=
  match p with
  | Some q => if negb (ppresent q) && negb (poptional q) then Some (pname q) else None
  | None => None
  end.

(** The extension additions (encoder.py 279-301). *)
Definition enc_adds (enc : ty -> val -> res (list field)) (look : string -> res val) :=
  fix go (prev : option prev_comp) (cs : list (comp ty)) : res (bits * list field) :=
    match cs with
    | [] => Ok ([], [])
    | c :: cs' =>
        let* v := look (cname c) in
        let* bf :=
          if is_value (cty c) v then
            match prev_missing prev with
            | Some nm => Err (MandatoryExtensionFieldNotPresent nm)
            | None =>
                if comp_values_ok v then
                  let* fs := enc (cty c) v in
                  let* o := encode_open_type_field fs in Ok (true, o)
                else Ok (false, [])
            end
          else Ok (false, []) in
        let* r := go (Some (Prev (cname c) (fst bf) (is_optional c))) cs' in
        Ok (fst bf :: fst r, snd bf ++ snd r)
    end.

(** One addition group, first pass (encoder.py 304-322): the records of its
    components, in order. *)
Definition group_scan (look : string -> res val) :=
  fix go (prev : option prev_comp) (cs : list (comp ty)) : res (list prev_comp) :=
    match cs with
    | [] => Ok []
    | c :: cs' =>
        let* v := look (cname c) in
        let* here :=
          if is_value (cty c) v then
            match prev_missing prev with
            | Some nm => Err (MandatoryFieldNotPresentInExtensionGroup nm)
            | None => Ok (comp_values_ok v)
            end
          else Ok false in
        let p := Prev (cname c) here (is_optional c) in
        let* r := go (Some p) cs' in
        Ok (p :: r)
    end.

(** The addition groups (encoder.py 302-338); [prevg] is
    extension_group_components[index_group - 1].  The group is encoded through a
    fake SEQUENCE without extension marker (655-684). *)
Definition enc_groups (enc : ty -> val -> res (list field)) (look : string -> res val) :=
  fix go (prevg : option (list prev_comp)) (gs : list (list (comp ty))) :
    res (bits * list field) :=
    match gs with
    | [] => Ok ([], [])
    | g :: gs' =>
        let* ps := group_scan look None g in
        let* bf :=
          if existsb ppresent ps then
            let* _ :=
              match prevg with
              | None => Ok tt
              | Some pps =>
                  if existsb (fun p => ppresent p || poptional p) pps then Ok tt
                  else match pps with
                       | [] => Err PyIndexError
                       | p :: _ => Err (MandatoryExtensionFieldNotPresent (pname p))
                       end
              end in
            let* r := enc_root enc look g in
            let* fs := root_fields r in
            let* o := encode_open_type_field fs in
            Ok (true, o)
          else Ok (false, []) in
        let* r := go (Some ps) gs' in
        Ok (fst bf :: fst r, snd bf ++ snd r)
    end.

Definition isnil {A} (l : list A) : bool := match l with [] => true | _ => false end.

(** encode_sequence (encoder.py 234-354). *)
Definition encode_sequence (enc : ty -> val -> res (list field))
    (ext : bool) (root adds : list (comp ty)) (groups : list (list (comp ty)))
    (slots : option (list (option val))) : res (list field) :=
  let look := get_by_name (all_comps root adds groups) slots in
  let* r := enc_root enc look root in
  let* rf := root_fields r in
  if ext then
    if isnil adds && isnil groups then Ok (F false [false] :: rf)
    else
      let* a := enc_adds enc look None adds in
      let* g := enc_groups enc look None groups in
      let bm := fst a ++ fst g in
      if 0 <? bval bm then
        let* det := length_normally_small (zlen bm) in
        Ok (F false [true] :: rf ++ det ++ F false bm :: snd a ++ snd g)
      else Ok (F false [false] :: rf)
  else Ok rf.

(** [for component in sequence_of: component.fill_field_list(...)]. *)
Fixpoint enc_list (enc : val -> res (list field)) (vs : list val) : res (list field) :=
  match vs with
  | [] => Ok []
  | v :: r => let* a := enc v in let* b := enc_list enc r in Ok (a ++ b)
  end.

(** encode_sequence_of (encoder.py 357-390), after the component loop. *)
Definition encode_sequence_of (c : constr) (n : Z) (body : list field) : res (list field) :=
  if cext c then
    let* inroot := chain_le (clo c) n (chi c) in
    if inroot then
      let* det := length_constrained n (clo c) (chi c) in
      Ok (F false [false] :: det ++ body)
    else
      let* det := length_unconstrained n in
      Ok (F false [true] :: det ++ body)
  else
    let* lo := need (clo c) in
    if n <? lo then Err SizeConstrainViolated
    else if truthy (chi c) && negb (le_opt_r n (chi c)) then
      Err InvalidComponentIndexIntoStructuredType
    else if opt_is (chi c) lo && (lo <? 65536) then Ok body
    else if truthy (chi c) then
      let* det := length_constrained n (clo c) (chi c) in Ok (det ++ body)
    else
      let* det := length_unconstrained n in Ok (det ++ body).

(** encode_choice (encoder.py 393-433), given the selected position, the
    selected name and the fields of the selected component.  [Ok None] when the
    loops end without a match. *)
Definition encode_choice (ext : bool) (root adds : list (comp ty))
    (groups : list (list (comp ty))) (name : string) (body : list field) :
  res (option (list field)) :=
  let n := zlen root - 1 in
  if negb ext then
    if Nat.eqb (List.length root) 1 then Ok (Some body)
    else match index_of name root with
         | Some i =>
             let* ix := create_field_list_for_constrained_whole_number (Z.of_nat i) (Some 0) (Some n) in
             Ok (Some (ix ++ body))
         | None => Ok None
         end
  else
    match index_of name root with
    | Some i =>
        if Nat.eqb (List.length root) 1 then Ok (Some (F false [false] :: body))
        else
          let* ix := create_field_list_for_constrained_whole_number (Z.of_nat i) (Some 0) (Some n) in
          Ok (Some (F false [false] :: ix ++ body))
    | None =>
        if isnil adds && isnil groups then Err PyUnboundLocalError
        else match index_of name (adds ++ List.concat groups) with
             | Some i =>
                 let* ix := encode_normally_small (Z.of_nat i) 0 in
                 let* o := encode_open_type_field body in
                 Ok (Some (F false [true] :: ix ++ o))
             | None => Ok None
             end
    end.

(** fill_field_list of each type (data/builtin/*.py); the dispatch of
    [componentType.fill_field_list(...)].  For CHOICE, [getComponent] raises when
    nothing is selected. *)
Fixpoint enc (t : ty) (v : val) {struct t} : res (list field) :=
  match t, v with
  | TSeq ext root adds groups, VSeq slots => encode_sequence enc ext root adds groups slots
  | TSeqOf c t', VSeqOf vs =>
      let* body := enc_list (enc t') vs in encode_sequence_of c (zlen vs) body
  | TChoice ext root adds groups, VChoice sel =>
      match sel with
      | None => Err PyAsn1Error
      | Some (i, v') =>
          match nth_error (map (fun c => (cname c, enc (cty c))) root
                           ++ map (fun c => (cname c, enc (cty c))) adds
                           ++ List.concat (map (map (fun c => (cname c, enc (cty c)))) groups)) i with
          | None => Err IllTyped
          | Some (name, e) =>
              let* body := e v' in
              fill (encode_choice ext root adds groups name body)
          end
      end
  | TSeq _ _ _ _, _ | TSeqOf _ _, _ | TChoice _ _ _ _, _ => Err IllTyped
  | _, VUnset => Err PyAsn1Error
  | TBool, VBool b => Ok (encode_boolean b)
  | TInt c, VInt z => encode_integer c z
  | TEnum ext root adds, VEnum z => encode_enumerated ext root adds z
  | TBits c, VBits s => fill (encode_bitstring c s)
  | TOcts c, VOcts bs => fill (encode_octetstring c bs)
  | _, _ => Err IllTyped
  end.

(** encode (encoder.py 33-37): the message as octets. *)
Definition encode (t : ty) (v : val) : res (list Z) :=
  let* fs := enc t v in
  let* h := bin_to_hex (produce_complete_encoding fs) in
  unhexlify h.
