(** Model of asn1PERser/codec/per/decoder.py, function by function. *)

From Coq Require Import ZArith List String Bool Lia.
Import ListNotations.
From Verif Require Import PyBase Schema Encoder.
Open Scope Z_scope.

(** Offset (decoder.py 14-20). *)
Record offset : Type := Off { prev_octets : nat; prev_bits : nat;
                              curr_octets : nat; curr_bits : nat }.

Definition off_init : offset := Off 0 0 0 0.

(** Offset.__add__ (decoder.py 22-31). *)
Definition off_add (o : offset) (sz : bsize) : offset :=
  let co := (curr_octets o + fst sz)%nat in
  let cb := (curr_bits o + snd sz)%nat in
  if Nat.leb 8 cb
  then Off (curr_octets o) (curr_bits o) (co + Nat.div cb 8) (cb - 8 * Nat.div cb 8)
  else Off (curr_octets o) (curr_bits o) co cb.

(** Offset.align (decoder.py 33-41). *)
Definition off_align (o : offset) : offset :=
  let cb := curr_bits o in
  let to_align := if Nat.ltb 0 cb then ((1 + Nat.div cb 8) * 8 - cb)%nat else 0%nat in
  if Nat.eqb to_align 0 then o
  else Off (curr_octets o) 0
           (curr_octets o + (if Nat.eqb (Nat.modulo cb 8) 0 then Nat.div cb 8
                             else 1 + Nat.div cb 8)) 0.

(** PerBytes (decoder.py 44-65). *)
Record perbytes : Type := PB { pb_bits : bits; pb_off : offset }.

(** PerBytes.__init__ (decoder.py 45-47). *)
Definition per_init (h : hexdigits) : res perbytes :=
  let* z := py_int16 h in
  let* s := py_bin z in
  Ok (PB (zfill (List.length h * 4) s) off_init).

(** A decoding step threads the PerBytes object. *)
Definition D (A : Type) : Type := perbytes -> res (A * perbytes).

Definition ret {A} (a : A) : D A := fun p => Ok (a, p).
Definition fail {A} (e : exn) : D A := fun _ => Err e.
Definition dbind {A B} (d : D A) (k : A -> D B) : D B :=
  fun p => match d p with Ok (a, p') => k a p' | Err e => Err e end.
Definition lift {A} (r : res A) : D A :=
  fun p => match r with Ok a => Ok (a, p) | Err e => Err e end.

Notation "'do' x '<-' e ';' k" := (dbind e (fun x => k))
  (at level 200, x pattern, e at level 100, k at level 200, right associativity).

(** Slice [start:stop] of the bit string, '0' when empty by construction
    (PerBytes.__getitem__, decoder.py 57-62). *)
Definition per_slice (s : bits) (start stop : nat) : bits :=
  if Nat.eqb start stop then [false] else firstn (stop - start) (skipn start s).

(** PerBytes.next (decoder.py 49-55). *)
Definition per_next (sz : bsize) (al : bool) : D Z :=
  fun p =>
    let o1 := if al then off_align (pb_off p) else pb_off p in
    let o2 := off_add o1 sz in
    let start := (prev_octets o2 * 8 + prev_bits o2)%nat in
    let stop := (curr_octets o2 * 8 + curr_bits o2)%nat in
    match py_int2 (per_slice (pb_bits p) start stop) with
    | Ok z => Ok (z, PB (pb_bits p) o2)
    | Err e => Err e
    end.

Definition next_bits (n : nat) : D Z := per_next (0%nat, n) false.
Definition next_octets (n : nat) : D Z := per_next (n, 0%nat) false.

(** [per_bytes.next(size=bit_field_size(octets=0, bits=0), octet_align=True)]. *)
Definition align : D Z := per_next (0, 0)%nat true.

(** decode_non_negative_binary_integer (decoder.py 679-690); the mode
    minimum_number_of_octets raises and is inlined in its only caller. *)
Definition decode_non_negative (size : option bsize) (al : bool) : D Z :=
  match size with
  | None => fail PyAttributeError
  | Some sz =>
      do z <- per_next sz false;
      if al then do _ <- align; ret z else ret z
  end.

(** decode_constrained_whole_number (decoder.py 629-650). *)
Definition decode_constrained_whole_number (lb ub : Z) : D Z :=
  let range := integer_range lb ub in
  do size <- lift (get_bit_field_size range);
  if range =? 1 then ret 0
  else if range <=? 255 then
    do z <- decode_non_negative size false; ret (lb + z)
  else if range =? 256 then
    do _ <- align; do z <- decode_non_negative size true; ret (lb + z)
  else if (257 <=? range) && (range <=? 65536) then
    do _ <- align; do z <- decode_non_negative size true; ret (lb + z)
  else fail RaiseNotImplemented.

(** decode_length_determinant (decoder.py 700-733), split by mode. *)
Definition dec_length_normally_small : D Z :=
  do b <- next_bits 1;
  if b =? 0 then
    do z <- decode_non_negative (Some (0, 6)%nat) false; ret (z + 1)
  else fail RaiseNotImplemented.

Definition dec_length_constrained (lb ub : option Z) : D Z :=
  do u <- lift (need ub);
  do l <- lift (need lb);
  decode_constrained_whole_number l u.

Definition dec_length_unconstrained : D Z :=
  do _ <- align;
  do b <- next_bits 1;
  if b =? 0 then decode_non_negative (Some (0, 7)%nat) true
  else
    do b2 <- next_bits 1;
    if b2 =? 0 then decode_non_negative (Some (1, 6)%nat) true
    else fail RaiseNotImplemented.

(** decode_constrained_whole_number_from_field_list (decoder.py 586-600). *)
Definition decode_constrained_from_field_list (lo hi : option Z) : D Z :=
  do u <- lift (need hi);
  do l <- lift (need lo);
  if integer_range l u <=? 65536 then decode_constrained_whole_number l u
  else
    do ub <- lift (get_range_octet_len (u - l));
    do n <- dec_length_constrained (Some 1) (Some (Z.of_nat ub));
    do v <- per_next (Z.to_nat n, 0%nat) true;
    ret (l + v).

(** decode_semi_constrained_whole_number_from_field_list (decoder.py 603-614). *)
Definition decode_semi_constrained (lb : Z) : D Z :=
  do n <- dec_length_unconstrained;
  do v <- next_octets (Z.to_nat n);
  ret (lb + v).

(** decode_normally_small_non_negative_whole_number (decoder.py 653-665). *)
Definition decode_normally_small (lb : Z) : D Z :=
  do b <- next_bits 1;
  if b =? 0 then decode_non_negative (Some (0, 6)%nat) false
  else do _ <- align; decode_semi_constrained lb.

(** twos_comp (decoder.py 693-697); [1 << (bits - 1)] is a ValueError for 0. *)
Definition twos_comp (v : Z) (nbits : Z) : res Z :=
  if nbits =? 0 then Err PyValueError
  else if negb (Z.land v (Z.shiftl 1 (nbits - 1)) =? 0) then Ok (v - Z.shiftl 1 nbits)
  else Ok v.

(** decode_unconstrained_whole_number (decoder.py 668-676). *)
Definition decode_unconstrained_whole_number : D Z :=
  do n <- per_next (1, 0)%nat true;
  do v <- next_octets (Z.to_nat n);
  lift (twos_comp v (8 * n)).

(** What create_field_list returns: an object, or the Python string '' for a
    string type whose upper end point is 0 (decoder.py 184, 259). *)
Inductive dval : Type :=
| DVal (v : val)
| DEmpty.

(** Building a simple object runs the constraint check. *)
Definition mk_int (c : constr) (z : Z) : res dval :=
  if ctest c z then Ok (DVal (VInt z)) else Err PyAsn1Error.
Definition mk_bits (c : constr) (s : bits) : res dval :=
  if ctest c (zlen s) then Ok (DVal (VBits s)) else Err PyAsn1Error.
Definition mk_octs (c : constr) (h : hexdigits) : res dval :=
  let bs := from_hex_string h in
  if ctest c (zlen bs) then Ok (DVal (VOcts bs)) else Err PyAsn1Error.

(** decode_boolean (decoder.py 77-82). *)
Definition decode_boolean : D dval :=
  do b <- next_bits 1; ret (DVal (VBool (negb (b =? 0)))).

(** decode_integer (decoder.py 85-132). *)
Definition decode_integer (c : constr) : D dval :=
  if cext c then
    do b <- next_bits 1;
    if negb (b =? 0) then
      do z <- decode_unconstrained_whole_number; lift (mk_int c z)
    else
      do z <- decode_constrained_from_field_list (clo c) (chi c); lift (mk_int c z)
  else
    match clo c, chi c with
    | Some l, Some u =>
        if l =? u then lift (mk_int c l)
        else do z <- decode_constrained_from_field_list (Some l) (Some u); lift (mk_int c z)
    | Some l, None => do z <- decode_semi_constrained l; lift (mk_int c z)
    | _, _ => do z <- decode_unconstrained_whole_number; lift (mk_int c z)
    end.

(** [enumerated.__class__(enumerated.namedValues.getName(index))]: getName gives
    None for an unknown number, and building from None is a TypeError. *)
Definition mk_enum (root adds : list Z) (i : Z) : res dval :=
  if existsb (Z.eqb i) (root ++ adds) then Ok (DVal (VEnum i)) else Err PyTypeError.

(** decode_enumerated (decoder.py 135-157). *)
Definition decode_enumerated (ext : bool) (root adds : list Z) : D dval :=
  if negb ext then
    do i <- decode_constrained_whole_number 0 (zlen (root ++ adds) - 1);
    lift (mk_enum root adds i)
  else
    do b <- next_bits 1;
    if b =? 0 then
      do i <- decode_constrained_whole_number 0 (zlen root - 1);
      lift (mk_enum root adds i)
    else
      do i <- decode_normally_small 0;
      lift (mk_enum root adds (i + zlen root)).

(** [bin(v)[2:].zfill(n)]. *)
Definition bin_zfill (v : Z) (n : Z) : res bits :=
  let* s := py_bin v in Ok (zfill (Z.to_nat n) s).

(** [hex(v)[2:].rstrip("L").zfill(2 * n)]. *)
Definition hex_zfill (v : Z) (n : Z) : res hexdigits :=
  let* h := py_hex v in Ok (hzfill (Z.to_nat (2 * n)) h).

(** decode_bitstring (decoder.py 160-229). *)
Definition decode_bitstring (c : constr) : D dval :=
  let after : D dval :=
    if opt_is (chi c) 0 then ret DEmpty
    else if some_eq (clo c) (chi c) then
      do l <- lift (need (clo c));
      if l <=? 16 then
        do v <- next_bits (Z.to_nat l);
        do s <- lift (bin_zfill v l); lift (mk_bits c s)
      else if (16 <? l) && (l <? 65536) then
        do _ <- align;
        do v <- next_bits (Z.to_nat l);
        do s <- lift (bin_zfill v l); lift (mk_bits c (firstn (Z.to_nat l) s))
      else fail RaiseNotImplemented
    else if truthy (chi c) && lt65536 (chi c) then
      do n <- dec_length_constrained (clo c) (chi c);
      do v <- per_next (0%nat, Z.to_nat n) true;
      do s <- lift (bin_zfill v n); lift (mk_bits c s)
    else
      do n <- dec_length_unconstrained;
      do v <- per_next (0%nat, Z.to_nat n) true;
      do s <- lift (bin_zfill v n); lift (mk_bits c s) in
  if cext c then
    do b <- next_bits 1;
    if b =? 0 then after
    else
      do _ <- align;
      do n <- dec_length_unconstrained;
      do v <- next_bits (Z.to_nat n);
      do _ <- align;
      do s <- lift (bin_zfill v n); lift (mk_bits c s)
  else after.

(** decode_octetstring (decoder.py 232-308). *)
Definition decode_octetstring (c : constr) : D dval :=
  let after : D dval :=
    if opt_is (chi c) 0 then ret DEmpty
    else if some_eq (clo c) (chi c) then
      do l <- lift (need (clo c));
      if l <=? 2 then
        do v <- next_octets (Z.to_nat l);
        do s <- lift (hex_zfill v l); lift (mk_octs c s)
      else if (2 <? l) && (l <? 65536) then
        do _ <- align;
        do v <- next_octets (Z.to_nat l);
        do s <- lift (hex_zfill v l); lift (mk_octs c s)
      else fail RaiseNotImplemented
    else if truthy (chi c) then
      do n <- dec_length_constrained (clo c) (chi c);
      if n =? 0 then lift (mk_octs c [])
      else
        do v <- per_next (Z.to_nat n, 0%nat) true;
        do s <- lift (py_hex v); lift (mk_octs c s)
    else
      do _ <- align;
      do n <- dec_length_unconstrained;
      do v <- next_octets (Z.to_nat n);
      do s <- lift (hex_zfill v n); lift (mk_octs c s) in
  if cext c then
    do b <- next_bits 1;
    if b =? 0 then after
    else
      do _ <- align;
      do n <- dec_length_unconstrained;
      if n =? 0 then lift (mk_octs c [])
      else
        do v <- next_octets (Z.to_nat n);
        do s <- lift (hex_zfill v n); lift (mk_octs c s)
  else after.

(** Assigning what create_field_list returned to a component of type [t]:
    pyasn1 builds an object of the component's class from ''. *)
Definition cast (t : ty) (d : dval) : res val :=
  match d with
  | DVal v => Ok v
  | DEmpty =>
      match t with
      | TBits c => if ctest c 0 then Ok (VBits []) else Err PyAsn1Error
      | TOcts c => if ctest c 0 then Ok (VOcts []) else Err PyAsn1Error
      | _ => Err IllTyped
      end
  end.

(** decode_open_type_field (decoder.py 617-626). *)
Definition decode_open_type_field {A} (inner : D A) : D A :=
  do n <- dec_length_unconstrained;
  do v <- per_next (Z.to_nat n, 0%nat) true;
  do h <- lift (hex_zfill v n);
  do p <- lift (per_init h);
  fun q => match inner p with Ok (a, _) => Ok (a, q) | Err e => Err e end.

(** An assignment made by decode_sequence: component name and object. *)
Definition assign : Type := string * val.

(** Number of OPTIONAL/DEFAULT root components (decoder.py 321-323). *)
Definition optional_count (cs : list (comp ty)) : nat :=
  List.length (filter (fun c => is_optional c || is_defaulted c) cs).

(** The root component loop (decoder.py 334-365); [bm] is the deque. *)
Definition dec_root (dec : ty -> D dval) :=
  fix go (cs : list (comp ty)) (bm : bits) : D (list assign) :=
    match cs with
    | [] => ret []
    | c :: cs' =>
        let take : D (list assign) :=
          do d <- dec (cty c);
          do v <- lift (cast (cty c) d);
          ret [(cname c, v)] in
        if is_mandatory c then
          do a <- take;
          do r <- go cs' bm;
          ret (a ++ r)
        else
          match bm with
          | [] => fail PyIndexError
          | b :: bm' =>
              do a <- (if b then take else ret []);
              do r <- go cs' bm';
              ret (a ++ r)
          end
    end.

(** Bitmap and root components (decoder.py 321-365). *)
Definition dec_root_part (dec : ty -> D dval) (root : list (comp ty)) : D (list assign) :=
  let k := optional_count root in
  if Nat.eqb k 0 then dec_root dec root []
  else if Z.of_nat k <? 65536 then
    do v <- next_bits k;
    do bm <- lift (bin_zfill v (Z.of_nat k));
    dec_root dec root bm
  else fail RaiseNotImplemented.

(** Extension additions (decoder.py 383-395): zip with the bits. *)
Definition dec_adds (dec : ty -> D dval) :=
  fix go (cs : list (comp ty)) (bm : bits) : D (list assign) :=
    match cs, bm with
    | c :: cs', b :: bm' =>
        do a <- (if (b : bool) then
                   do d <- decode_open_type_field (dec (cty c));
                   do v <- lift (cast (cty c) d);
                   ret [(cname c, v)]
                 else ret []);
        do r <- go cs' bm';
        ret (a ++ r)
    | _, _ => ret []
    end.

(** Addition groups (decoder.py 396-411); a group is decoded as an
    INNER_SEQUENCE without extension marker (736-762), whose assignments are then
    repeated on the message.  The conversion of '' happens at that second
    assignment, with the same component type. *)
Definition dec_groups (dec : ty -> D dval) :=
  fix go (gs : list (list (comp ty))) (bm : bits) : D (list assign) :=
    match gs, bm with
    | g :: gs', b :: bm' =>
        do a <- (if (b : bool) then decode_open_type_field (dec_root_part dec g) else ret []);
        do r <- go gs' bm';
        ret (a ++ r)
    | _, _ => ret []
    end.

(** [new_seq[name] = value], in order. *)
Fixpoint assign_all (cs : list (comp ty)) (slots : option (list (option val)))
    (l : list assign) : res (option (list (option val))) :=
  match l with
  | [] => Ok slots
  | (nm, v) :: r =>
      match index_of nm cs with
      | Some i => assign_all cs (slot_set (List.length cs) slots i v) r
      | None => Err PyAsn1Error
      end
  end.

(** decode_sequence (decoder.py 311-413). *)
Definition decode_sequence (dec : ty -> D dval) (ext : bool)
    (root adds : list (comp ty)) (groups : list (list (comp ty))) : D dval :=
  do e <- (if ext then next_bits 1 else ret 0);
  do a <- dec_root_part dec root;
  do b <- (if negb (e =? 0) then
             do n <- dec_length_normally_small;
             do v <- next_bits (Z.to_nat n);
             do bm <- lift (bin_zfill v (zlen adds + zlen groups));
             do _ <- align;
             do x <- dec_adds dec adds (firstn (List.length adds) bm);
             do y <- dec_groups dec groups (skipn (List.length adds) bm);
             ret (x ++ y)
           else ret []);
  do slots <- lift (assign_all (all_comps root adds groups) None (a ++ b));
  ret (DVal (VSeq slots)).

(** [for index in range(n): ...]. *)
Fixpoint dec_n (dec : D val) (n : nat) : D (list val) :=
  match n with
  | O => ret []
  | S m => do v <- dec; do r <- dec_n dec m; ret (v :: r)
  end.

(** The length part of decode_sequence_of (decoder.py 416-498). *)
Definition dec_seqof_len (c : constr) : D Z :=
  if cext c then
    do b <- next_bits 1;
    if b =? 0 then dec_length_constrained (clo c) (chi c)
    else do _ <- align; dec_length_unconstrained
  else
    match clo c, chi c with
    | None, None => fail PyTypeError
    | Some l, Some h =>
        if (l =? h) && (h <? 65536) then ret l
        else if truthy (chi c) then dec_length_constrained (clo c) (chi c)
        else dec_length_unconstrained
    | _, _ =>
        if truthy (chi c) then dec_length_constrained (clo c) (chi c)
        else dec_length_unconstrained
    end.

(** decode_sequence_of (decoder.py 416-498). *)
Definition decode_sequence_of (dec : D dval) (t : ty) (c : constr) : D dval :=
  do n <- dec_seqof_len c;
  do vs <- dec_n (do d <- dec; lift (cast t d)) (Z.to_nat n);
  ret (DVal (VSeqOf vs)).

(** Alternative number [i] of a list with decoders; IndexError when there is
    none. *)
Definition pick {A} (l : list A) (i : Z) : D A :=
  match nth_error l (Z.to_nat i) with Some a => ret a | None => fail PyIndexError end.

(** decode_choice (decoder.py 501-583). [base] is the position of the list in
    componentType. *)
Definition decode_choice (ext : bool) (root adds groups : list (ty * D dval)) : D dval :=
  let root_alt : D dval :=
    do i <- (if Nat.eqb (List.length root) 1 then ret 0
             else decode_constrained_from_field_list (Some 0) (Some (zlen root - 1)));
    do a <- pick root i;
    do d <- snd a;
    do v <- lift (cast (fst a) d);
    ret (DVal (VChoice (Some (Z.to_nat i, v)))) in
  if negb ext then root_alt
  else
    do b <- next_bits 1;
    if b =? 0 then root_alt
    else
      do i <- decode_normally_small 0;
      if isnil adds && isnil groups then fail RaiseNotImplemented
      else
        do a <- pick (adds ++ groups) i;
        do d <- decode_open_type_field (snd a);
        do v <- lift (cast (fst a) d);
        ret (DVal (VChoice (Some ((List.length root + Z.to_nat i)%nat, v)))).

(** create_field_list of each type (data/builtin/*.py). *)
Fixpoint dec (t : ty) {struct t} : D dval :=
  match t with
  | TBool => decode_boolean
  | TInt c => decode_integer c
  | TEnum ext root adds => decode_enumerated ext root adds
  | TBits c => decode_bitstring c
  | TOcts c => decode_octetstring c
  | TSeq ext root adds groups => decode_sequence dec ext root adds groups
  | TSeqOf c t' => decode_sequence_of (dec t') t' c
  | TChoice ext root adds groups =>
      decode_choice ext (map (fun c => (cty c, dec (cty c))) root)
                        (map (fun c => (cty c, dec (cty c))) adds)
                        (List.concat (map (map (fun c => (cty c, dec (cty c)))) groups))
  end.

(** [decoded == ''] (decoder.py 72): true of the string '' and, because
    Choice.__eq__ compares the selected component, of a CHOICE whose content is an
    empty BIT STRING. *)
Fixpoint eq_empty (v : val) : bool :=
  match v with
  | VBits [] => true
  | VChoice (Some (_, v')) => eq_empty v'
  | _ => false
  end.

(** [asn1Spec.__class__('')] (decoder.py 73). *)
Definition from_empty (t : ty) : res val :=
  match t with
  | TBits _ | TOcts _ => cast t DEmpty
  | _ => Err PyTypeError
  end.

(** decode on hexadecimal digits, with the final position. *)
Definition decode_pos (bs : list Z) (t : ty) : res (val * perbytes) :=
  let* p := per_init (hexlify bs) in
  let* r := dec t p in
  match fst r with
  | DEmpty => let* v := from_empty t in Ok (v, snd r)
  | DVal v => if eq_empty v then let* v' := from_empty t in Ok (v', snd r)
              else Ok (v, snd r)
  end.

(** decode (decoder.py 68-74). *)
Definition decode (bs : list Z) (t : ty) : res val :=
  let* r := decode_pos bs t in Ok (fst r).
