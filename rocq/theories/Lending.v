(** What decode does to the object given as asn1Spec.

    Decoder.v describes decode by the type of asn1Spec alone.  The code reads the
    component types off the object: decode_sequence asks it for every component
    found in the message (getComponentByName, which instantiates the component) and
    decodes with what it got; decode_choice asks it for the alternative found, which
    selects it.  Here the object is carried along.  Addition groups
    (create_new_fake_empty_sequence, decoder.py 736-762) and the elements of a
    SEQUENCE OF are decoded with objects of the class (rootComponent, componentType),
    not of the message.

    Only calls that return are described: what is left of the object after an
    exception is not.  Components are taken to be of the declared type; pyasn1 also
    accepts subtypes in an assignment, whose constraints would then be used.  What
    the objects of the class look like afterwards is not described either (their
    values are never copied, except for DEFAULT components of constructed types,
    which Schema.v describes by value). *)
From Coq Require Import ZArith List String Bool.
Import ListNotations.
From Verif Require Import PyBase Schema Encoder Decoder Spec.
Open Scope Z_scope.

Definition slots := list (option val).

(** A component present in the message: [componentType =
    sequence.getComponentByName(name)] instantiates the slot, [create_field_list]
    decodes with that object, [new_seq[name] = decoded] (decoder.py 340-343, 352-355,
    362-365). *)
Definition take_on (on : val -> D (dval * val)) (c : comp ty) (s : option val) :
    D (list assign * option val) :=
  do x <- on (slot_get c s);
  do v <- lift (cast (cty c) (fst x));
  ret ([(cname c, v)], Some (snd x)).

(** The root component loop (decoder.py 334-365), with the slots of the object for
    those components. *)
Definition on_root (on : ty -> val -> D (dval * val)) :=
  fix go (cs : list (comp ty)) (bm : bits) (ss : slots) : D (list assign * slots) :=
    match cs with
    | [] => ret ([], ss)
    | c :: cs' =>
        let s := hd None ss in
        if is_mandatory c then
          do a <- take_on (on (cty c)) c s;
          do r <- go cs' bm (tl ss);
          ret (fst a ++ fst r, snd a :: snd r)
        else
          match bm with
          | [] => fail PyIndexError
          | b :: bm' =>
              do a <- (if b then take_on (on (cty c)) c s else ret ([], s));
              do r <- go cs' bm' (tl ss);
              ret (fst a ++ fst r, snd a :: snd r)
          end
    end.

(** decoder.py 321-365. *)
Definition on_root_part (on : ty -> val -> D (dval * val)) (root : list (comp ty)) (ss : slots) :
    D (list assign * slots) :=
  let k := optional_count root in
  if Nat.eqb k 0 then on_root on root [] ss
  else if Z.of_nat k <? 65536 then
    do v <- next_bits k;
    do bm <- lift (bin_zfill v (Z.of_nat k));
    on_root on root bm ss
  else fail RaiseNotImplemented.

(** Extension additions (decoder.py 383-395). *)
Definition on_adds (on : ty -> val -> D (dval * val)) :=
  fix go (cs : list (comp ty)) (bm : bits) (ss : slots) : D (list assign * slots) :=
    match cs, bm with
    | c :: cs', b :: bm' =>
        do a <- (if (b : bool) then
                   take_on (fun x => decode_open_type_field (on (cty c) x)) c (hd None ss)
                 else ret ([], hd None ss));
        do r <- go cs' bm' (tl ss);
        ret (fst a ++ fst r, snd a :: snd r)
    | _, _ => ret ([], ss)
    end.

(** The component list is created when the first component is instantiated
    (pyasn1 setComponentByPosition). *)
Definition put_back (old : option slots) (ss : slots) : option slots :=
  match old with
  | Some _ => Some ss
  | None => if existsb (fun s => match s with Some _ => true | None => false end) ss
            then Some ss else None
  end.

(** Decoding with an object of the class. *)
Definition on_class (on : ty -> val -> D (dval * val)) (t : ty) : D dval :=
  do x <- on t (fresh t); ret (fst x).

(** What the object holds (an object of another kind is never given). *)
Definition held (s : val) : option slots := match s with VSeq old => old | _ => None end.
Definition selected (s : val) : option (nat * val) := match s with VChoice sel => sel | _ => None end.

(** decode_sequence (decoder.py 311-413). *)
Definition sequence_on (on : ty -> val -> D (dval * val)) (ext : bool)
    (root adds : list (comp ty)) (groups : list (list (comp ty))) (s : val) : D (dval * val) :=
  let ss := slots_list (ncomps root adds groups) (held s) in
  let rs := firstn (List.length root) ss in
  let ps := firstn (List.length adds) (skipn (List.length root) ss) in
  let gs := skipn (List.length root + List.length adds) ss in
  do e <- (if ext then next_bits 1 else ret 0);
  do a <- on_root_part on root rs;
  do b <- (if negb (e =? 0) then
             do n <- dec_length_normally_small;
             do v <- next_bits (Z.to_nat n);
             do bm <- lift (bin_zfill v (zlen adds + zlen groups));
             do _ <- align;
             do x <- on_adds on adds (firstn (List.length adds) bm) ps;
             do y <- dec_groups (on_class on) groups (skipn (List.length adds) bm);
             ret (fst x ++ y, snd x)
           else ret ([], ps));
  do made <- lift (assign_all (all_comps root adds groups) None (fst a ++ fst b));
  ret (DVal (VSeq made),
       match s with VSeq old => VSeq (put_back old (snd a ++ snd b ++ gs)) | _ => s end).

(** [choice.getComponentByPosition(i)]: the selected alternative if it is that one,
    else a new one. *)
Definition alternative (sel : option (nat * val)) (i : nat) (c : comp ty) : val :=
  match sel with
  | Some (j, x) => if Nat.eqb j i then x else slot_get c None
  | None => slot_get c None
  end.

(** decode_choice (decoder.py 501-583); the object ends up with the alternative of
    the message selected. *)
Definition choice_on (ext : bool)
    (root adds groups : list (comp ty * (val -> D (dval * val)))) (sel : option (nat * val)) :
    D (dval * val) :=
  let root_alt : D (dval * val) :=
    do i <- (if Nat.eqb (List.length root) 1 then ret 0
             else decode_constrained_from_field_list (Some 0) (Some (zlen root - 1)));
    do a <- pick root i;
    do d <- snd a (alternative sel (Z.to_nat i) (fst a));
    do v <- lift (cast (cty (fst a)) (fst d));
    ret (DVal (VChoice (Some (Z.to_nat i, v))), VChoice (Some (Z.to_nat i, snd d))) in
  if negb ext then root_alt
  else
    do b <- next_bits 1;
    if b =? 0 then root_alt
    else
      do i <- decode_normally_small 0;
      if isnil adds && isnil groups then fail RaiseNotImplemented
      else
        let k := (List.length root + Z.to_nat i)%nat in
        do a <- pick (adds ++ groups) i;
        do d <- decode_open_type_field (snd a (alternative sel k (fst a)));
        do v <- lift (cast (cty (fst a)) (fst d));
        ret (DVal (VChoice (Some (k, v))), VChoice (Some (k, snd d))).

(** create_field_list of each type (data/builtin/*.py) called on the object [s];
    the result and the object afterwards.  The simple types build their result with
    [self.__class__(...)] and leave the object alone. *)
Fixpoint dec_on (t : ty) (s : val) {struct t} : D (dval * val) :=
  match t with
  | TSeq ext root adds groups =>
      sequence_on dec_on ext root adds groups s
  | TSeqOf c t' =>
      do d <- decode_sequence_of (on_class dec_on t') t' c; ret (d, s)
  | TChoice ext root adds groups =>
      choice_on ext (map (fun c => (c, dec_on (cty c))) root)
                    (map (fun c => (c, dec_on (cty c))) adds)
                    (List.concat (map (map (fun c => (c, dec_on (cty c)))) groups))
                    (selected s)
  | _ => do d <- dec t; ret (d, s)
  end.

(** decode (decoder.py 68-74) with the object given as asn1Spec: the result and the
    object afterwards. *)
Definition decode_on (bs : list Z) (t : ty) (s : val) : res (val * val) :=
  let* p := per_init (hexlify bs) in
  let* r := dec_on t s p in
  match fst (fst r) with
  | DEmpty => let* v := from_empty t in Ok (v, snd (fst r))
  | DVal v => if eq_empty v then let* v' := from_empty t in Ok (v', snd (fst r))
              else Ok (v, snd (fst r))
  end.
