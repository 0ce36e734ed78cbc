(** encode with a meter: the encoder of Encoder.v, counting the calls of
    fill_field_list and of isValue, and encoding a selected extension alternative
    twice as encoder.py does. *)
From Coq Require Import ZArith List String Bool.
Import ListNotations.
From Verif Require Import PyBase Schema Encoder Spec Dict.
Open Scope Z_scope.

(** * isValue *)

(** isValue of SequenceType (classes/data/builtin/SequenceType.py 14-24) and of
    pyasn1's Sequence, SequenceOf and Choice (not in /repo, see DESIGN.md), with
    the number of objects asked, this one included.  The first loop is
    [super().isValue]: it passes over OPTIONAL and DEFAULT components and stops at
    the first mandatory one without a value; the second loop (21-23) is only run
    when the first one failed, and stops at the first component with a value. *)
Fixpoint ask (t : ty) (v : val) {struct v} : nat * bool :=
  match v with
  | VUnset => (1%nat, false)
  | VBool _ | VInt _ | VEnum _ | VBits _ | VOcts _ => (1%nat, true)
  | VSeq None => (1%nat, is_value t (VSeq None))
  | VSeq (Some slots) =>
      let m :=
        (fix mand (ss : list (option val)) (cs : list (comp ty)) {struct ss} : nat * bool :=
           match ss, cs with
           | s :: ss', c :: cs' =>
               if is_mandatory c then
                 match s with
                 | None => (0%nat, false)
                 | Some v' =>
                     let a := ask (cty c) v' in
                     if snd a then let r := mand ss' cs' in ((fst a + fst r)%nat, snd r)
                     else (fst a, false)
                 end
               else mand ss' cs'
           | [], cs => (0%nat, forallb (fun c => negb (is_mandatory c)) cs)
           | _, [] => (0%nat, true)
           end) slots (comps_of t) in
      if snd m then (S (fst m), true)
      else
        let n :=
          (fix any (ss : list (option val)) (cs : list (comp ty)) {struct ss} : nat * bool :=
             match ss, cs with
             | s :: ss', c :: cs' =>
                 match s with
                 | None => any ss' cs'
                 | Some v' =>
                     let a := ask (cty c) v' in
                     if snd a then (fst a, true)
                     else let r := any ss' cs' in ((fst a + fst r)%nat, snd r)
                 end
             | _, _ => (0%nat, false)
             end) slots (comps_of t) in
        (S (fst m + fst n)%nat, snd n)
  | VSeqOf vs =>
      let n :=
        (fix all (l : list val) : nat * bool :=
           match l with
           | [] => (0%nat, true)
           | v' :: l' =>
               let a := ask (elem_of t) v' in
               if snd a then let r := all l' in ((fst a + fst r)%nat, snd r) else (fst a, false)
           end) vs in
      (S (fst n), match vs with [] => false | _ => snd n end)
  | VChoice None => (1%nat, false)
  | VChoice (Some (i, v')) => let a := ask (comp_ty (comps_of t) i) v' in (S (fst a), snd a)
  end.

(** * Computations with a meter *)

Definition M (A : Type) : Type := (nat * res A)%type.

Definition pure {A} (r : res A) : M A := (0%nat, r).

Definition mbind {A B} (m : M A) (f : A -> M B) : M B :=
  match snd m with
  | Ok a => let r := f a in ((fst m + fst r)%nat, snd r)
  | Err e => (fst m, Err e)
  end.

Notation "'let+' x ':=' m 'in' k" := (mbind m (fun x => k))
  (at level 200, x pattern, m at level 200, k at level 200, right associativity).

(** [wf] is what a call of fill_field_list costs and [wa] what a call of isValue
    costs, so that 1, 0 counts the former and 0, 1 the latter. *)
Section Weights.
  Context (wf wa : nat).

  Definition m_ask (t : ty) (v : val) : M bool := ((wa * fst (ask t v))%nat, Ok (snd (ask t v))).

  Definition m_call {A} (m : M A) : M A := ((wf + fst m)%nat, snd m).

  (** The root component loop (encoder.py 237-263); compare Encoder.enc_root. *)
  Definition m_root (enc : ty -> val -> M (list field)) (look : string -> res val) :=
    fix go (cs : list (comp ty)) : M (bits * list field) :=
      match cs with
      | [] => pure (Ok ([], []))
      | c :: cs' =>
          let+ v := pure (look (cname c)) in
          let+ bf :=
            match cpres c with
            | Opt =>
                let+ b := m_ask (cty c) v in
                if b && comp_values_ok v
                then let+ fs := enc (cty c) v in pure (Ok ([true], fs))
                else pure (Ok ([false], []))
            | Dflt d =>
                let+ ne := pure (raw_ne d v) in
                if ne then let+ fs := enc (cty c) v in pure (Ok ([true], fs))
                else pure (Ok ([false], []))
            | Mand => let+ fs := enc (cty c) v in pure (Ok ([], fs))
            end in
          let+ r := go cs' in
          pure (Ok (fst bf ++ fst r, snd bf ++ snd r))
      end.

  (** The additions (encoder.py 279-301); compare Encoder.enc_adds. *)
  Definition m_adds (enc : ty -> val -> M (list field)) (look : string -> res val) :=
    fix go (prev : option prev_comp) (cs : list (comp ty)) : M (bits * list field) :=
      match cs with
      | [] => pure (Ok ([], []))
      | c :: cs' =>
          let+ v := pure (look (cname c)) in
          let+ b := m_ask (cty c) v in
          let+ bf :=
            if b then
              match prev_missing prev with
              | Some nm => pure (Err (MandatoryExtensionFieldNotPresent nm))
              | None =>
                  if comp_values_ok v then
                    let+ fs := enc (cty c) v in
                    let+ o := pure (encode_open_type_field fs) in pure (Ok (true, o))
                  else pure (Ok (false, []))
              end
            else pure (Ok (false, [])) in
          let+ r := go (Some (Prev (cname c) (fst bf) (is_optional c))) cs' in
          pure (Ok (fst bf :: fst r, snd bf ++ snd r))
      end.

  (** The first pass over an addition group (304-322); compare Encoder.group_scan. *)
  Definition m_scan (look : string -> res val) :=
    fix go (prev : option prev_comp) (cs : list (comp ty)) : M (list prev_comp) :=
      match cs with
      | [] => pure (Ok [])
      | c :: cs' =>
          let+ v := pure (look (cname c)) in
          let+ b := m_ask (cty c) v in
          let+ here :=
            if b then
              match prev_missing prev with
              | Some nm => pure (Err (MandatoryFieldNotPresentInExtensionGroup nm))
              | None => pure (Ok (comp_values_ok v))
              end
            else pure (Ok false) in
          let p := Prev (cname c) here (is_optional c) in
          let+ r := go (Some p) cs' in
          pure (Ok (p :: r))
      end.

  (** The addition groups (302-338); compare Encoder.enc_groups.  A group that is
      sent costs the call of fill_field_list of the fake SEQUENCE (337, 455). *)
  Definition m_groups (enc : ty -> val -> M (list field)) (look : string -> res val) :=
    fix go (prevg : option (list prev_comp)) (gs : list (list (comp ty))) :
      M (bits * list field) :=
      match gs with
      | [] => pure (Ok ([], []))
      | g :: gs' =>
          let+ ps := m_scan look None g in
          let+ bf :=
            if existsb ppresent ps then
              let+ _ :=
                pure (match prevg with
                      | None => Ok tt
                      | Some pps =>
                          if existsb (fun p => ppresent p || poptional p) pps then Ok tt
                          else match pps with
                               | [] => Err PyIndexError
                               | p :: _ => Err (MandatoryExtensionFieldNotPresent (pname p))
                               end
                      end) in
              let+ r := m_call (m_root enc look g) in
              let+ fs := pure (root_fields r) in
              let+ o := pure (encode_open_type_field fs) in
              pure (Ok (true, o))
            else pure (Ok (false, [])) in
          let+ r := go (Some ps) gs' in
          pure (Ok (fst bf :: fst r, snd bf ++ snd r))
      end.

  (** encode_sequence (234-354); compare Encoder.encode_sequence. *)
  Definition m_sequence (enc : ty -> val -> M (list field))
      (ext : bool) (root adds : list (comp ty)) (groups : list (list (comp ty)))
      (slots : option (list (option val))) : M (list field) :=
    let look := get_by_name (all_comps root adds groups) slots in
    let+ r := m_root enc look root in
    let+ rf := pure (root_fields r) in
    if ext then
      if isnil adds && isnil groups then pure (Ok (F false [false] :: rf))
      else
        let+ a := m_adds enc look None adds in
        let+ g := m_groups enc look None groups in
        let bm := fst a ++ fst g in
        if 0 <? bval bm then
          let+ det := pure (length_normally_small (zlen bm)) in
          pure (Ok (F false [true] :: rf ++ det ++ F false bm :: snd a ++ snd g))
        else pure (Ok (F false [false] :: rf))
    else pure (Ok rf).

  (** [for component in sequence_of: component.fill_field_list(...)]. *)
  Fixpoint m_list (enc : val -> M (list field)) (vs : list val) : M (list field) :=
    match vs with
    | [] => pure (Ok [])
    | v :: r => let+ a := enc v in let+ b := m_list enc r in pure (Ok (a ++ b))
    end.

  (** The alternative is looked for in the extension (encoder.py 413-433): the type
      has the marker and the root has no alternative of that name. *)
  Definition goes_out (ext : bool) (root : list (comp ty)) (name : string) : bool :=
    ext && match index_of name root with Some _ => false | None => true end.

  (** Is the name found there, so that encode_open_type_field is called (424-432)? *)
  Definition sent_out (ext : bool) (root adds : list (comp ty)) (groups : list (list (comp ty)))
      (name : string) : bool :=
    goes_out ext root name &&
    match index_of name (adds ++ List.concat groups) with Some _ => true | None => false end.

  (** fill_field_list of each type.  For a CHOICE, encode_choice fills the selected
      component (398) and, when it is an extension alternative, calls
      encode_open_type_field with the component again (432, 455): on the object as
      the first call left it.  The fields of the first call are thrown away.  (The
      index is encoded before the second call, 430-431, and cannot fail there: it
      is not negative.) *)
  Fixpoint m_enc (t : ty) (v : val) {struct t} : M (list field) :=
    m_call
      match t, v with
      | TSeq ext root adds groups, VSeq slots => m_sequence m_enc ext root adds groups slots
      | TSeqOf c t', VSeqOf vs =>
          let+ body := m_list (m_enc t') vs in pure (encode_sequence_of c (zlen vs) body)
      | TChoice ext root adds groups, VChoice sel =>
          match sel with
          | None => pure (Err PyAsn1Error)
          | Some (i, v') =>
              match nth_error (map (fun c => (c, m_enc (cty c))) root
                               ++ map (fun c => (c, m_enc (cty c))) adds
                               ++ List.concat (map (map (fun c => (c, m_enc (cty c)))) groups)) i with
              | None => pure (Err IllTyped)
              | Some (c, e) =>
                  let+ body := e v' in
                  if sent_out ext root adds groups (cname c) then
                    let+ body' := e (after_encode (cty c) v') in
                    pure (fill (encode_choice ext root adds groups (cname c) body'))
                  else pure (fill (encode_choice ext root adds groups (cname c) body))
              end
          end
      | _, _ => pure (enc t v)
      end.
End Weights.

(** encode (encoder.py 33-37) with the calls it makes. *)
Definition m_encode (wf wa : nat) (t : ty) (v : val) : M (list Z) :=
  let+ fs := m_enc wf wa t v in
  let+ h := pure (bin_to_hex (produce_complete_encoding fs)) in
  pure (unhexlify h).

(** The calls of fill_field_list, and of isValue, of one call to encode. *)
Definition fills (t : ty) (v : val) : nat := fst (m_encode 1 0 t v).
Definition asks (t : ty) (v : val) : nat := fst (m_encode 0 1 t v).
