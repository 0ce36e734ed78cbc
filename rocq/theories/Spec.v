(** Specification vocabulary for the round trip: what an object says when it is
    read ([reading]), and which objects the round trip is claimed for
    ([supported]).

    Nothing here is code of the library.  Each exclusion in [supported] is a
    region where the round trip really fails; the witnesses are in the
    Refutations file. *)
From Coq Require Import ZArith List String Bool.
Import ListNotations.
From Verif Require Import PyBase Schema Encoder.
Open Scope Z_scope.

(** * Reading an object *)

(** What the user sees.  A SEQUENCE is the list of its components in
    declaration order; [None] is an absent component. *)
Inductive aval : Type :=
| AUnset
| ABool (b : bool)
| AInt (z : Z)
| AEnum (z : Z)
| ABits (s : bits)
| AOcts (bs : list Z)
| ASeq (l : list (option aval))
| ASeqOf (l : list aval)
| AChoice (sel : option (nat * aval)).

(** A function of the type attached to each component. *)
Definition att {A} (f : ty -> A) (l : list (comp ty)) : list (comp ty * A) :=
  map (fun c => (c, f (cty c))) l.

Fixpoint zipw {A B C} (f : A -> B -> C) (l : list A) (m : list B) : list C :=
  match l, m with
  | a :: l', b :: m' => f a b :: zipw f l' m'
  | _, _ => []
  end.

(** The slots of a SEQUENCE object of [n] components. *)
Definition slots_list (n : nat) (slots : option (list (option val))) : list (option val) :=
  match slots with Some l => l | None => repeat None n end.

Definition ncomps (root adds : list (comp ty)) (groups : list (list (comp ty))) : nat :=
  List.length (all_comps root adds groups).

(** A component counts as present when it isValue and is not an untouched
    SEQUENCE. *)
Definition present (t : ty) (v : val) : bool :=
  is_value t v && match v with VSeq None | VSeq (Some []) => false | _ => true end.

(** A root component is absent only when OPTIONAL and without a value; an
    addition is absent when it has no value; an addition group is absent when
    none of its components has a value, and otherwise reads like root
    components. *)
Definition read_root (ca : comp ty * (val -> aval)) (s : option val) : option aval :=
  let v := slot_get (fst ca) s in
  match cpres (fst ca) with
  | Opt => if present (cty (fst ca)) v then Some (snd ca v) else None
  | _ => Some (snd ca v)
  end.

Definition read_ext (ca : comp ty * (val -> aval)) (s : option val) : option aval :=
  let v := slot_get (fst ca) s in
  if present (cty (fst ca)) v then Some (snd ca v) else None.

Definition group_valued (g : list (comp ty)) (ss : list (option val)) : bool :=
  existsb (fun b => b) (zipw (fun c s => present (cty c) (slot_get c s)) g ss).

Definition read_group (g : list (comp ty * (val -> aval))) (ss : list (option val)) :
  list (option aval) :=
  if group_valued (map fst g) ss then zipw read_root g ss else map (fun _ => None) g.

Fixpoint read_groups (gs : list (list (comp ty * (val -> aval)))) (ss : list (option val)) :
  list (option aval) :=
  match gs with
  | [] => []
  | g :: gs' => read_group g ss ++ read_groups gs' (skipn (List.length g) ss)
  end.

Fixpoint reading (t : ty) (v : val) {struct t} : aval :=
  match t, v with
  | TSeq _ root adds groups, VSeq slots =>
      let ss := slots_list (ncomps root adds groups) slots in
      ASeq (zipw read_root (att reading root) ss
            ++ zipw read_ext (att reading adds) (skipn (List.length root) ss)
            ++ read_groups (map (att reading) groups)
                           (skipn (List.length root + List.length adds) ss))
  | TSeqOf _ t', VSeqOf vs => ASeqOf (map (reading t') vs)
  | TChoice _ root adds groups, VChoice (Some (i, v')) =>
      match nth_error (att reading root ++ att reading adds
                       ++ List.concat (map (att reading) groups)) i with
      | Some ca => AChoice (Some (i, snd ca v'))
      | None => AChoice None
      end
  | TChoice _ _ _ _, _ => AChoice None
  | _, VBool b => ABool b
  | _, VInt z => AInt z
  | _, VEnum z => AEnum z
  | _, VBits s => ABits s
  | _, VOcts bs => AOcts bs
  | _, _ => AUnset
  end.

(** * Simple types *)

(** Fits in [k] octets, as unsigned and as two's complement. *)
Definition ufits (k z : Z) : Prop := 0 <= z < 2 ^ (8 * k).
Definition sfits (k z : Z) : Prop := - 2 ^ (8 * k - 1) <= z < 2 ^ (8 * k - 1).

(** Inside the root of a constraint with two finite end points. *)
Definition inside (c : constr) (n : Z) : bool :=
  match clo c, chi c with
  | Some l, Some h => (l <=? n) && (n <=? h)
  | _, _ => false
  end.

Definition int_ok (c : constr) (z : Z) : Prop :=
  ctest c z = true /\
  match clo c, chi c with
  | Some l, Some h =>
      if inside c z then ufits 65536 (h - l) /\ (cext c = true -> l = h -> l = 0)
      else cext c = true /\ sfits 255 z
  | Some l, None => if cext c then sfits 255 z else ufits 16383 (z - l)
  | None, _ => cext c = false /\ sfits 255 z
  end.

(** Numbers are assigned 0, 1, 2 ... through the root and on through the
    additions. *)
Definition numbered (root adds : list Z) : Prop :=
  root ++ adds = map Z.of_nat (List.seq 0 (List.length (root ++ adds))).

Definition enum_ok (ext : bool) (root adds : list Z) (z : Z) : Prop :=
  numbered root adds /\ In z (root ++ adds) /\
  zlen root <= 65536 /\ (ext = false -> adds = []) /\ ufits 16383 (zlen adds).

Definition bits_ok (c : constr) (s : bits) : Prop :=
  let n := zlen s in
  ctest c n = true /\
  if cext c && negb (inside c n) then s <> [] /\ n < 16384 /\ n mod 8 = 0
  else
    match clo c, chi c with
    | _, Some 0 => cext c = false /\ s = []
    | Some l, Some h => s <> [] /\ 0 <= l <= n /\ n <= h /\ (65536 <= h -> n < 16384)
    | None, Some h => s <> [] /\ n <= h /\ 65536 <= h /\ n < 16384
    | _, None => s <> [] /\ n < 16384
    end.

(** The first octet shows its high digit, or the string is a single zero. *)
Definition digits_kept (bs : list Z) : Prop :=
  match bs with
  | [] => True
  | [b] => b = 0 \/ 16 <= b
  | b :: _ => 16 <= b
  end.

Definition octs_ok (c : constr) (bs : list Z) : Prop :=
  let n := zlen bs in
  Forall (fun b => 0 <= b < 256) bs /\ ctest c n = true /\
  if cext c && negb (inside c n) then n < 16384
  else
    match clo c, chi c with
    | _, Some 0 => cext c = false /\ bs = []
    | Some l, Some h =>
        0 <= l <= n /\ n <= h /\
        (l < h -> h - l < 65536 /\
                  match bs with
                  | [] => 256 <= h - l + 1
                  | _ => digits_kept bs
                  end)
    | None, Some _ => False
    | _, None => 1 <= n < 16384
    end.

(** The same but for the digits: what is sent, read back or not. *)
Definition octs_sent (c : constr) (bs : list Z) : Prop :=
  let n := zlen bs in
  Forall (fun b => 0 <= b < 256) bs /\ ctest c n = true /\
  if cext c && negb (inside c n) then n < 16384
  else
    match clo c, chi c with
    | _, Some 0 => True
    | Some l, Some h => 0 <= l <= n /\ n <= h
    | None, Some _ => False
    | _, None => 1 <= n < 16384
    end.

(** Number of elements of a SEQUENCE OF. *)
Definition count_ok (c : constr) (n : Z) : Prop :=
  if cext c then
    if inside c n then
      match clo c, chi c with
      | Some l, Some h => h - l < 65536 /\ (l = h -> l = 0)
      | _, _ => False
      end
    else n < 16384
  else
    match clo c, chi c with
    | Some l, Some h => 0 <= l <= n /\ n <= h /\ h - l < 65536 /\ (l = h -> h < 65536)
    | Some l, None => l <= n < 16384
    | None, _ => False
    end.

(** * Constructed types *)

(** The object carries something that is visible on the wire: needed of a
    component whose presence is optional, since the library judges presence by
    the content. *)
Definition cont_add (ca : comp ty * (val -> Prop)) (s : option val) : Prop :=
  let v := slot_get (fst ca) s in present (cty (fst ca)) v = true /\ snd ca v.

Definition cont_root (ca : comp ty * (val -> Prop)) (s : option val) : Prop :=
  cont_add ca s /\
  match cpres (fst ca) with Dflt d => slot_get (fst ca) s <> d | _ => True end.

Definition some_of (l : list Prop) : Prop := exists p, In p l /\ p.
Definition all_of (l : list Prop) : Prop := forall p, In p l -> p.

Fixpoint contentful (t : ty) (v : val) {struct t} : Prop :=
  match t, v with
  | TSeq _ root adds groups, VSeq slots =>
      let ss := slots_list (ncomps root adds groups) slots in
      some_of (zipw cont_root (att contentful root) ss
               ++ zipw cont_add (att contentful adds) (skipn (List.length root) ss)
               ++ zipw cont_root (List.concat (map (att contentful) groups))
                       (skipn (List.length root + List.length adds) ss))
  | TSeqOf _ t', VSeqOf vs => vs <> [] /\ all_of (map (contentful t') vs)
  | TChoice _ root adds groups, VChoice (Some (i, v')) =>
      match nth_error (att contentful root ++ att contentful adds
                       ++ List.concat (map (att contentful) groups)) i with
      | Some ca => snd ca v'
      | None => False
      end
  | _, VBool _ | _, VInt _ | _, VEnum _ | _, VBits _ | _, VOcts _ => True
  | _, _ => False
  end.

(** The encoding of an extension addition fits an unfragmented open type. *)
Definition open_small (t : ty) (v : val) : Prop :=
  forall bs, encode t v = Ok bs -> zlen bs < 16384.

(** An explicit value equal to the DEFAULT, or distinguishable from it (two BIT
    STRINGs are compared by the number they spell). *)
Definition default_ok (d v : val) : Prop :=
  v = d \/ (v <> d /\ forall a b, d = VBits a -> v = VBits b -> bval a <> bval b).

Definition supp_root (ca : comp ty * (val -> Prop)) (s : option val) : Prop :=
  let c := fst ca in
  let v := slot_get c s in
  match cpres c with
  | Mand => snd ca v
  | Opt => present (cty c) v = true -> contentful (cty c) v /\ snd ca v
  | Dflt d => default_ok d v /\ (v <> d -> snd ca v)
  end.

Definition supp_add (ca : comp ty * (val -> Prop)) (s : option val) : Prop :=
  let c := fst ca in
  let v := slot_get c s in
  (is_defaulted c = true -> present (cty c) v = true) /\
  (present (cty c) v = true -> contentful (cty c) v /\ snd ca v /\ open_small (cty c) v).

(** An addition group is sent when one of its components has a value. *)
Definition supp_group (g : list (comp ty * (val -> Prop))) (ss : list (option val)) : Prop :=
  let cs := map fst g in
  all_of (zipw (fun c s => is_defaulted c = true -> present (cty c) (slot_get c s) = true) cs ss) /\
  (group_valued cs ss = true ->
   all_of (zipw supp_root g ss) /\
   all_of (zipw (fun c s => present (cty c) (slot_get c s) = true ->
                            contentful (cty c) (slot_get c s)) cs ss) /\
   open_small (TSeq false cs [] []) (VSeq (Some (firstn (List.length cs) ss)))).

Fixpoint supp_groups (gs : list (list (comp ty * (val -> Prop)))) (ss : list (option val)) : Prop :=
  match gs with
  | [] => True
  | g :: gs' => supp_group g ss /\ supp_groups gs' (skipn (List.length g) ss)
  end.

(** [k] is what is asked of OCTET STRINGs. *)
Fixpoint supported_by (k : constr -> list Z -> Prop) (t : ty) (v : val) {struct t} : Prop :=
  match t, v with
  | TBool, VBool _ => True
  | TInt c, VInt z => int_ok c z
  | TEnum ext root adds, VEnum z => enum_ok ext root adds z
  | TBits c, VBits s => bits_ok c s
  | TOcts c, VOcts bs => k c bs
  | TSeq ext root adds groups, VSeq slots =>
      let ss := slots_list (ncomps root adds groups) slots in
      NoDup (map cname (all_comps root adds groups)) /\
      List.length ss = ncomps root adds groups /\
      (ext = false -> adds = [] /\ groups = []) /\
      all_of (zipw supp_root (att (supported_by k) root) ss) /\
      all_of (zipw supp_add (att (supported_by k) adds) (skipn (List.length root) ss)) /\
      supp_groups (map (att (supported_by k)) groups)
                  (skipn (List.length root + List.length adds) ss)
  | TSeqOf c t', VSeqOf vs =>
      count_ok c (zlen vs) /\ all_of (map (supported_by k t') vs)
  | TChoice ext root adds groups, VChoice (Some (i, v')) =>
      NoDup (map cname (all_comps root adds groups)) /\
      (ext = false -> adds = [] /\ groups = []) /\
      ufits 65536 (zlen (all_comps root adds groups)) /\
      match nth_error (att (supported_by k) root ++ att (supported_by k) adds
                       ++ List.concat (map (att (supported_by k)) groups)) i with
      | Some ca =>
          snd ca v' /\
          ((List.length root <= i)%nat -> ufits 16383 (Z.of_nat i) /\ open_small (cty (fst ca)) v')
      | None => False
      end
  | _, _ => False
  end.

Notation supported := (supported_by octs_ok).

(** A CHOICE (of CHOICEs) around an empty BIT STRING cannot be the outermost
    type. *)
Fixpoint empty_inside (v : val) : bool :=
  match v with
  | VBits [] => true
  | VChoice (Some (_, v')) => empty_inside v'
  | _ => false
  end.

Definition top_ok (t : ty) (v : val) : Prop :=
  match t with TChoice _ _ _ _ => empty_inside v = false | _ => True end.
