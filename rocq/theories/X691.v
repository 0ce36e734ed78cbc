(** The aligned variant of PER as Recommendation X.691 describes it, for the
    types of the library: a relation between a type, the value of a message and
    the bits it occupies from a given bit offset on.  It is written from the
    recommendation and calls no function of the codec; clause numbers are those
    of X.691 (2015).

    Left out of the recommendation: fragmentation (16K units and more), the order
    of CHOICE alternatives by tag (23.2): alternatives are taken in textual order,
    which is what AUTOMATIC TAGS give, and the sender's option to send a DEFAULT
    component of a constructed type though it holds its default (19.5): it is not
    sent, as CANONICAL-PER asks. *)
From Coq Require Import ZArith List String Bool.
Import ListNotations.
From Verif Require Import PyBase Schema Spec Layout Constraints.
Open Scope Z_scope.

(** * Numbers and lengths *)

(** 11.2, 11.5.7.2 ...: [w] put in an octet-aligned bit-field at offset [pos]. *)
Inductive at_octet (pos : nat) (w : bits) : bits -> Prop :=
| at_octet_intro k : (k < 8)%nat -> Nat.modulo (pos + k) 8 = 0%nat ->
    at_octet pos w (repeat false k ++ w).

(** 11.5: a constrained whole number, range at most 64K. *)
Inductive whole_small (lb ub n : Z) (pos : nat) : bits -> Prop :=
| ws_one : ub - lb + 1 = 1 -> whole_small lb ub n pos []                       (* 11.5.4 *)
| ws_bits s w : 2 <= ub - lb + 1 <= 255 -> least_bits (ub - lb) w ->           (* 11.5.7.1 *)
    unsigned s w (n - lb) -> whole_small lb ub n pos s
| ws_octet s s' : ub - lb + 1 = 256 -> unsigned s 8 (n - lb) ->                (* 11.5.7.2 *)
    at_octet pos s s' -> whole_small lb ub n pos s'
| ws_two s s' : 257 <= ub - lb + 1 <= 65536 -> unsigned s 16 (n - lb) ->       (* 11.5.7.3 *)
    at_octet pos s s' -> whole_small lb ub n pos s'.

(** 11.9.3.6, 11.9.3.7: a general length. *)
Inductive general_length (n : Z) (pos : nat) : bits -> Prop :=
| gl_short s s' : n <= 127 -> unsigned s 7 n -> at_octet pos (false :: s) s' -> general_length n pos s'
| gl_long s s' : 128 <= n < 16384 -> unsigned s 14 n ->
    at_octet pos (true :: false :: s) s' -> general_length n pos s'.

(** 11.9.4.1: a length with bounds; [None] is no upper bound. *)
Definition count (lb : Z) (ub : option Z) (n : Z) (pos : nat) (w : bits) : Prop :=
  match ub with
  | Some u => if u <? 65536 then whole_small lb u n pos w else general_length n pos w
  | None => general_length n pos w
  end.

(** 11.5 and 13.2.6: any constrained whole number. *)
Inductive whole (lb ub n : Z) (pos : nat) : bits -> Prop :=
| wh_small w : ub - lb + 1 <= 65536 -> whole_small lb ub n pos w -> whole lb ub n pos w
| wh_big m k d s s' : 65536 < ub - lb + 1 ->
    least_octets (ub - lb) m -> least_octets (n - lb) k ->
    count 1 (Some (Z.of_nat m)) (Z.of_nat k) pos d ->
    unsigned s (8 * k) (n - lb) -> at_octet (pos + List.length d) s s' ->
    whole lb ub n pos (d ++ s').

(** 11.7 and 13.2.5: only a lower bound. *)
Inductive semi (lb n : Z) (pos : nat) : bits -> Prop :=
| semi_intro k d s s' : least_octets (n - lb) k -> general_length (Z.of_nat k) pos d ->
    unsigned s (8 * k) (n - lb) -> at_octet (pos + List.length d) s s' ->
    semi lb n pos (d ++ s').

(** 11.8 and 13.2.4: no lower bound; two's complement in the fewest octets. *)
Inductive unbounded (z : Z) (pos : nat) : bits -> Prop :=
| unbounded_intro k d s s' : shortest_signed s z -> List.length s = (8 * k)%nat ->
    general_length (Z.of_nat k) pos d -> at_octet (pos + List.length d) s s' ->
    unbounded z pos (d ++ s').

(** 11.6: a normally small non-negative number. *)
Inductive small_number (n : Z) (pos : nat) : bits -> Prop :=
| sn_short s : 0 <= n <= 63 -> unsigned s 6 n -> small_number n pos (false :: s)
| sn_long w : 64 <= n -> semi 0 n (pos + 1) w -> small_number n pos (true :: w).

(** 11.9.3.4: a normally small length. *)
Inductive small_length (n : Z) (pos : nat) : bits -> Prop :=
| sl_short s : 1 <= n <= 64 -> unsigned s 6 (n - 1) -> small_length n pos (false :: s)
| sl_long w : 64 < n -> general_length n (pos + 1) w -> small_length n pos (true :: w).

(** * Constraints *)

(** Values of the root of a constraint built from others. *)
Definition root_sat (c : constr) (z : Z) : Prop :=
  match c with
  | CSingle _ vs => In z vs
  | COr _ cs => some_of (map (fun c' => sat c' z) cs)
  | CAnd _ cs => all_of (map (fun c' => sat c' z) cs)
  | _ => False
  end.

(** PER-visible bounds (10.3.21 "effective" constraints): extension marker,
    least and greatest root value. *)
Inductive bounds : constr -> bool -> option Z -> option Z -> Prop :=
| b_none : bounds CNone false None None
| b_ext e : bounds (CExt e) e None None
| b_range e lo hi : bounds (CRange e lo hi) e lo hi
| b_size e lo hi : bounds (CSeqSize e lo hi) e lo hi
| b_set c e l h : (exists vs, c = CSingle e vs) \/ (exists cs, c = COr e cs \/ c = CAnd e cs) ->
    root_sat c l -> root_sat c h -> (forall z, root_sat c z -> l <= z <= h) ->
    bounds c e (Some l) (Some h).

Definition within (lo hi : option Z) (n : Z) : Prop := above lo n /\ below n hi.

(** * Simple types *)

(** 13. *)
Inductive integer (lo hi : option Z) (z : Z) (pos : nat) : bits -> Prop :=
| int_both l h w : lo = Some l -> hi = Some h -> whole l h z pos w -> integer lo hi z pos w
| int_low l w : lo = Some l -> hi = None -> semi l z pos w -> integer lo hi z pos w
| int_free w : lo = None -> unbounded z pos w -> integer lo hi z pos w.

Definition per_integer (c : constr) (z : Z) (pos : nat) (w : bits) : Prop :=
  exists e lo hi, bounds c e lo hi /\
    if e then
      (within lo hi z /\ exists w', w = false :: w' /\ integer lo hi z (pos + 1) w') \/
      (~ within lo hi z /\ exists w', w = true :: w' /\ unbounded z (pos + 1) w')
    else within lo hi z /\ integer lo hi z pos w.

(** 14: the index of an item is its rank among the root items, respectively
    among the additions. *)
Definition rank (l : list Z) (z : Z) : Z :=
  Z.of_nat (List.length (filter (fun x => x <? z) l)).

Definition per_enumerated (ext : bool) (root adds : list Z) (z : Z) (pos : nat) (w : bits) : Prop :=
  let last := Z.of_nat (List.length root) - 1 in
  if ext then
    (In z root /\ exists w', w = false :: w' /\ whole 0 last (rank root z) (pos + 1) w') \/
    (~ In z root /\ In z adds /\ exists w', w = true :: w' /\ small_number (rank adds z) (pos + 1) w')
  else In z root /\ whole 0 last (rank root z) pos w.

(** 16 and 17: [n] units (bits, octets) whose bits are [s]; a string of at most
    [short] units of fixed length is not aligned. *)
Inductive content (pos : nat) : bits -> bits -> Prop :=
| content_none : content pos [] []
| content_some s s' : s <> [] -> at_octet pos s s' -> content pos s s'.

Definition floor (lo : option Z) : Z := match lo with Some l => l | None => 0 end.

Inductive sized (short : Z) (lo hi : option Z) (n : Z) (s : bits) (pos : nat) : bits -> Prop :=
| sz_zero : hi = Some 0 -> sized short lo hi n s pos []
| sz_short k : 0 < k <= short -> lo = Some k -> hi = Some k -> sized short lo hi n s pos s
| sz_fixed k s' : short < k < 65536 -> lo = Some k -> hi = Some k -> at_octet pos s s' ->
    sized short lo hi n s pos s'
| sz_length d s' : hi <> Some 0 -> (forall k, lo = Some k -> hi = Some k -> 65536 <= k) ->
    count (floor lo) hi n pos d -> content (pos + List.length d) s s' ->
    sized short lo hi n s pos (d ++ s').

Definition per_string (short : Z) (c : constr) (n : Z) (s : bits) (pos : nat) (w : bits) : Prop :=
  exists e lo hi, bounds c e lo hi /\
    if e then
      (within lo hi n /\ exists w', w = false :: w' /\ sized short lo hi n s (pos + 1) w') \/
      (~ within lo hi n /\ exists d s', w = true :: d ++ s' /\ general_length n (pos + 1) d /\
                                        content (pos + 1 + List.length d) s s')
    else within lo hi n /\ sized short lo hi n s pos w.

(** * Constructed types *)

(** The encodings of the values of one type. *)
Definition enc_rel : Type := aval -> nat -> bits -> Prop.

(** 20: the elements one after the other. *)
Inductive elements (R : enc_rel) : list aval -> nat -> bits -> Prop :=
| el_nil pos : elements R [] pos []
| el_cons a l pos w1 w2 : R a pos w1 -> elements R l (pos + List.length w1) w2 ->
    elements R (a :: l) pos (w1 ++ w2).

(** 20.5, 20.6: the number of elements. *)
Inductive elem_count (lo hi : option Z) (n : Z) (pos : nat) : bits -> Prop :=
| ec_fixed k : k < 65536 -> lo = Some k -> hi = Some k -> elem_count lo hi n pos []
| ec_count d : (forall k, lo = Some k -> hi = Some k -> 65536 <= k) ->
    count (floor lo) hi n pos d -> elem_count lo hi n pos d.

Definition per_list (R : enc_rel) (c : constr) (l : list aval) (pos : nat) (w : bits) : Prop :=
  let n := Z.of_nat (List.length l) in
  exists e lo hi, bounds c e lo hi /\
    if e then
      (within lo hi n /\ exists d w', w = false :: d ++ w' /\ elem_count lo hi n (pos + 1) d /\
                                      elements R l (pos + 1 + List.length d) w') \/
      (~ within lo hi n /\ exists d w', w = true :: d ++ w' /\ general_length n (pos + 1) d /\
                                        elements R l (pos + 1 + List.length d) w')
    else within lo hi n /\ exists d w', w = d ++ w' /\ elem_count lo hi n pos d /\
                                        elements R l (pos + List.length d) w'.

(** 11.1: the octets of a complete encoding. *)
Inductive complete (w : bits) : list Z -> Prop :=
| complete_some k bs : w <> [] -> (k < 8)%nat -> Forall (fun b => 0 <= b < 256) bs ->
    bytes_bits bs = w ++ repeat false k -> complete w bs
| complete_none : w = [] -> complete w [0].

(** 11.2: an open type holding a value encoded as [w] on its own. *)
Inductive open_type (P : bits -> Prop) (pos : nat) : bits -> Prop :=
| open_intro w bs d : P w -> complete w bs -> general_length (Z.of_nat (List.length bs)) pos d ->
    open_type P pos (d ++ bytes_bits bs).

(** 19.2-19.6: presence bits [bm] and components [w] of a list of components;
    a DEFAULT component holding its default is not sent. *)
Inductive roots : list (comp ty * enc_rel) -> list (option aval) -> bits -> nat -> bits -> Prop :=
| r_nil pos : roots [] [] [] pos []
| r_mand c (R : enc_rel) cas a os bm pos w1 w2 : cpres c = Mand -> R a pos w1 ->
    roots cas os bm (pos + List.length w1) w2 ->
    roots ((c, R) :: cas) (Some a :: os) bm pos (w1 ++ w2)
| r_opt_absent c (R : enc_rel) cas os bm pos w2 : cpres c = Opt ->
    roots cas os bm pos w2 -> roots ((c, R) :: cas) (None :: os) (false :: bm) pos w2
| r_opt c (R : enc_rel) cas a os bm pos w1 w2 : cpres c = Opt -> R a pos w1 ->
    roots cas os bm (pos + List.length w1) w2 ->
    roots ((c, R) :: cas) (Some a :: os) (true :: bm) pos (w1 ++ w2)
| r_default c (R : enc_rel) cas d a os bm pos w2 : cpres c = Dflt d -> a = reading (cty c) d ->
    roots cas os bm pos w2 -> roots ((c, R) :: cas) (Some a :: os) (false :: bm) pos w2
| r_other c (R : enc_rel) cas d a os bm pos w1 w2 : cpres c = Dflt d -> a <> reading (cty c) d -> R a pos w1 ->
    roots cas os bm (pos + List.length w1) w2 ->
    roots ((c, R) :: cas) (Some a :: os) (true :: bm) pos (w1 ++ w2).

Definition plain_sequence (cas : list (comp ty * enc_rel)) (os : list (option aval))
    (pos : nat) (w : bits) : Prop :=
  exists bm w', w = bm ++ w' /\ roots cas os bm (pos + List.length bm) w'.

(** Nothing to send for this component. *)
Definition silent (ca : comp ty * enc_rel) (o : option aval) : Prop :=
  o = None \/ exists d, cpres (fst ca) = Dflt d /\ o = Some (reading (cty (fst ca)) d).

(** 19.7-19.9: the extension additions: for each addition or addition group a
    presence bit and an open type; a group is one open type, and is missing when
    all its components are. *)
Inductive additions : list (comp ty * enc_rel) -> list (list (comp ty * enc_rel)) ->
    list (option aval) -> bits -> nat -> bits -> Prop :=
| a_nil pos : additions [] [] [] [] pos []
| a_absent ca cas gs o os bm pos w : silent ca o ->
    additions cas gs os bm pos w -> additions (ca :: cas) gs (o :: os) (false :: bm) pos w
| a_sent ca cas gs a os bm pos w1 w2 : ~ silent ca (Some a) ->
    open_type (snd ca a 0%nat) pos w1 ->
    additions cas gs os bm (pos + List.length w1) w2 ->
    additions (ca :: cas) gs (Some a :: os) (true :: bm) pos (w1 ++ w2)
| a_group_absent g gs go os bm pos w : List.length g = List.length go ->
    Forall2 silent g go -> additions [] gs os bm pos w ->
    additions [] (g :: gs) (go ++ os) (false :: bm) pos w
| a_group_sent g gs go os bm pos w1 w2 : List.length g = List.length go ->
    ~ Forall2 silent g go -> open_type (plain_sequence g go 0%nat) pos w1 ->
    additions [] gs os bm (pos + List.length w1) w2 ->
    additions [] (g :: gs) (go ++ os) (true :: bm) pos (w1 ++ w2).

(** 19. *)
Definition per_sequence (ext : bool) (root adds : list (comp ty * enc_rel))
    (groups : list (list (comp ty * enc_rel))) (l : list (option aval)) (pos : nat) (w : bits) : Prop :=
  if ext then
    exists ro ao, l = ro ++ ao /\
      ((exists bm w', additions adds groups ao bm 0 [] /\ ~ In true bm /\
                      w = false :: w' /\ plain_sequence root ro (pos + 1) w') \/
       (exists bm w' d wa, In true bm /\ w = true :: w' ++ d ++ bm ++ wa /\
          plain_sequence root ro (pos + 1) w' /\
          small_length (Z.of_nat (List.length bm)) (pos + 1 + List.length w') d /\
          additions adds groups ao bm (pos + 1 + List.length w' + List.length d + List.length bm) wa))
  else adds = [] /\ groups = [] /\ plain_sequence root l pos w.

(** 23: the alternative number [i]. *)
Definition per_choice (ext : bool) (root adds : list enc_rel) (i : nat) (a : aval)
    (pos : nat) (w : bits) : Prop :=
  let last := Z.of_nat (List.length root) - 1 in
  (exists R x w1 w2, nth_error root i = Some R /\ w = x ++ w1 ++ w2 /\
     x = (if ext then [false] else []) /\                                   (* 23.5 *)
     whole 0 last (Z.of_nat i) (pos + List.length x) w1 /\                  (* 23.4, 23.6, 23.7 *)
     R a (pos + List.length x + List.length w1)%nat w2) \/
  (exists R w1 w2, ext = true /\ (List.length root <= i)%nat /\             (* 23.8 *)
     nth_error adds (i - List.length root) = Some R /\ w = true :: w1 ++ w2 /\
     small_number (Z.of_nat (i - List.length root)) (pos + 1) w1 /\
     open_type (R a 0%nat) (pos + 1 + List.length w1) w2).

(** Every type. *)
Fixpoint per (t : ty) (a : aval) (pos : nat) (w : bits) {struct t} : Prop :=
  match t, a with
  | TBool, ABool b => w = [b]                                                  (* 12 *)
  | TInt c, AInt z => per_integer c z pos w
  | TEnum ext root adds, AEnum z => per_enumerated ext root adds z pos w
  | TBits c, ABits s => per_string 16 c (Z.of_nat (List.length s)) s pos w
  | TOcts c, AOcts bs => Forall (fun b => 0 <= b < 256) bs /\
                         per_string 2 c (Z.of_nat (List.length bs)) (bytes_bits bs) pos w
  | TSeqOf c t', ASeqOf l => per_list (per t') c l pos w
  | TSeq ext root adds groups, ASeq l =>
      per_sequence ext (att per root) (att per adds) (map (att per) groups) l pos w
  | TChoice ext root adds groups, AChoice (Some (i, a')) =>
      per_choice ext (map (fun c => per (cty c)) root)
                 (map (fun c => per (cty c)) adds ++ List.concat (map (map (fun c => per (cty c))) groups))
                 i a' pos w
  | _, _ => False
  end.

(** The octets of the encoding of a message. *)
Definition PER (t : ty) (a : aval) (bs : list Z) : Prop := exists w, per t a 0 w /\ complete w bs.
