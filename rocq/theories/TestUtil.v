(** Helpers to write test vectors: hexadecimal and binary text, and a decidable
    equality on objects. *)
From Coq Require Import ZArith List String Ascii Bool.
Import ListNotations.
From Verif Require Import PyBase Schema Encoder Decoder.
Open Scope Z_scope.

Definition hexdig (a : ascii) : Z :=
  let n := Z.of_nat (nat_of_ascii a) in
  if n <? 58 then n - 48 else if n <? 91 then n - 55 else n - 87.

Fixpoint hex2bytes (s : string) : list Z :=
  match s with
  | String a (String b r) => 16 * hexdig a + hexdig b :: hex2bytes r
  | _ => []
  end.

Fixpoint bin2bits (s : string) : bits :=
  match s with
  | EmptyString => []
  | String a r => Ascii.eqb a "1"%char :: bin2bits r
  end.

Fixpoint val_eqb (a b : val) {struct a} : bool :=
  let oeq := fun (x y : option val) =>
    match x, y with Some p, Some q => val_eqb p q | None, None => true | _, _ => false end in
  match a, b with
  | VUnset, VUnset => true
  | VBool x, VBool y => Bool.eqb x y
  | VInt x, VInt y | VEnum x, VEnum y => x =? y
  | VBits x, VBits y => if list_eq_dec Bool.bool_dec x y then true else false
  | VOcts x, VOcts y => if list_eq_dec Z.eq_dec x y then true else false
  | VSeq None, VSeq None => true
  | VSeq (Some x), VSeq (Some y) =>
      (fix go (l m : list (option val)) : bool :=
         match l, m with
         | [], [] => true
         | p :: l', q :: m' =>
             match p, q with
             | Some u, Some w => val_eqb u w
             | None, None => true
             | _, _ => false
             end && go l' m'
         | _, _ => false
         end) x y
  | VSeqOf x, VSeqOf y =>
      (fix go (l m : list val) : bool :=
         match l, m with
         | [], [] => true
         | p :: l', q :: m' => val_eqb p q && go l' m'
         | _, _ => false
         end) x y
  | VChoice None, VChoice None => true
  | VChoice (Some (i, x)), VChoice (Some (j, y)) => Nat.eqb i j && val_eqb x y
  | _, _ => false
  end.

Definition enc_ok (x : ty * val * string) : bool :=
  let '(t, v, h) := x in
  match encode t v with
  | Ok bs => if list_eq_dec Z.eq_dec bs (hex2bytes h) then true else false
  | Err _ => false
  end.

Definition dec_ok (x : ty * val * string) : bool :=
  let '(t, v, h) := x in
  match decode (hex2bytes h) t with
  | Ok v' => val_eqb v' v
  | Err _ => false
  end.

Definition bad_enc (l : list (ty * val * string)) := filter (fun x => negb (enc_ok x)) l.
Definition bad_dec (l : list (ty * val * string)) := filter (fun x => negb (dec_ok x)) l.
