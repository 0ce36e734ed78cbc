(** Python-level primitives used by the codec: results with exceptions,
    bit strings and their conversions.

    A Python bit string such as '0101' is a [list bool], most significant bit
    first.  Integers are [Z]; an octet is a [Z] in 0..255. *)

From Coq Require Import ZArith List String Bool Lia.
Import ListNotations.
Open Scope Z_scope.

(** Exceptions observable by the caller.  The first four are the classes
    declared in encoder.py 13-30.  [RaiseNotImplemented] is the statement
    [raise NotImplemented], which raises TypeError in Python 3. *)
Inductive exn : Type :=
| MandatoryExtensionFieldNotPresent (name : string)        (* encoder.py 17-18 *)
| MandatoryFieldNotPresentInExtensionGroup (name : string) (* encoder.py 21-22 *)
| SizeConstrainViolated                                    (* encoder.py 25-26 *)
| InvalidComponentIndexIntoStructuredType                  (* encoder.py 29-30 *)
| RaiseNotImplemented
| PyTypeError
| PyValueError
| PyAttributeError
| PyIndexError
| PyKeyError
| PyUnboundLocalError
| PyNameError
| PySyntaxError
| PyAsn1Error      (* pyasn1: value constraint error, operation on noValue *)
| BinSign          (* bin()/format() of a negative number: the code would go on
                      with a string that contains a sign; not modelled further *)
| IllTyped         (* an object of another type than declared: not reachable
                      through the API *)
| NotModelled      (* outside of what the model of Python describes (Exec.v) *)
| LoopFuel.        (* fuel of a modelled while loop exhausted: proved unreachable in
                      the codec; for the loop of the generator (Emit.v, [chase]) it
                      means that the loop does not end *)

Inductive res (A : Type) : Type :=
| Ok (a : A)
| Err (e : exn).
Arguments Ok {A} a.
Arguments Err {A} e.

Definition bind {A B} (x : res A) (f : A -> res B) : res B :=
  match x with Ok a => f a | Err e => Err e end.

Notation "'let*' x ':=' e 'in' k" := (bind e (fun x => k))
  (at level 200, x pattern, e at level 100, k at level 200, right associativity).

Definition bits := list bool.

(** [int(s, 2)] for a non-empty bit string. *)
Definition bval (s : bits) : Z :=
  fold_left (fun acc b => 2 * acc + Z.b2z b) s 0.

(** [int(s, 2)]: ValueError on the empty string. *)
Definition py_int2 (s : bits) : res Z :=
  match s with [] => Err PyValueError | _ => Ok (bval s) end.

(** Binary digits of a positive number, most significant first. *)
Fixpoint pos_bits (p : positive) : bits :=
  match p with
  | xH => [true]
  | xO q => pos_bits q ++ [false]
  | xI q => pos_bits q ++ [true]
  end.

(** [bin(z)[2:]] for z >= 0: '0' for zero. *)
Definition py_bin (z : Z) : res bits :=
  match z with
  | Z0 => Ok [false]
  | Zpos p => Ok (pos_bits p)
  | Zneg _ => Err BinSign
  end.

(** [s.zfill(w)] for a string of digits. *)
Definition zfill (w : nat) (s : bits) : bits :=
  repeat false (w - List.length s) ++ s.

(** ['{value:0{w}b}'.format(value=z)]. *)
Definition py_format_b (w : nat) (z : Z) : res bits :=
  let* s := py_bin z in Ok (zfill w s).

(** Hexadecimal digits, kept as numbers 0..15.  [hex(z)[2:]] for z >= 0. *)
Definition hexdigits := list Z.

Fixpoint hex_loop (fuel : nat) (z : Z) (acc : hexdigits) : hexdigits :=
  match fuel with
  | O => acc
  | S f => if z =? 0 then acc else hex_loop f (z / 16) (z mod 16 :: acc)
  end.

Definition py_hex (z : Z) : res hexdigits :=
  match z with
  | Z0 => Ok [0]
  | Zpos _ => Ok (hex_loop (S (Z.to_nat (Z.log2 z))) z [])
  | Zneg _ => Err BinSign
  end.

(** [zfill] on a string of hexadecimal digits. *)
Definition hzfill (w : nat) (s : hexdigits) : hexdigits :=
  repeat 0 (w - List.length s) ++ s.

(** [int(h, 16)]: ValueError on the empty string. *)
Definition hval (s : hexdigits) : Z := fold_left (fun acc d => 16 * acc + d) s 0.

Definition py_int16 (s : hexdigits) : res Z :=
  match s with [] => Err PyValueError | _ => Ok (hval s) end.

(** [binascii.hexlify(bytes)]: two digits per octet. *)
Fixpoint hexlify (bs : list Z) : hexdigits :=
  match bs with
  | [] => []
  | b :: r => b / 16 :: b mod 16 :: hexlify r
  end.

(** [codecs.decode(hex, 'hex_codec')]: an odd number of digits is a ValueError
    (binascii.Error). *)
Fixpoint unhexlify (h : hexdigits) : res (list Z) :=
  match h with
  | [] => Ok []
  | [_] => Err PyValueError
  | a :: b :: r => let* t := unhexlify r in Ok (16 * a + b :: t)
  end.

(** pyasn1 [OctetString.fromHexString]: pairs of digits, a trailing single
    digit is padded with a zero digit on the right. *)
Fixpoint from_hex_string (h : hexdigits) : list Z :=
  match h with
  | [] => []
  | [a] => [16 * a]
  | a :: b :: r => 16 * a + b :: from_hex_string r
  end.
