(** Constructed-type vectors copied from the project's test files (and from the
    README example), checked on the model in both directions.  These are tests
    of the model, not proofs. *)
From Coq Require Import ZArith List String Ascii Bool.
Import ListNotations.
From Verif Require Import PyBase Schema Encoder Decoder TestUtil.
Open Scope Z_scope.
Open Scope string_scope.

Definition m (n : string) (t : ty) := Comp n Mand t.
Definition o (n : string) (t : ty) := Comp n Opt t.
Definition d (n : string) (v : val) (t : ty) := Comp n (Dflt v) t.
Definition rng (a b : Z) := CRange false (Some a) (Some b).
Definition rngx (a b : Z) := CRange true (Some a) (Some b).
Definition i_ := TInt CNone.
Definition os := TOcts CNone.
Definition seq (l : list (option val)) := VSeq (Some l).
Definition vi (z : Z) := Some (VInt z).
Definition vo (s : string) := Some (VOcts (hex2bytes s)).
Definition vb (s : string) := Some (VBits (bin2bits s)).
Definition ve (z : Z) := Some (VEnum z).

(* test_per_encode_sequence.py *)
Definition two := TSeq false [m "i0" i_; m "i1" i_] [] [].
Definition two_x := TSeq true [m "i0" i_; m "i1" i_] [] [].
Definition five := [m "i0" i_; m "i1" i_; m "i2" (TInt (rngx 0 100000));
                    m "i3" (TInt (rngx 128 1000)); m "i4" (TInt (rngx 0 10))].
Definition five_t := TSeq false five [] [].
Definition five_o := TSeq false [m "i0" i_; o "i1" i_; m "i2" (TInt (rngx 0 100000));
                    o "i3" (TInt (rngx 128 1000)); m "i4" (TInt (rngx 0 10))] [] [].
Definition five_d := TSeq false [m "i0" i_; d "i1" (VInt 10) i_; m "i2" (TInt (rngx 0 100000));
                    d "i3" (VInt 300) (TInt (rngx 128 1000)); m "i4" (TInt (rngx 0 10))] [] [].
Definition five_x := TSeq true (firstn 1 five) (skipn 1 five) [].
Definition v5 := [vi 34567; vi (-845); vi 23; vi 200000; vi 5].

Definition octs7 := TSeq true
  [m "o0" os; o "o1" os; m "o2" (TOcts (CRange false (Some 2) (Some 6)));
   m "o3" os; d "o4" (VOcts [255;255;255]) os; o "o5" os; m "o6" os] [] [].
Definition octs7_n := TSeq false
  [m "o0" os; o "o1" os; m "o2" (TOcts (CRange false (Some 2) (Some 6)));
   m "o3" os; d "o4" (VOcts [255;255;255]) os; o "o5" os; m "o6" os] [] [].

Definition enums := TSeq true
  [m "e0" (TEnum true [0;1] []); o "e1" (TEnum true [0] [1;2]);
   m "e2" (TEnum false [0;1;2] []); d "e3" (VEnum 1) (TEnum true [0;1;2] [])]
  [o "e4" (TEnum true [0] [1]); m "e5" (TEnum false [0] [])] [].

Definition s_ (n : string) := m n os.
Definition groups1 := TSeq true [s_ "s0"; s_ "s1"] []
  [[s_ "s2"; s_ "s3"]; [s_ "s4"]; [s_ "s5"]; [s_ "s6"]].
Definition v7 := [vo "99"; vo "AA"; vo "BB"; vo "CC"; vo "DD"; vo "EE"; vo "FF"].

Definition groups2 := TSeq true [s_ "s0"] []
  [[s_ "s1"]; [o "s2" os; o "s3" os]; [s_ "s4"; o "s5" os; s_ "s6"]].
Definition groups3 := TSeq true [s_ "s0"] [o "s1" os; s_ "s2"]
  [[s_ "s3"; s_ "s4"; o "s5" os]; [o "s6" os]].

(* test_per_encode_mixed_schemas.py *)
Definition inner1 := TSeq false [m "i0" i_; m "i1" i_] [] [].
Definition inner2 := TSeq false [m "i2" i_; m "i3" i_] [] [].
Definition sof1 := TSeqOf (CSeqSize false (Some 1) (Some 2)) inner1.
Definition sof2 := TSeqOf (CSeqSize false (Some 1) (Some 2)) inner2.
Definition outer := TSeq false [o "sof1" sof1; o "sof2" sof2] [] [].
Definition outer1 := TSeq true [m "s0" i_] [o "sof1" sof1; o "sof2" sof2] [].
Definition outer2 := TSeq true [m "s0" i_] [] [[o "sof1" sof1; o "sof2" sof2]].
Definition x1 := Some (VSeqOf [seq [vi 10; vi 20]]).
Definition x2 := Some (VSeqOf [seq [vi 30; vi 40]]).

Definition bit_t (l h : Z) (e : bool) := TBits (CRange e (Some l) (Some h)).
Definition bs_ := TBits CNone.
Definition seqbits := TSeq true
  [m "b0" (bit_t 0 10 true); m "b1" bs_; d "b2" (VBits (bin2bits "1010101010101010")) bs_;
   o "b3" bs_; m "b4" (bit_t 5 5 false); m "b5" bs_; m "b6" (bit_t 20 1000 false); m "b7" bs_; m "b8" bs_]
  [o "b9" (bit_t 1 2 false); m "b10" (bit_t 20 20 false); m "b11" bs_] [].

(* test_per_encode_sequence_of.py *)
Definition so0 := TSeqOf (CSeqSize false (Some 0) None) i_.
Definition so25 := TSeqOf (CSeqSize false (Some 2) (Some 5)) i_.
Definition so55 := TSeqOf (CSeqSize false (Some 5) (Some 5)) i_.
Definition so02x := TSeqOf (CSeqSize true (Some 0) (Some 2)) i_.
Definition l5 := [VInt 34567; VInt (-845); VInt 23; VInt 200000; VInt 5].

(* test_per_encode_choice.py *)
Definition ch17 := TChoice true
  (map (fun n => m n i_) ["i0";"i1";"i2";"i3";"i4";"i5";"i6";"i7";"i8";"i9";"i10";"i11";"i12";"i13";"i14";"i15";"i16"])
  (map (fun n => m n i_) ["i17";"i18";"i19";"i20"]) [].
Definition chg := TChoice true [m "i0" i_; m "i1" i_] [m "i2" i_; m "i3" i_; m "i4" i_]
  [[m "i5" i_; m "i6" i_]; [m "i7" i_; m "i8" i_; m "i9" i_]].

(* parsing/asn1_python_code/SimpleProtocol.py *)
Definition port := TInt (rng 10000 65535).
Definition seqno := TInt (rng 0 65535).
Definition utc := TSeq false [m "seconds" (TInt (rng 0 4294967295)); m "useconds" (TInt (rng 0 4294967295))] [] [].
Definition start_t := TSeq false [m "sequenceNumber" seqno; m "timestamp" utc; m "srcPort" port; m "dstPort" port] [] [].
Definition alive := TSeq true [m "timestamp" utc] [] [].
Definition payload := TSeqOf (CSeqSize false (Some 1) (Some 5)) (TOcts (rng 1 4)).
Definition data := TSeq false [m "sequenceNumber" seqno; m "swRelease" (TEnum true [0;1;2] []);
   o "macroId" (TBits (rng 20 20)); m "payload" payload] [] [].
Definition simple := TChoice true [m "start" start_t; m "stop" start_t; m "alive" alive; m "data" data] [] [].
Definition ts := Some (seq [vi 1557528149; vi 12345]).
Definition mp (l : list string) := VSeqOf (map (fun s => VOcts (hex2bytes s)) l).

Definition vectors : list (ty * val * string) :=
  [ (two, seq (firstn 2 v5), "0300870702FCB3");
    (two_x, seq (firstn 2 v5), "000300870702FCB3");
    (five_t, seq v5, "0300870702FCB300178003030D4028");
    (five_x, seq v5, "800300870707E00302FCB3020017058003030D400128");
    (five_x, seq [vi 34567; vi (-845); None; None; None], "800300870707000302FCB3");
    (five_x, seq [vi 34567; None; None; None; None], "0003008707");
    (five_o, seq v5, "C00300870702FCB300178003030D4028");
    (five_o, seq [vi 34567; None; vi 23; None; vi 5], "0003008707001728");
    (five_d, seq v5, "C00300870702FCB300178003030D4028");
    (five_d, seq [vi 34567; None; vi 23; None; vi 5], "0003008707001728");
    (octs7_n, seq [vo "DEAD"; vo "BEEF"; vo "ABCD"; vo "AA"; vo "BBB0"; vo "CCCC"; vo "DDDDD0"],
       "E002DEAD02BEEF00ABCD01AA02BBB002CCCC03DDDDD0");
    (enums, seq [ve 1; ve 2; ve 1; ve 2; ve 1; ve 0], "EC0A80E001800100");
    (enums, seq [ve 1; None; ve 1; None; None; ve 0], "8A050100");
    (groups1, seq v7, "80019901AA07E00401BB01CC0201DD0201EE0201FF");
    (groups2, seq v7, "80019905C00201AA05C001BB01CC078001DD01EE01FF");
    (groups3, seq v7, "80019907E00201AA0201BB078001CC01DD01EE038001FF");
    (outer, seq [x1; None], "80010A0114");
    (outer, seq [x1; x2], "C0010A011400011E0128");
    (outer1, seq [vi (-10); x1; x2], "8001F603800500010A01140500011E0128");
    (outer1, seq [vi (-10); None; x2], "8001F602800500011E0128");
    (outer1, seq [vi (-10); None; None], "0001F6");
    (outer2, seq [vi (-10); x1; x2], "8001F6010AC0010A011400011E0128");
    (outer2, seq [vi (-10); None; x2], "8001F6010540011E0128");
    (seqbits, seq [vb "111100001111"; vb "1101111010101101"; vb "1011111011101111"; vb "1010101111001101"; vb "11111"; vb "1111111011101101"; vb "1111000011110000111100001111000011110000"; vb "1011101110111011"; vb "11001100110011001100"; vb "11"; vb "11110000111100001111"; vb "110111011101110111011101"],
       "F00CF0F010DEAD10BEEF10ABCDF810FEED0014F0F0F0F0F010BBBB14CCCCC05C0280C003F0F0F00418DDDDDD");
    (seqbits, seq [vb "111100001111"; vb "1101111010101101"; None; vb "1010101111001101"; vb "11111"; vb "1111111011101101"; vb "1111000011110000111100001111000011110000"; vb "1011101110111011"; vb "11001100110011001100"; vb "11"; vb "11110000111100001111"; vb "110111011101110111011101"],
       "B00CF0F010DEAD10ABCDF810FEED0014F0F0F0F0F010BBBB14CCCCC05C0280C003F0F0F00418DDDDDD");
    (seqbits, seq [vb "111100001111"; vb "1101111010101101"; vb "1011111011101111"; None; vb "11111"; vb "1111111011101101"; vb "1111000011110000111100001111000011110000"; vb "1011101110111011"; vb "11001100110011001100"; None; vb "11110000111100001111"; vb "110111011101110111011101"],
       "D00CF0F010DEAD10BEEFF810FEED0014F0F0F0F0F010BBBB14CCCCC04C03F0F0F00418DDDDDD");
    (groups2, seq [vo "99"; vo "AA"; None; None; vo "DD"; None; vo "FF"], "80019905400201AA050001DD01FF");
    (groups2, seq [vo "99"; vo "AA"; None; vo "CC"; None; None; None], "80019905800201AA034001CC");
    (so0, VSeqOf l5, "050300870702FCB3011703030D400105");
    (so25, VSeqOf l5, "C00300870702FCB3011703030D400105");
    (so55, VSeqOf l5, "0300870702FCB3011703030D400105");
    (so02x, VSeqOf (firstn 2 l5), "400300870702FCB3");
    (ch17, VChoice (Some (16%nat, VInt 10)), "40010A");
    (ch17, VChoice (Some (17%nat, VInt 10)), "8002010A");
    (ch17, VChoice (Some (18%nat, VInt (-10))), "810201F6");
    (chg, VChoice (Some (1%nat, VInt 10)), "40010A");
    (chg, VChoice (Some (9%nat, VInt 10)), "8702010A");
    (chg, VChoice (Some (5%nat, VInt 10)), "8302010A");
    (simple, VChoice (Some (2%nat, seq [ts])), "4C5CD5FE55403039");
    (simple, VChoice (Some (0%nat, seq [vi 10; ts; vi 65533; vi 10000])), "00000AC05CD5FE55403039D8ED0000");
    (simple, VChoice (Some (3%nat, seq [vi 55555; ve 1; vb "11110000111100001111";
         Some (mp ["DEAD"; "BEEF"; "FEED"; "AA"; "BBBBBBBB"])])),
       "70D90320F0F0F880DEAD40BEEF40FEED00AAC0BBBBBBBB");
    (simple, VChoice (Some (3%nat, seq [vi 256; ve 2; None; Some (mp ["DEADBEEF"])])), "60010043DEADBEEF")
  ].


(** Every vector encodes to the octets the project's tests expect. *)
Lemma vectors_encode : bad_enc vectors = [].
Proof. vm_compute. reflexivity. Qed.

(** Every vector decodes to the object the project's tests expect. *)
Lemma vectors_decode : bad_dec vectors = [].
Proof. vm_compute. reflexivity. Qed.

(** The refusals exercised by the project's tests. *)
Example missing_addition :
  encode five_x (seq [vi 34567; None; vi 23; None; None])
  = Err (MandatoryExtensionFieldNotPresent "i1").
Proof. vm_compute. reflexivity. Qed.

Example missing_in_group :
  encode groups1 (seq [vo "99"; vo "AA"; None; vo "CC"; None; None; None])
  = Err (MandatoryFieldNotPresentInExtensionGroup "s2").
Proof. vm_compute. reflexivity. Qed.

Example too_few : encode so25 (VSeqOf [VInt 1]) = Err SizeConstrainViolated.
Proof. vm_compute. reflexivity. Qed.

Example too_many :
  encode so25 (VSeqOf (VInt 1 :: l5)) = Err InvalidComponentIndexIntoStructuredType.
Proof. vm_compute. reflexivity. Qed.
