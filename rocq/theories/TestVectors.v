(** Test vectors of /repo/asn1PERser/test/per/{encoder,decoder} for the simple
    types, transcribed mechanically from the parametrize lists and evaluated in
    the model.  These are tests of the model, not proofs of properties. *)
From Coq Require Import ZArith List String Ascii Bool.
Import ListNotations.
From Verif Require Import PyBase Schema Encoder Decoder TestUtil.
Open Scope Z_scope.
Open Scope string_scope.

Definition simple_encode_vectors : list (ty * val * string) :=
 [(TInt CNone, VInt (0), "0100");
  (TInt CNone, VInt (1), "0101");
  (TInt CNone, VInt (8), "0108");
  (TInt CNone, VInt (15), "010F");
  (TInt CNone, VInt (16), "0110");
  (TInt CNone, VInt (64), "0140");
  (TInt CNone, VInt (127), "017F");
  (TInt CNone, VInt (128), "020080");
  (TInt CNone, VInt (129), "020081");
  (TInt CNone, VInt (4000), "020FA0");
  (TInt CNone, VInt (32767), "027FFF");
  (TInt CNone, VInt (32768), "03008000");
  (TInt CNone, VInt (8388607), "037FFFFF");
  (TInt CNone, VInt (8388608), "0400800000");
  (TInt CNone, VInt (25181807), "0401803E6F");
  (TInt CNone, VInt (-25181807), "04FE7FC191");
  (TInt CNone, VInt (-8388608), "03800000");
  (TInt CNone, VInt (-8388607), "03800001");
  (TInt CNone, VInt (-32768), "028000");
  (TInt CNone, VInt (-32767), "028001");
  (TInt CNone, VInt (-4000), "02F060");
  (TInt CNone, VInt (-129), "02FF7F");
  (TInt CNone, VInt (-128), "0180");
  (TInt CNone, VInt (-127), "0181");
  (TInt CNone, VInt (-64), "01C0");
  (TInt CNone, VInt (-16), "01F0");
  (TInt CNone, VInt (-15), "01F1");
  (TInt CNone, VInt (-8), "01F8");
  (TInt CNone, VInt (-1), "01FF");
  (TInt (CRange false (Some (-8388607)) (Some (-8388607))), VInt (-8388607), "00");
  (TInt (CRange false (Some (-1864)) (Some (-1864))), VInt (-1864), "00");
  (TInt (CRange false (Some (-56)) (Some (-56))), VInt (-56), "00");
  (TInt (CRange false (Some (-3)) (Some (-3))), VInt (-3), "00");
  (TInt (CRange false (Some (0)) (Some (0))), VInt (0), "00");
  (TInt (CRange false (Some (1)) (Some (1))), VInt (1), "00");
  (TInt (CRange false (Some (8)) (Some (8))), VInt (8), "00");
  (TInt (CRange false (Some (15)) (Some (15))), VInt (15), "00");
  (TInt (CRange false (Some (16)) (Some (16))), VInt (16), "00");
  (TInt (CRange false (Some (64)) (Some (64))), VInt (64), "00");
  (TInt (CRange false (Some (127)) (Some (127))), VInt (127), "00");
  (TInt (CRange false (Some (128)) (Some (128))), VInt (128), "00");
  (TInt (CRange false (Some (129)) (Some (129))), VInt (129), "00");
  (TInt (CRange false (Some (4000)) (Some (4000))), VInt (4000), "00");
  (TInt (CRange false (Some (32767)) (Some (32767))), VInt (32767), "00");
  (TInt (CRange false (Some (32768)) (Some (32768))), VInt (32768), "00");
  (TInt (CRange false (Some (8388607)) (Some (8388607))), VInt (8388607), "00");
  (TInt (CRange false (Some (8388608)) (Some (8388608))), VInt (8388608), "00");
  (TInt (CRange false (Some (25181807)) (Some (25181807))), VInt (25181807), "00");
  (TInt (CRange false (Some (-8388607)) (Some (-8388606))), VInt (-8388607), "00");
  (TInt (CRange false (Some (-8388607)) (Some (-8388606))), VInt (-8388606), "80");
  (TInt (CRange false (Some (-1864)) (Some (-1863))), VInt (-1864), "00");
  (TInt (CRange false (Some (-1864)) (Some (-1863))), VInt (-1863), "80");
  (TInt (CRange false (Some (-56)) (Some (-55))), VInt (-56), "00");
  (TInt (CRange false (Some (-56)) (Some (-55))), VInt (-55), "80");
  (TInt (CRange false (Some (-3)) (Some (-2))), VInt (-3), "00");
  (TInt (CRange false (Some (-3)) (Some (-2))), VInt (-2), "80");
  (TInt (CRange false (Some (-1)) (Some (0))), VInt (-1), "00");
  (TInt (CRange false (Some (-1)) (Some (0))), VInt (0), "80");
  (TInt (CRange false (Some (1)) (Some (2))), VInt (1), "00");
  (TInt (CRange false (Some (1)) (Some (2))), VInt (2), "80");
  (TInt (CRange false (Some (8)) (Some (9))), VInt (8), "00");
  (TInt (CRange false (Some (8)) (Some (9))), VInt (9), "80");
  (TInt (CRange false (Some (15)) (Some (16))), VInt (15), "00");
  (TInt (CRange false (Some (15)) (Some (16))), VInt (16), "80");
  (TInt (CRange false (Some (16)) (Some (17))), VInt (16), "00");
  (TInt (CRange false (Some (16)) (Some (17))), VInt (17), "80");
  (TInt (CRange false (Some (64)) (Some (65))), VInt (64), "00");
  (TInt (CRange false (Some (64)) (Some (65))), VInt (65), "80");
  (TInt (CRange false (Some (127)) (Some (128))), VInt (127), "00");
  (TInt (CRange false (Some (127)) (Some (128))), VInt (128), "80");
  (TInt (CRange false (Some (128)) (Some (129))), VInt (128), "00");
  (TInt (CRange false (Some (128)) (Some (129))), VInt (129), "80");
  (TInt (CRange false (Some (129)) (Some (130))), VInt (129), "00");
  (TInt (CRange false (Some (129)) (Some (130))), VInt (130), "80");
  (TInt (CRange false (Some (4000)) (Some (4001))), VInt (4000), "00");
  (TInt (CRange false (Some (4000)) (Some (4001))), VInt (4001), "80");
  (TInt (CRange false (Some (32767)) (Some (32768))), VInt (32767), "00");
  (TInt (CRange false (Some (32767)) (Some (32768))), VInt (32768), "80");
  (TInt (CRange false (Some (32768)) (Some (32769))), VInt (32768), "00");
  (TInt (CRange false (Some (32768)) (Some (32769))), VInt (32769), "80");
  (TInt (CRange false (Some (8388607)) (Some (8388608))), VInt (8388607), "00");
  (TInt (CRange false (Some (8388607)) (Some (8388608))), VInt (8388608), "80");
  (TInt (CRange false (Some (8388608)) (Some (8388609))), VInt (8388608), "00");
  (TInt (CRange false (Some (8388608)) (Some (8388609))), VInt (8388609), "80");
  (TInt (CRange false (Some (25181807)) (Some (25181808))), VInt (25181807), "00");
  (TInt (CRange false (Some (25181807)) (Some (25181808))), VInt (25181808), "80");
  (TInt (CRange false (Some (-8388610)) (Some (-8388608))), VInt (-8388610), "00");
  (TInt (CRange false (Some (-8388610)) (Some (-8388608))), VInt (-8388609), "40");
  (TInt (CRange false (Some (-8388610)) (Some (-8388608))), VInt (-8388608), "80");
  (TInt (CRange false (Some (-1)) (Some (1))), VInt (-1), "00");
  (TInt (CRange false (Some (-1)) (Some (1))), VInt (0), "40");
  (TInt (CRange false (Some (-1)) (Some (1))), VInt (1), "80");
  (TInt (CRange false (Some (25181807)) (Some (25181809))), VInt (25181807), "00");
  (TInt (CRange false (Some (25181807)) (Some (25181809))), VInt (25181808), "40");
  (TInt (CRange false (Some (25181807)) (Some (25181809))), VInt (25181809), "80");
  (TInt (CRange false (Some (-56)) (Some (-53))), VInt (-56), "00");
  (TInt (CRange false (Some (-56)) (Some (-53))), VInt (-55), "40");
  (TInt (CRange false (Some (-56)) (Some (-53))), VInt (-54), "80");
  (TInt (CRange false (Some (-56)) (Some (-53))), VInt (-53), "C0");
  (TInt (CRange false (Some (4000)) (Some (4003))), VInt (4000), "00");
  (TInt (CRange false (Some (4000)) (Some (4003))), VInt (4001), "40");
  (TInt (CRange false (Some (4000)) (Some (4003))), VInt (4002), "80");
  (TInt (CRange false (Some (4000)) (Some (4003))), VInt (4003), "C0");
  (TInt (CRange false (Some (-2)) (Some (2))), VInt (-2), "00");
  (TInt (CRange false (Some (-2)) (Some (2))), VInt (-1), "20");
  (TInt (CRange false (Some (-2)) (Some (2))), VInt (0), "40");
  (TInt (CRange false (Some (-2)) (Some (2))), VInt (1), "60");
  (TInt (CRange false (Some (-2)) (Some (2))), VInt (2), "80");
  (TInt (CRange false (Some (-2)) (Some (3))), VInt (3), "A0");
  (TInt (CRange false (Some (-2)) (Some (4))), VInt (4), "C0");
  (TInt (CRange false (Some (-2)) (Some (5))), VInt (5), "E0");
  (TInt (CRange false (Some (-100000)) (Some (-99992))), VInt (-100000), "00");
  (TInt (CRange false (Some (-100000)) (Some (-99992))), VInt (-99999), "10");
  (TInt (CRange false (Some (-100000)) (Some (-99992))), VInt (-99998), "20");
  (TInt (CRange false (Some (-100000)) (Some (-99992))), VInt (-99997), "30");
  (TInt (CRange false (Some (-100000)) (Some (-99992))), VInt (-99996), "40");
  (TInt (CRange false (Some (-100000)) (Some (-99992))), VInt (-99995), "50");
  (TInt (CRange false (Some (-100000)) (Some (-99992))), VInt (-99994), "60");
  (TInt (CRange false (Some (-100000)) (Some (-99992))), VInt (-99993), "70");
  (TInt (CRange false (Some (-100000)) (Some (-99992))), VInt (-99992), "80");
  (TInt (CRange false (Some (-100000)) (Some (-99991))), VInt (-99991), "90");
  (TInt (CRange false (Some (-100000)) (Some (-99990))), VInt (-99990), "A0");
  (TInt (CRange false (Some (-100000)) (Some (-99989))), VInt (-99989), "B0");
  (TInt (CRange false (Some (-100000)) (Some (-99988))), VInt (-99988), "C0");
  (TInt (CRange false (Some (-100000)) (Some (-99987))), VInt (-99987), "D0");
  (TInt (CRange false (Some (-100000)) (Some (-99986))), VInt (-99986), "E0");
  (TInt (CRange false (Some (-100000)) (Some (-99985))), VInt (-99985), "F0");
  (TInt (CRange false (Some (-4016)) (Some (-4000))), VInt (-4001), "78");
  (TInt (CRange false (Some (4000)) (Some (4016))), VInt (4001), "08");
  (TInt (CRange false (Some (4000)) (Some (4016))), VInt (4003), "18");
  (TInt (CRange false (Some (4000)) (Some (4016))), VInt (4005), "28");
  (TInt (CRange false (Some (4000)) (Some (4016))), VInt (4010), "50");
  (TInt (CRange false (Some (4000)) (Some (4016))), VInt (4014), "70");
  (TInt (CRange false (Some (4000)) (Some (4016))), VInt (4016), "80");
  (TInt (CRange false (Some (4000)) (Some (4017))), VInt (4017), "88");
  (TInt (CRange false (Some (4000)) (Some (4020))), VInt (4020), "A0");
  (TInt (CRange false (Some (4000)) (Some (4024))), VInt (4024), "C0");
  (TInt (CRange false (Some (4000)) (Some (4028))), VInt (4028), "E0");
  (TInt (CRange false (Some (4000)) (Some (4031))), VInt (4031), "F8");
  (TInt (CRange false (Some (-1000032)) (Some (-1000000))), VInt (-1000001), "7C");
  (TInt (CRange false (Some (1000000)) (Some (1000032))), VInt (1000001), "04");
  (TInt (CRange false (Some (1000000)) (Some (1000032))), VInt (1000005), "14");
  (TInt (CRange false (Some (1000000)) (Some (1000032))), VInt (1000009), "24");
  (TInt (CRange false (Some (1000000)) (Some (1000032))), VInt (1000016), "40");
  (TInt (CRange false (Some (1000000)) (Some (1000032))), VInt (1000022), "58");
  (TInt (CRange false (Some (1000000)) (Some (1000032))), VInt (1000023), "5C");
  (TInt (CRange false (Some (1000000)) (Some (1000032))), VInt (1000024), "60");
  (TInt (CRange false (Some (1000000)) (Some (1000032))), VInt (1000028), "70");
  (TInt (CRange false (Some (1000000)) (Some (1000032))), VInt (1000032), "80");
  (TInt (CRange false (Some (1000000)) (Some (1000040))), VInt (1000037), "94");
  (TInt (CRange false (Some (1000000)) (Some (1000045))), VInt (1000045), "B4");
  (TInt (CRange false (Some (1000000)) (Some (1000056))), VInt (1000055), "DC");
  (TInt (CRange false (Some (1000000)) (Some (1000063))), VInt (1000063), "FC");
  (TInt (CRange false (Some (-64)) (Some (0))), VInt (-7), "72");
  (TInt (CRange false (Some (0)) (Some (64))), VInt (7), "0E");
  (TInt (CRange false (Some (0)) (Some (64))), VInt (25), "32");
  (TInt (CRange false (Some (0)) (Some (64))), VInt (44), "58");
  (TInt (CRange false (Some (0)) (Some (64))), VInt (61), "7A");
  (TInt (CRange false (Some (0)) (Some (70))), VInt (69), "8A");
  (TInt (CRange false (Some (0)) (Some (77))), VInt (77), "9A");
  (TInt (CRange false (Some (0)) (Some (85))), VInt (85), "AA");
  (TInt (CRange false (Some (0)) (Some (98))), VInt (98), "C4");
  (TInt (CRange false (Some (0)) (Some (111))), VInt (111), "DE");
  (TInt (CRange false (Some (0)) (Some (120))), VInt (119), "EE");
  (TInt (CRange false (Some (0)) (Some (127))), VInt (127), "FE");
  (TInt (CRange false (Some (-128)) (Some (0))), VInt (-7), "79");
  (TInt (CRange false (Some (0)) (Some (128))), VInt (7), "07");
  (TInt (CRange false (Some (0)) (Some (128))), VInt (25), "19");
  (TInt (CRange false (Some (0)) (Some (128))), VInt (44), "2C");
  (TInt (CRange false (Some (0)) (Some (128))), VInt (61), "3D");
  (TInt (CRange false (Some (0)) (Some (128))), VInt (69), "45");
  (TInt (CRange false (Some (0)) (Some (128))), VInt (77), "4D");
  (TInt (CRange false (Some (0)) (Some (128))), VInt (85), "55");
  (TInt (CRange false (Some (0)) (Some (128))), VInt (98), "62");
  (TInt (CRange false (Some (0)) (Some (128))), VInt (111), "6F");
  (TInt (CRange false (Some (0)) (Some (128))), VInt (119), "77");
  (TInt (CRange false (Some (0)) (Some (128))), VInt (127), "7F");
  (TInt (CRange false (Some (0)) (Some (128))), VInt (128), "80");
  (TInt (CRange false (Some (0)) (Some (140))), VInt (140), "8C");
  (TInt (CRange false (Some (0)) (Some (161))), VInt (161), "A1");
  (TInt (CRange false (Some (0)) (Some (182))), VInt (182), "B6");
  (TInt (CRange false (Some (0)) (Some (230))), VInt (230), "E6");
  (TInt (CRange false (Some (0)) (Some (253))), VInt (253), "FD");
  (TInt (CRange false (Some (0)) (Some (254))), VInt (254), "FE");
  (TInt (CRange false (Some (-255)) (Some (0))), VInt (-7), "F8");
  (TInt (CRange false (Some (0)) (Some (255))), VInt (7), "07");
  (TInt (CRange false (Some (0)) (Some (255))), VInt (25), "19");
  (TInt (CRange false (Some (0)) (Some (255))), VInt (44), "2C");
  (TInt (CRange false (Some (0)) (Some (255))), VInt (61), "3D");
  (TInt (CRange false (Some (0)) (Some (255))), VInt (69), "45");
  (TInt (CRange false (Some (0)) (Some (255))), VInt (77), "4D");
  (TInt (CRange false (Some (0)) (Some (255))), VInt (85), "55");
  (TInt (CRange false (Some (0)) (Some (255))), VInt (98), "62");
  (TInt (CRange false (Some (0)) (Some (255))), VInt (111), "6F");
  (TInt (CRange false (Some (0)) (Some (255))), VInt (119), "77");
  (TInt (CRange false (Some (0)) (Some (255))), VInt (127), "7F");
  (TInt (CRange false (Some (0)) (Some (255))), VInt (128), "80");
  (TInt (CRange false (Some (0)) (Some (255))), VInt (140), "8C");
  (TInt (CRange false (Some (0)) (Some (255))), VInt (161), "A1");
  (TInt (CRange false (Some (0)) (Some (255))), VInt (182), "B6");
  (TInt (CRange false (Some (0)) (Some (255))), VInt (230), "E6");
  (TInt (CRange false (Some (0)) (Some (255))), VInt (253), "FD");
  (TInt (CRange false (Some (0)) (Some (255))), VInt (254), "FE");
  (TInt (CRange false (Some (0)) (Some (255))), VInt (255), "FF");
  (TInt (CRange false (Some (-256)) (Some (0))), VInt (-7), "00F9");
  (TInt (CRange false (Some (0)) (Some (256))), VInt (7), "0007");
  (TInt (CRange false (Some (0)) (Some (256))), VInt (25), "0019");
  (TInt (CRange false (Some (0)) (Some (256))), VInt (44), "002C");
  (TInt (CRange false (Some (0)) (Some (256))), VInt (61), "003D");
  (TInt (CRange false (Some (0)) (Some (256))), VInt (69), "0045");
  (TInt (CRange false (Some (0)) (Some (256))), VInt (77), "004D");
  (TInt (CRange false (Some (0)) (Some (256))), VInt (85), "0055");
  (TInt (CRange false (Some (0)) (Some (256))), VInt (98), "0062");
  (TInt (CRange false (Some (0)) (Some (256))), VInt (111), "006F");
  (TInt (CRange false (Some (0)) (Some (256))), VInt (119), "0077");
  (TInt (CRange false (Some (0)) (Some (256))), VInt (127), "007F");
  (TInt (CRange false (Some (0)) (Some (256))), VInt (128), "0080");
  (TInt (CRange false (Some (0)) (Some (256))), VInt (140), "008C");
  (TInt (CRange false (Some (0)) (Some (256))), VInt (161), "00A1");
  (TInt (CRange false (Some (0)) (Some (256))), VInt (182), "00B6");
  (TInt (CRange false (Some (0)) (Some (256))), VInt (230), "00E6");
  (TInt (CRange false (Some (0)) (Some (256))), VInt (253), "00FD");
  (TInt (CRange false (Some (0)) (Some (256))), VInt (254), "00FE");
  (TInt (CRange false (Some (0)) (Some (256))), VInt (255), "00FF");
  (TInt (CRange false (Some (0)) (Some (256))), VInt (256), "0100");
  (TInt (CRange false (Some (0)) (Some (511))), VInt (511), "01FF");
  (TInt (CRange false (Some (0)) (Some (512))), VInt (512), "0200");
  (TInt (CRange false (Some (0)) (Some (1023))), VInt (1023), "03FF");
  (TInt (CRange false (Some (0)) (Some (1024))), VInt (1024), "0400");
  (TInt (CRange false (Some (0)) (Some (1024))), VInt (1024), "0400");
  (TInt (CRange false (Some (0)) (Some (8191))), VInt (8191), "1FFF");
  (TInt (CRange false (Some (0)) (Some (8192))), VInt (8192), "2000");
  (TInt (CRange false (Some (0)) (Some (32768))), VInt (32766), "7FFE");
  (TInt (CRange false (Some (0)) (Some (32768))), VInt (32767), "7FFF");
  (TInt (CRange false (Some (0)) (Some (32768))), VInt (32768), "8000");
  (TInt (CRange false (Some (0)) (Some (44321))), VInt (44321), "AD21");
  (TInt (CRange false (Some (0)) (Some (60000))), VInt (55555), "D903");
  (TInt (CRange false (Some (0)) (Some (65535))), VInt (60000), "EA60");
  (TInt (CRange false (Some (0)) (Some (65535))), VInt (65534), "FFFE");
  (TInt (CRange false (Some (0)) (Some (65535))), VInt (65535), "FFFF");
  (TInt (CRange false (Some (-1234567)) (Some (0))), VInt (-100000), "80114FE7");
  (TInt (CRange false (Some (0)) (Some (1234567))), VInt (7), "0007");
  (TInt (CRange false (Some (0)) (Some (1234567))), VInt (25), "0019");
  (TInt (CRange false (Some (0)) (Some (1234567))), VInt (44), "002C");
  (TInt (CRange false (Some (0)) (Some (1234567))), VInt (61), "003D");
  (TInt (CRange false (Some (0)) (Some (1234567))), VInt (69), "0045");
  (TInt (CRange false (Some (0)) (Some (1234567))), VInt (77), "004D");
  (TInt (CRange false (Some (0)) (Some (1234567))), VInt (85), "0055");
  (TInt (CRange false (Some (0)) (Some (1234567))), VInt (98), "0062");
  (TInt (CRange false (Some (0)) (Some (1234567))), VInt (111), "006F");
  (TInt (CRange false (Some (0)) (Some (1234567))), VInt (119), "0077");
  (TInt (CRange false (Some (0)) (Some (1234567))), VInt (127), "007F");
  (TInt (CRange false (Some (0)) (Some (1234567))), VInt (128), "0080");
  (TInt (CRange false (Some (0)) (Some (1234567))), VInt (140), "008C");
  (TInt (CRange false (Some (0)) (Some (1234567))), VInt (161), "00A1");
  (TInt (CRange false (Some (0)) (Some (1234567))), VInt (182), "00B6");
  (TInt (CRange false (Some (0)) (Some (1234567))), VInt (230), "00E6");
  (TInt (CRange false (Some (0)) (Some (1234567))), VInt (253), "00FD");
  (TInt (CRange false (Some (0)) (Some (1234567))), VInt (254), "00FE");
  (TInt (CRange false (Some (0)) (Some (1234567))), VInt (255), "00FF");
  (TInt (CRange false (Some (0)) (Some (1234567))), VInt (256), "400100");
  (TInt (CRange false (Some (0)) (Some (1234567))), VInt (511), "4001FF");
  (TInt (CRange false (Some (0)) (Some (1234567))), VInt (512), "400200");
  (TInt (CRange false (Some (0)) (Some (1234567))), VInt (1023), "4003FF");
  (TInt (CRange false (Some (0)) (Some (1234567))), VInt (1024), "400400");
  (TInt (CRange false (Some (0)) (Some (1234567))), VInt (1024), "400400");
  (TInt (CRange false (Some (0)) (Some (1234567))), VInt (8191), "401FFF");
  (TInt (CRange false (Some (0)) (Some (1234567))), VInt (8192), "402000");
  (TInt (CRange false (Some (0)) (Some (1234567))), VInt (32766), "407FFE");
  (TInt (CRange false (Some (0)) (Some (1234567))), VInt (32767), "407FFF");
  (TInt (CRange false (Some (0)) (Some (1234567))), VInt (32768), "408000");
  (TInt (CRange false (Some (0)) (Some (1234567))), VInt (44321), "40AD21");
  (TInt (CRange false (Some (0)) (Some (1234567))), VInt (55555), "40D903");
  (TInt (CRange false (Some (0)) (Some (1234567))), VInt (60000), "40EA60");
  (TInt (CRange false (Some (0)) (Some (1234567))), VInt (65534), "40FFFE");
  (TInt (CRange false (Some (0)) (Some (1234567))), VInt (65535), "40FFFF");
  (TInt (CRange false (Some (0)) (Some (1234567))), VInt (65536), "80010000");
  (TInt (CRange false (Some (0)) (Some (1234567))), VInt (100000), "800186A0");
  (TInt (CRange false (Some (256)) (Some (1234567))), VInt (256), "0000");
  (TInt (CRange false (Some (0)) (Some (4294967295))), VInt (100), "0064");
  (TInt (CRange false (Some (0)) (Some (4294967295))), VInt (255), "00FF");
  (TInt (CRange false (Some (0)) (Some (4294967295))), VInt (256), "400100");
  (TInt (CRange false (Some (0)) (Some (4294967295))), VInt (100000), "800186A0");
  (TInt (CRange false (Some (0)) (Some (4294967295))), VInt (100000000), "C005F5E100");
  (TInt (CRange false (Some (0)) (Some (4294967295))), VInt (4294967294), "C0FFFFFFFE");
  (TInt (CRange false (Some (0)) (Some (4294967295))), VInt (4294967295), "C0FFFFFFFF");
  (TInt (CRange false (Some (0)) (None)), VInt (7), "0107");
  (TInt (CRange false (Some (0)) (None)), VInt (25), "0119");
  (TInt (CRange false (Some (0)) (None)), VInt (44), "012C");
  (TInt (CRange false (Some (0)) (None)), VInt (61), "013D");
  (TInt (CRange false (Some (0)) (None)), VInt (69), "0145");
  (TInt (CRange false (Some (0)) (None)), VInt (77), "014D");
  (TInt (CRange false (Some (0)) (None)), VInt (85), "0155");
  (TInt (CRange false (Some (0)) (None)), VInt (98), "0162");
  (TInt (CRange false (Some (0)) (None)), VInt (111), "016F");
  (TInt (CRange false (Some (0)) (None)), VInt (119), "0177");
  (TInt (CRange false (Some (0)) (None)), VInt (127), "017F");
  (TInt (CRange false (Some (0)) (None)), VInt (128), "0180");
  (TInt (CRange false (Some (0)) (None)), VInt (140), "018C");
  (TInt (CRange false (Some (0)) (None)), VInt (161), "01A1");
  (TInt (CRange false (Some (0)) (None)), VInt (182), "01B6");
  (TInt (CRange false (Some (0)) (None)), VInt (230), "01E6");
  (TInt (CRange false (Some (0)) (None)), VInt (253), "01FD");
  (TInt (CRange false (Some (0)) (None)), VInt (254), "01FE");
  (TInt (CRange false (Some (0)) (None)), VInt (255), "01FF");
  (TInt (CRange false (Some (0)) (None)), VInt (256), "020100");
  (TInt (CRange false (Some (0)) (None)), VInt (511), "0201FF");
  (TInt (CRange false (Some (0)) (None)), VInt (512), "020200");
  (TInt (CRange false (Some (0)) (None)), VInt (1023), "0203FF");
  (TInt (CRange false (Some (0)) (None)), VInt (1024), "020400");
  (TInt (CRange false (Some (0)) (None)), VInt (1024), "020400");
  (TInt (CRange false (Some (0)) (None)), VInt (8191), "021FFF");
  (TInt (CRange false (Some (0)) (None)), VInt (8192), "022000");
  (TInt (CRange false (Some (0)) (None)), VInt (32766), "027FFE");
  (TInt (CRange false (Some (0)) (None)), VInt (32767), "027FFF");
  (TInt (CRange false (Some (0)) (None)), VInt (32768), "028000");
  (TInt (CRange false (Some (0)) (None)), VInt (44321), "02AD21");
  (TInt (CRange false (Some (0)) (None)), VInt (55555), "02D903");
  (TInt (CRange false (Some (0)) (None)), VInt (60000), "02EA60");
  (TInt (CRange false (Some (0)) (None)), VInt (65534), "02FFFE");
  (TInt (CRange false (Some (0)) (None)), VInt (65535), "02FFFF");
  (TInt (CRange false (Some (0)) (None)), VInt (65536), "03010000");
  (TInt (CRange false (Some (0)) (None)), VInt (100000), "030186A0");
  (TInt (CRange false (Some (256)) (None)), VInt (256), "0100");
  (TInt (CRange true (Some (0)) (Some (3))), VInt (3), "60");
  (TInt (CRange true (Some (0)) (Some (120))), VInt (3), "03");
  (TInt (CRange true (Some (0)) (Some (255))), VInt (3), "0003");
  (TInt (CRange true (Some (0)) (Some (10000))), VInt (3), "000003");
  (TInt (CRange true (Some (0)) (Some (100000))), VInt (3), "0003");
  (TInt (CRange true (Some (0)) (Some (255))), VInt (254), "00FE");
  (TInt (CRange true (Some (0)) (Some (10000))), VInt (254), "0000FE");
  (TInt (CRange true (Some (0)) (Some (100000))), VInt (254), "00FE");
  (TInt (CRange true (Some (0)) (Some (10000))), VInt (1023), "0003FF");
  (TInt (CRange true (Some (0)) (Some (100000))), VInt (1023), "2003FF");
  (TInt (CRange true (Some (0)) (Some (100000))), VInt (32766), "207FFE");
  (TInt (CRange true (Some (0)) (Some (1000000))), VInt (65535), "20FFFF");
  (TInt (CRange true (Some (0)) (Some (1000000))), VInt (100000), "400186A0");
  (TInt (CRange true (Some (0)) (Some (3))), VInt (4), "800104");
  (TInt (CRange true (Some (0)) (Some (3))), VInt (100000), "80030186A0");
  (TInt (CRange true (Some (0)) (Some (3))), VInt (-4), "8001FC");
  (TInt (CRange true (Some (0)) (Some (3))), VInt (-100000), "8003FE7960");
  (TBits CNone, VBits (bin2bits "0"), "0100");
  (TBits CNone, VBits (bin2bits "1"), "0180");
  (TBits CNone, VBits (bin2bits "01"), "0240");
  (TBits CNone, VBits (bin2bits "10"), "0280");
  (TBits CNone, VBits (bin2bits "11"), "02C0");
  (TBits CNone, VBits (bin2bits "011"), "0360");
  (TBits CNone, VBits (bin2bits "1010"), "04A0");
  (TBits CNone, VBits (bin2bits "1111"), "04F0");
  (TBits CNone, VBits (bin2bits "111111111111111"), "0FFFFE");
  (TBits CNone, VBits (bin2bits "111111111111111111111111"), "18FFFFFF");
  (TBits CNone, VBits (bin2bits "100000000000000000000001"), "18800001");
  (TBits CNone, VBits (bin2bits "000000000000000000000001"), "18000001");
  (TBits CNone, VBits (bin2bits "0000111000000000010000001111110000000000000001"), "2E0E0040FC0004");
  (TBits CNone, VBits (bin2bits "0000"), "0400");
  (TBits CNone, VBits (bin2bits "0001"), "0410");
  (TBits CNone, VBits (bin2bits "00010000"), "0810");
  (TBits CNone, VBits (bin2bits "00000001"), "0801");
  (TBits CNone, VBits (bin2bits "1010"), "04A0");
  (TBits CNone, VBits (bin2bits "00001010"), "080A");
  (TBits CNone, VBits (bin2bits "00000000000000000000101010111100110111101111"), "2C00000ABCDEF0");
  (TBits CNone, VBits (bin2bits "101010111100110111101111101010111100110111101111"), "30ABCDEFABCDEF");
  (TBits CNone, VBits (bin2bits "1010101111001101111011111010101111001101111011110000"), "34ABCDEFABCDEF00");
  (TBits CNone, VBits (bin2bits "1010101111001101111011111010101111001101111011110000000100100011010001010110011110001001"), "58ABCDEFABCDEF0123456789");
  (TBits CNone, VBits (bin2bits "1010101111001101111011111010101111001101111011110000000100100011010001010110011110001001101010111100110111101111101010111100"), "7CABCDEFABCDEF0123456789ABCDEFABC0");
  (TBits CNone, VBits (bin2bits "10101011110011011110111110101011110011011110111100000001001000110100010101100111100010011010101111001101111011111010101111000000"), "8080ABCDEFABCDEF0123456789ABCDEFABC0");
  (TBits CNone, VBits (bin2bits "10101011110011011110111110101011110011011110111100000001001000110100010101100111100010011010101111001101111011111010101111001101111011110000000100100011010001010110011110001001"), "80B0ABCDEFABCDEF0123456789ABCDEFABCDEF0123456789");
  (TBits (CRange false (Some (0)) (Some (0))), VBits (bin2bits ""), "00");
  (TBits (CRange false (Some (1)) (Some (1))), VBits (bin2bits "1"), "80");
  (TBits (CRange false (Some (1)) (Some (1))), VBits (bin2bits "0"), "00");
  (TBits (CRange false (Some (2)) (Some (2))), VBits (bin2bits "10"), "80");
  (TBits (CRange false (Some (2)) (Some (2))), VBits (bin2bits "11"), "C0");
  (TBits (CRange false (Some (4)) (Some (4))), VBits (bin2bits "1010"), "A0");
  (TBits (CRange false (Some (4)) (Some (4))), VBits (bin2bits "0101"), "50");
  (TBits (CRange false (Some (7)) (Some (7))), VBits (bin2bits "1010101"), "AA");
  (TBits (CRange false (Some (7)) (Some (7))), VBits (bin2bits "0101010"), "54");
  (TBits (CRange false (Some (15)) (Some (15))), VBits (bin2bits "110011001100110"), "CCCC");
  (TBits (CRange false (Some (15)) (Some (15))), VBits (bin2bits "001100110011001"), "3332");
  (TBits (CRange false (Some (16)) (Some (16))), VBits (bin2bits "1100110011001100"), "CCCC");
  (TBits (CRange false (Some (16)) (Some (16))), VBits (bin2bits "0011001100110011"), "3333");
  (TBits (CRange false (Some (4)) (Some (4))), VBits (bin2bits "1010"), "A0");
  (TBits (CRange false (Some (8)) (Some (8))), VBits (bin2bits "10111011"), "BB");
  (TBits (CRange false (Some (12)) (Some (12))), VBits (bin2bits "000100010001"), "1110");
  (TBits (CRange false (Some (16)) (Some (16))), VBits (bin2bits "0010001000100010"), "2222");
  (TBits (CRange false (Some (17)) (Some (17))), VBits (bin2bits "00110011001100111"), "333380");
  (TBits (CRange false (Some (18)) (Some (18))), VBits (bin2bits "001100110011001101"), "333340");
  (TBits (CRange false (Some (19)) (Some (19))), VBits (bin2bits "0011001100110011001"), "333320");
  (TBits (CRange false (Some (20)) (Some (20))), VBits (bin2bits "00110011001100110011"), "333330");
  (TBits (CRange false (Some (21)) (Some (21))), VBits (bin2bits "001100110011001100111"), "333338");
  (TBits (CRange false (Some (22)) (Some (22))), VBits (bin2bits "0011001100110011001101"), "333334");
  (TBits (CRange false (Some (23)) (Some (23))), VBits (bin2bits "00110011001100110011001"), "333332");
  (TBits (CRange false (Some (24)) (Some (24))), VBits (bin2bits "001100110011001100110011"), "333333");
  (TBits (CRange false (Some (25)) (Some (25))), VBits (bin2bits "0011001100110011001100111"), "33333380");
  (TBits (CRange false (Some (128)) (Some (128))), VBits (bin2bits "10101011110011011110111110101011110011011110111100000001001000110100010101100111100010011010101111001101111011111010101111000000"), "ABCDEFABCDEF0123456789ABCDEFABC0");
  (TBits (CRange false (Some (176)) (Some (176))), VBits (bin2bits "10101011110011011110111110101011110011011110111100000001001000110100010101100111100010011010101111001101111011111010101111001101111011110000000100100011010001010110011110001001"), "ABCDEFABCDEF0123456789ABCDEFABCDEF0123456789");
  (TBits (CRange false (Some (0)) (Some (1))), VBits (bin2bits "1"), "8080");
  (TBits (CRange false (Some (0)) (Some (15))), VBits (bin2bits "1"), "1080");
  (TBits (CRange false (Some (0)) (Some (15))), VBits (bin2bits "111000111000111"), "F0E38E");
  (TBits (CRange false (Some (14)) (Some (15))), VBits (bin2bits "111000111000111"), "80E38E");
  (TBits (CRange false (Some (0)) (Some (127))), VBits (bin2bits "111000111000111"), "1EE38E");
  (TBits (CRange false (Some (0)) (Some (1000))), VBits (bin2bits "111000111000111"), "000FE38E");
  (TBits (CRange false (Some (0)) (Some (10000))), VBits (bin2bits "111000111000111"), "000FE38E");
  (TBits (CRange false (Some (0)) (Some (65535))), VBits (bin2bits "111000111000111"), "000FE38E");
  (TBits (CRange true (Some (1)) (Some (1))), VBits (bin2bits "1"), "40");
  (TBits (CRange true (Some (1)) (Some (1))), VBits (bin2bits "0111111"), "80077E");
  (TBits (CRange true (Some (2)) (Some (2))), VBits (bin2bits "10"), "40");
  (TBits (CRange true (Some (2)) (Some (2))), VBits (bin2bits "101"), "8003A0");
  (TBits (CRange true (Some (7)) (Some (7))), VBits (bin2bits "01010101"), "800855");
  (TBits (CRange true (Some (15)) (Some (15))), VBits (bin2bits "11001100110011011"), "8011CCCD80");
  (TBits (CRange true (Some (16)) (Some (16))), VBits (bin2bits "00110011001100110001"), "8014333310");
  (TBits (CRange true (Some (25)) (Some (25))), VBits (bin2bits "0011001100110011001100111111"), "801C333333F0");
  (TBits (CRange true (Some (128)) (Some (128))), VBits (bin2bits "10101011110011011110111110101011110011011110111100000001001000110100010101100111100010011010101111001101111011111010101111000000"), "00ABCDEFABCDEF0123456789ABCDEFABC0");
  (TBits (CRange true (Some (176)) (Some (176))), VBits (bin2bits "10101011110011011110111110101011110011011110111100000001001000110100010101100111100010011010101111001101111011111010101111001101111011110000000100100011010001010110011110001001"), "00ABCDEFABCDEF0123456789ABCDEFABCDEF0123456789");
  (TBits (CRange true (Some (0)) (Some (1))), VBits (bin2bits "1"), "4080");
  (TBits (CRange true (Some (0)) (Some (15))), VBits (bin2bits "1"), "0880");
  (TBits (CRange true (Some (0)) (Some (15))), VBits (bin2bits "111100001111000"), "78F0F0");
  (TBits (CRange true (Some (0)) (Some (15))), VBits (bin2bits "0111100001111000"), "80107878");
  (TBits (CRange true (Some (0)) (Some (128))), VBits (bin2bits "10101011110011011110111110101011110011011110111100000001001000110100010101100111100010011010101111001101111011111010101111000000"), "4000ABCDEFABCDEF0123456789ABCDEFABC0");
  (TOcts CNone, VOcts (hex2bytes "80"), "0180");
  (TOcts CNone, VOcts (hex2bytes "00"), "0100");
  (TOcts CNone, VOcts (hex2bytes "40"), "0140");
  (TOcts CNone, VOcts (hex2bytes "80"), "0180");
  (TOcts CNone, VOcts (hex2bytes "f0"), "01F0");
  (TOcts CNone, VOcts (hex2bytes "f0"), "01F0");
  (TOcts CNone, VOcts (hex2bytes "f0f0"), "02F0F0");
  (TOcts CNone, VOcts (hex2bytes "0c33"), "020C33");
  (TOcts CNone, VOcts (hex2bytes "5cb35b6e395ca8"), "075CB35B6E395CA8");
  (TOcts CNone, VOcts (hex2bytes "00"), "0100");
  (TOcts CNone, VOcts (hex2bytes "10"), "0110");
  (TOcts CNone, VOcts (hex2bytes "01"), "0101");
  (TOcts CNone, VOcts (hex2bytes "10"), "0110");
  (TOcts CNone, VOcts (hex2bytes "00a0"), "0200A0");
  (TOcts CNone, VOcts (hex2bytes "aa00"), "02AA00");
  (TOcts CNone, VOcts (hex2bytes "abcdefa0"), "04ABCDEFA0");
  (TOcts CNone, VOcts (hex2bytes "0123abcdefa01230"), "080123ABCDEFA01230");
  (TOcts (CRange false (Some (0)) (Some (0))), VOcts (hex2bytes ""), "00");
  (TOcts (CRange false (Some (1)) (Some (1))), VOcts (hex2bytes "80"), "80");
  (TOcts (CRange false (Some (1)) (Some (1))), VOcts (hex2bytes "70"), "70");
  (TOcts (CRange false (Some (1)) (Some (1))), VOcts (hex2bytes "0f"), "0F");
  (TOcts (CRange false (Some (1)) (Some (1))), VOcts (hex2bytes "c0"), "C0");
  (TOcts (CRange false (Some (1)) (Some (1))), VOcts (hex2bytes "cf"), "CF");
  (TOcts (CRange false (Some (2)) (Some (2))), VOcts (hex2bytes "ff00"), "FF00");
  (TOcts (CRange false (Some (2)) (Some (2))), VOcts (hex2bytes "0f08"), "0F08");
  (TOcts (CRange false (Some (2)) (Some (2))), VOcts (hex2bytes "cccc"), "CCCC");
  (TOcts (CRange false (Some (2)) (Some (2))), VOcts (hex2bytes "abc0"), "ABC0");
  (TOcts (CRange false (Some (2)) (Some (2))), VOcts (hex2bytes "0000"), "0000");
  (TOcts (CRange false (Some (2)) (Some (2))), VOcts (hex2bytes "0000"), "0000");
  (TOcts (CRange false (Some (2)) (Some (2))), VOcts (hex2bytes "ffff"), "FFFF");
  (TOcts (CRange false (Some (3)) (Some (3))), VOcts (hex2bytes "010101"), "010101");
  (TOcts (CRange false (Some (3)) (Some (3))), VOcts (hex2bytes "abcdef"), "ABCDEF");
  (TOcts (CRange false (Some (4)) (Some (4))), VOcts (hex2bytes "7fffff00"), "7FFFFF00");
  (TOcts (CRange false (Some (4)) (Some (4))), VOcts (hex2bytes "abcdef01"), "ABCDEF01");
  (TOcts (CRange false (Some (17)) (Some (17))), VOcts (hex2bytes "11223344556677889900aabbccddeeff11"), "11223344556677889900AABBCCDDEEFF11");
  (TOcts (CRange false (Some (0)) (Some (15))), VOcts (hex2bytes ""), "00");
  (TOcts (CRange false (Some (0)) (Some (15))), VOcts (hex2bytes "a0"), "10A0");
  (TOcts (CRange false (Some (0)) (Some (15))), VOcts (hex2bytes "a0"), "10A0");
  (TOcts (CRange false (Some (0)) (Some (15))), VOcts (hex2bytes "112233445566778899001122334455"), "F0112233445566778899001122334455");
  (TOcts (CRange false (Some (0)) (Some (22))), VOcts (hex2bytes "a0"), "08A0");
  (TOcts (CRange false (Some (0)) (Some (22))), VOcts (hex2bytes "a0"), "08A0");
  (TOcts (CRange false (Some (0)) (Some (22))), VOcts (hex2bytes "112233445566778899001122334455"), "78112233445566778899001122334455");
  (TOcts (CRange false (Some (0)) (Some (22))), VOcts (hex2bytes "11223344556677889900112233445566778899001122"), "B011223344556677889900112233445566778899001122");
  (TOcts (CRange false (Some (10)) (Some (15))), VOcts (hex2bytes "112233445566778899aa"), "00112233445566778899AA");
  (TOcts (CRange false (Some (10)) (Some (15))), VOcts (hex2bytes "112233445566778899aabbccddeeff"), "A0112233445566778899AABBCCDDEEFF");
  (TOcts (CRange false (Some (10)) (Some (22))), VOcts (hex2bytes "112233445566778899aa"), "00112233445566778899AA");
  (TOcts (CRange false (Some (10)) (Some (22))), VOcts (hex2bytes "112233445566778899aabbccddeeff001122334455"), "B0112233445566778899AABBCCDDEEFF001122334455");
  (TOcts (CRange true (Some (0)) (Some (0))), VOcts (hex2bytes ""), "00");
  (TOcts (CRange true (Some (1)) (Some (1))), VOcts (hex2bytes "a0"), "5000");
  (TOcts (CRange true (Some (1)) (Some (1))), VOcts (hex2bytes "ab"), "5580");
  (TOcts (CRange true (Some (5)) (Some (5))), VOcts (hex2bytes "1122334450"), "001122334450");
  (TOcts (CRange true (Some (5)) (Some (5))), VOcts (hex2bytes "1122334455"), "001122334455");
  (TOcts (CRange true (Some (15)) (Some (15))), VOcts (hex2bytes "112233445566778899001122334455"), "00112233445566778899001122334455");
  (TOcts (CRange true (Some (22)) (Some (22))), VOcts (hex2bytes "11223344556677889900112233445566778899001122"), "0011223344556677889900112233445566778899001122");
  (TOcts (CRange true (Some (0)) (Some (2))), VOcts (hex2bytes ""), "00");
  (TOcts (CRange true (Some (0)) (Some (2))), VOcts (hex2bytes "a0"), "20A0");
  (TOcts (CRange true (Some (0)) (Some (2))), VOcts (hex2bytes "ab"), "20AB");
  (TOcts (CRange true (Some (0)) (Some (2))), VOcts (hex2bytes "abc0"), "40ABC0");
  (TOcts (CRange true (Some (0)) (Some (2))), VOcts (hex2bytes "abcd"), "40ABCD");
  (TOcts (CRange true (Some (0)) (Some (15))), VOcts (hex2bytes "a0"), "08A0");
  (TOcts (CRange true (Some (0)) (Some (15))), VOcts (hex2bytes "ab"), "08AB");
  (TOcts (CRange true (Some (0)) (Some (15))), VOcts (hex2bytes "112233445566778899"), "48112233445566778899");
  (TOcts (CRange true (Some (0)) (Some (15))), VOcts (hex2bytes "112233445566778899aabbccddeeff"), "78112233445566778899AABBCCDDEEFF");
  (TOcts (CRange true (Some (0)) (Some (0))), VOcts (hex2bytes "a0"), "8001A0");
  (TOcts (CRange true (Some (0)) (Some (0))), VOcts (hex2bytes "ab"), "8001AB");
  (TOcts (CRange true (Some (0)) (Some (0))), VOcts (hex2bytes "1122334455"), "80051122334455");
  (TOcts (CRange true (Some (2)) (Some (2))), VOcts (hex2bytes ""), "8000");
  (TOcts (CRange true (Some (2)) (Some (2))), VOcts (hex2bytes "a0"), "8001A0");
  (TOcts (CRange true (Some (2)) (Some (2))), VOcts (hex2bytes "ab"), "8001AB");
  (TOcts (CRange true (Some (2)) (Some (2))), VOcts (hex2bytes "112233"), "8003112233");
  (TOcts (CRange true (Some (2)) (Some (2))), VOcts (hex2bytes "1122334455"), "80051122334455");
  (TOcts (CRange true (Some (3)) (Some (4))), VOcts (hex2bytes ""), "8000");
  (TOcts (CRange true (Some (3)) (Some (4))), VOcts (hex2bytes "a0"), "8001A0");
  (TOcts (CRange true (Some (3)) (Some (4))), VOcts (hex2bytes "ab"), "8001AB");
  (TOcts (CRange true (Some (3)) (Some (4))), VOcts (hex2bytes "1122"), "80021122");
  (TOcts (CRange true (Some (3)) (Some (4))), VOcts (hex2bytes "1122334455"), "80051122334455");
  (TOcts (CRange true (Some (3)) (Some (4))), VOcts (hex2bytes "11223344556677"), "800711223344556677");
  (TOcts (CRange true (Some (10)) (Some (22))), VOcts (hex2bytes "112233445566778899"), "8009112233445566778899");
  (TOcts (CRange true (Some (10)) (Some (22))), VOcts (hex2bytes "1122334455667788990011223344556677889900112233"), "80171122334455667788990011223344556677889900112233")].

Definition simple_decode_vectors : list (ty * val * string) :=
 [(TInt CNone, VInt (0), "0100");
  (TInt CNone, VInt (1), "0101");
  (TInt CNone, VInt (8), "0108");
  (TInt CNone, VInt (15), "010F");
  (TInt CNone, VInt (16), "0110");
  (TInt CNone, VInt (64), "0140");
  (TInt CNone, VInt (127), "017F");
  (TInt CNone, VInt (128), "020080");
  (TInt CNone, VInt (129), "020081");
  (TInt CNone, VInt (4000), "020FA0");
  (TInt CNone, VInt (32767), "027FFF");
  (TInt CNone, VInt (32768), "03008000");
  (TInt CNone, VInt (8388607), "037FFFFF");
  (TInt CNone, VInt (8388608), "0400800000");
  (TInt CNone, VInt (25181807), "0401803E6F");
  (TInt CNone, VInt (-25181807), "04FE7FC191");
  (TInt CNone, VInt (-8388608), "03800000");
  (TInt CNone, VInt (-8388607), "03800001");
  (TInt CNone, VInt (-32768), "028000");
  (TInt CNone, VInt (-32767), "028001");
  (TInt CNone, VInt (-4000), "02F060");
  (TInt CNone, VInt (-129), "02FF7F");
  (TInt CNone, VInt (-128), "0180");
  (TInt CNone, VInt (-127), "0181");
  (TInt CNone, VInt (-64), "01C0");
  (TInt CNone, VInt (-16), "01F0");
  (TInt CNone, VInt (-15), "01F1");
  (TInt CNone, VInt (-8), "01F8");
  (TInt CNone, VInt (-1), "01FF");
  (TInt (CRange false (Some (-8388607)) (Some (-8388607))), VInt (-8388607), "00");
  (TInt (CRange false (Some (-1864)) (Some (-1864))), VInt (-1864), "00");
  (TInt (CRange false (Some (-56)) (Some (-56))), VInt (-56), "00");
  (TInt (CRange false (Some (-3)) (Some (-3))), VInt (-3), "00");
  (TInt (CRange false (Some (0)) (Some (0))), VInt (0), "00");
  (TInt (CRange false (Some (1)) (Some (1))), VInt (1), "00");
  (TInt (CRange false (Some (8)) (Some (8))), VInt (8), "00");
  (TInt (CRange false (Some (15)) (Some (15))), VInt (15), "00");
  (TInt (CRange false (Some (16)) (Some (16))), VInt (16), "00");
  (TInt (CRange false (Some (64)) (Some (64))), VInt (64), "00");
  (TInt (CRange false (Some (127)) (Some (127))), VInt (127), "00");
  (TInt (CRange false (Some (128)) (Some (128))), VInt (128), "00");
  (TInt (CRange false (Some (129)) (Some (129))), VInt (129), "00");
  (TInt (CRange false (Some (4000)) (Some (4000))), VInt (4000), "00");
  (TInt (CRange false (Some (32767)) (Some (32767))), VInt (32767), "00");
  (TInt (CRange false (Some (32768)) (Some (32768))), VInt (32768), "00");
  (TInt (CRange false (Some (8388607)) (Some (8388607))), VInt (8388607), "00");
  (TInt (CRange false (Some (8388608)) (Some (8388608))), VInt (8388608), "00");
  (TInt (CRange false (Some (25181807)) (Some (25181807))), VInt (25181807), "00");
  (TInt (CRange false (Some (-8388607)) (Some (-8388606))), VInt (-8388607), "00");
  (TInt (CRange false (Some (-8388607)) (Some (-8388606))), VInt (-8388606), "80");
  (TInt (CRange false (Some (-1864)) (Some (-1863))), VInt (-1864), "00");
  (TInt (CRange false (Some (-1864)) (Some (-1863))), VInt (-1863), "80");
  (TInt (CRange false (Some (-56)) (Some (-55))), VInt (-56), "00");
  (TInt (CRange false (Some (-56)) (Some (-55))), VInt (-55), "80");
  (TInt (CRange false (Some (-3)) (Some (-2))), VInt (-3), "00");
  (TInt (CRange false (Some (-3)) (Some (-2))), VInt (-2), "80");
  (TInt (CRange false (Some (-1)) (Some (0))), VInt (-1), "00");
  (TInt (CRange false (Some (-1)) (Some (0))), VInt (0), "80");
  (TInt (CRange false (Some (1)) (Some (2))), VInt (1), "00");
  (TInt (CRange false (Some (1)) (Some (2))), VInt (2), "80");
  (TInt (CRange false (Some (8)) (Some (9))), VInt (8), "00");
  (TInt (CRange false (Some (8)) (Some (9))), VInt (9), "80");
  (TInt (CRange false (Some (15)) (Some (16))), VInt (15), "00");
  (TInt (CRange false (Some (15)) (Some (16))), VInt (16), "80");
  (TInt (CRange false (Some (16)) (Some (17))), VInt (16), "00");
  (TInt (CRange false (Some (16)) (Some (17))), VInt (17), "80");
  (TInt (CRange false (Some (64)) (Some (65))), VInt (64), "00");
  (TInt (CRange false (Some (64)) (Some (65))), VInt (65), "80");
  (TInt (CRange false (Some (127)) (Some (128))), VInt (127), "00");
  (TInt (CRange false (Some (127)) (Some (128))), VInt (128), "80");
  (TInt (CRange false (Some (128)) (Some (129))), VInt (128), "00");
  (TInt (CRange false (Some (128)) (Some (129))), VInt (129), "80");
  (TInt (CRange false (Some (129)) (Some (130))), VInt (129), "00");
  (TInt (CRange false (Some (129)) (Some (130))), VInt (130), "80");
  (TInt (CRange false (Some (4000)) (Some (4001))), VInt (4000), "00");
  (TInt (CRange false (Some (4000)) (Some (4001))), VInt (4001), "80");
  (TInt (CRange false (Some (32767)) (Some (32768))), VInt (32767), "00");
  (TInt (CRange false (Some (32767)) (Some (32768))), VInt (32768), "80");
  (TInt (CRange false (Some (32768)) (Some (32769))), VInt (32768), "00");
  (TInt (CRange false (Some (32768)) (Some (32769))), VInt (32769), "80");
  (TInt (CRange false (Some (8388607)) (Some (8388608))), VInt (8388607), "00");
  (TInt (CRange false (Some (8388607)) (Some (8388608))), VInt (8388608), "80");
  (TInt (CRange false (Some (8388608)) (Some (8388609))), VInt (8388608), "00");
  (TInt (CRange false (Some (8388608)) (Some (8388609))), VInt (8388609), "80");
  (TInt (CRange false (Some (25181807)) (Some (25181808))), VInt (25181807), "00");
  (TInt (CRange false (Some (25181807)) (Some (25181808))), VInt (25181808), "80");
  (TInt (CRange false (Some (-8388610)) (Some (-8388608))), VInt (-8388610), "00");
  (TInt (CRange false (Some (-8388610)) (Some (-8388608))), VInt (-8388609), "40");
  (TInt (CRange false (Some (-8388610)) (Some (-8388608))), VInt (-8388608), "80");
  (TInt (CRange false (Some (-1)) (Some (1))), VInt (-1), "00");
  (TInt (CRange false (Some (-1)) (Some (1))), VInt (0), "40");
  (TInt (CRange false (Some (-1)) (Some (1))), VInt (1), "80");
  (TInt (CRange false (Some (25181807)) (Some (25181809))), VInt (25181807), "00");
  (TInt (CRange false (Some (25181807)) (Some (25181809))), VInt (25181808), "40");
  (TInt (CRange false (Some (25181807)) (Some (25181809))), VInt (25181809), "80");
  (TInt (CRange false (Some (-56)) (Some (-53))), VInt (-56), "00");
  (TInt (CRange false (Some (-56)) (Some (-53))), VInt (-55), "40");
  (TInt (CRange false (Some (-56)) (Some (-53))), VInt (-54), "80");
  (TInt (CRange false (Some (-56)) (Some (-53))), VInt (-53), "C0");
  (TInt (CRange false (Some (4000)) (Some (4003))), VInt (4000), "00");
  (TInt (CRange false (Some (4000)) (Some (4003))), VInt (4001), "40");
  (TInt (CRange false (Some (4000)) (Some (4003))), VInt (4002), "80");
  (TInt (CRange false (Some (4000)) (Some (4003))), VInt (4003), "C0");
  (TInt (CRange false (Some (-2)) (Some (2))), VInt (-2), "00");
  (TInt (CRange false (Some (-2)) (Some (2))), VInt (-1), "20");
  (TInt (CRange false (Some (-2)) (Some (2))), VInt (0), "40");
  (TInt (CRange false (Some (-2)) (Some (2))), VInt (1), "60");
  (TInt (CRange false (Some (-2)) (Some (2))), VInt (2), "80");
  (TInt (CRange false (Some (-2)) (Some (3))), VInt (3), "A0");
  (TInt (CRange false (Some (-2)) (Some (4))), VInt (4), "C0");
  (TInt (CRange false (Some (-2)) (Some (5))), VInt (5), "E0");
  (TInt (CRange false (Some (-100000)) (Some (-99992))), VInt (-100000), "00");
  (TInt (CRange false (Some (-100000)) (Some (-99992))), VInt (-99999), "10");
  (TInt (CRange false (Some (-100000)) (Some (-99992))), VInt (-99998), "20");
  (TInt (CRange false (Some (-100000)) (Some (-99992))), VInt (-99997), "30");
  (TInt (CRange false (Some (-100000)) (Some (-99992))), VInt (-99996), "40");
  (TInt (CRange false (Some (-100000)) (Some (-99992))), VInt (-99995), "50");
  (TInt (CRange false (Some (-100000)) (Some (-99992))), VInt (-99994), "60");
  (TInt (CRange false (Some (-100000)) (Some (-99992))), VInt (-99993), "70");
  (TInt (CRange false (Some (-100000)) (Some (-99992))), VInt (-99992), "80");
  (TInt (CRange false (Some (-100000)) (Some (-99991))), VInt (-99991), "90");
  (TInt (CRange false (Some (-100000)) (Some (-99990))), VInt (-99990), "A0");
  (TInt (CRange false (Some (-100000)) (Some (-99989))), VInt (-99989), "B0");
  (TInt (CRange false (Some (-100000)) (Some (-99988))), VInt (-99988), "C0");
  (TInt (CRange false (Some (-100000)) (Some (-99987))), VInt (-99987), "D0");
  (TInt (CRange false (Some (-100000)) (Some (-99986))), VInt (-99986), "E0");
  (TInt (CRange false (Some (-100000)) (Some (-99985))), VInt (-99985), "F0");
  (TInt (CRange false (Some (-4016)) (Some (-4000))), VInt (-4001), "78");
  (TInt (CRange false (Some (4000)) (Some (4016))), VInt (4001), "08");
  (TInt (CRange false (Some (4000)) (Some (4016))), VInt (4003), "18");
  (TInt (CRange false (Some (4000)) (Some (4016))), VInt (4005), "28");
  (TInt (CRange false (Some (4000)) (Some (4016))), VInt (4010), "50");
  (TInt (CRange false (Some (4000)) (Some (4016))), VInt (4014), "70");
  (TInt (CRange false (Some (4000)) (Some (4016))), VInt (4016), "80");
  (TInt (CRange false (Some (4000)) (Some (4017))), VInt (4017), "88");
  (TInt (CRange false (Some (4000)) (Some (4020))), VInt (4020), "A0");
  (TInt (CRange false (Some (4000)) (Some (4024))), VInt (4024), "C0");
  (TInt (CRange false (Some (4000)) (Some (4028))), VInt (4028), "E0");
  (TInt (CRange false (Some (4000)) (Some (4031))), VInt (4031), "F8");
  (TInt (CRange false (Some (-1000032)) (Some (-1000000))), VInt (-1000001), "7C");
  (TInt (CRange false (Some (1000000)) (Some (1000032))), VInt (1000001), "04");
  (TInt (CRange false (Some (1000000)) (Some (1000032))), VInt (1000005), "14");
  (TInt (CRange false (Some (1000000)) (Some (1000032))), VInt (1000009), "24");
  (TInt (CRange false (Some (1000000)) (Some (1000032))), VInt (1000016), "40");
  (TInt (CRange false (Some (1000000)) (Some (1000032))), VInt (1000022), "58");
  (TInt (CRange false (Some (1000000)) (Some (1000032))), VInt (1000023), "5C");
  (TInt (CRange false (Some (1000000)) (Some (1000032))), VInt (1000024), "60");
  (TInt (CRange false (Some (1000000)) (Some (1000032))), VInt (1000028), "70");
  (TInt (CRange false (Some (1000000)) (Some (1000032))), VInt (1000032), "80");
  (TInt (CRange false (Some (1000000)) (Some (1000040))), VInt (1000037), "94");
  (TInt (CRange false (Some (1000000)) (Some (1000045))), VInt (1000045), "B4");
  (TInt (CRange false (Some (1000000)) (Some (1000056))), VInt (1000055), "DC");
  (TInt (CRange false (Some (1000000)) (Some (1000063))), VInt (1000063), "FC");
  (TInt (CRange false (Some (-64)) (Some (0))), VInt (-7), "72");
  (TInt (CRange false (Some (0)) (Some (64))), VInt (7), "0E");
  (TInt (CRange false (Some (0)) (Some (64))), VInt (25), "32");
  (TInt (CRange false (Some (0)) (Some (64))), VInt (44), "58");
  (TInt (CRange false (Some (0)) (Some (64))), VInt (61), "7A");
  (TInt (CRange false (Some (0)) (Some (70))), VInt (69), "8A");
  (TInt (CRange false (Some (0)) (Some (77))), VInt (77), "9A");
  (TInt (CRange false (Some (0)) (Some (85))), VInt (85), "AA");
  (TInt (CRange false (Some (0)) (Some (98))), VInt (98), "C4");
  (TInt (CRange false (Some (0)) (Some (111))), VInt (111), "DE");
  (TInt (CRange false (Some (0)) (Some (120))), VInt (119), "EE");
  (TInt (CRange false (Some (0)) (Some (127))), VInt (127), "FE");
  (TInt (CRange false (Some (-128)) (Some (0))), VInt (-7), "79");
  (TInt (CRange false (Some (0)) (Some (128))), VInt (7), "07");
  (TInt (CRange false (Some (0)) (Some (128))), VInt (25), "19");
  (TInt (CRange false (Some (0)) (Some (128))), VInt (44), "2C");
  (TInt (CRange false (Some (0)) (Some (128))), VInt (61), "3D");
  (TInt (CRange false (Some (0)) (Some (128))), VInt (69), "45");
  (TInt (CRange false (Some (0)) (Some (128))), VInt (77), "4D");
  (TInt (CRange false (Some (0)) (Some (128))), VInt (85), "55");
  (TInt (CRange false (Some (0)) (Some (128))), VInt (98), "62");
  (TInt (CRange false (Some (0)) (Some (128))), VInt (111), "6F");
  (TInt (CRange false (Some (0)) (Some (128))), VInt (119), "77");
  (TInt (CRange false (Some (0)) (Some (128))), VInt (127), "7F");
  (TInt (CRange false (Some (0)) (Some (128))), VInt (128), "80");
  (TInt (CRange false (Some (0)) (Some (140))), VInt (140), "8C");
  (TInt (CRange false (Some (0)) (Some (161))), VInt (161), "A1");
  (TInt (CRange false (Some (0)) (Some (182))), VInt (182), "B6");
  (TInt (CRange false (Some (0)) (Some (230))), VInt (230), "E6");
  (TInt (CRange false (Some (0)) (Some (253))), VInt (253), "FD");
  (TInt (CRange false (Some (0)) (Some (254))), VInt (254), "FE");
  (TInt (CRange false (Some (-255)) (Some (0))), VInt (-7), "F8");
  (TInt (CRange false (Some (0)) (Some (255))), VInt (7), "07");
  (TInt (CRange false (Some (0)) (Some (255))), VInt (25), "19");
  (TInt (CRange false (Some (0)) (Some (255))), VInt (44), "2C");
  (TInt (CRange false (Some (0)) (Some (255))), VInt (61), "3D");
  (TInt (CRange false (Some (0)) (Some (255))), VInt (69), "45");
  (TInt (CRange false (Some (0)) (Some (255))), VInt (77), "4D");
  (TInt (CRange false (Some (0)) (Some (255))), VInt (85), "55");
  (TInt (CRange false (Some (0)) (Some (255))), VInt (98), "62");
  (TInt (CRange false (Some (0)) (Some (255))), VInt (111), "6F");
  (TInt (CRange false (Some (0)) (Some (255))), VInt (119), "77");
  (TInt (CRange false (Some (0)) (Some (255))), VInt (127), "7F");
  (TInt (CRange false (Some (0)) (Some (255))), VInt (128), "80");
  (TInt (CRange false (Some (0)) (Some (255))), VInt (140), "8C");
  (TInt (CRange false (Some (0)) (Some (255))), VInt (161), "A1");
  (TInt (CRange false (Some (0)) (Some (255))), VInt (182), "B6");
  (TInt (CRange false (Some (0)) (Some (255))), VInt (230), "E6");
  (TInt (CRange false (Some (0)) (Some (255))), VInt (253), "FD");
  (TInt (CRange false (Some (0)) (Some (255))), VInt (254), "FE");
  (TInt (CRange false (Some (0)) (Some (255))), VInt (255), "FF");
  (TInt (CRange false (Some (-256)) (Some (0))), VInt (-7), "00F9");
  (TInt (CRange false (Some (0)) (Some (256))), VInt (7), "0007");
  (TInt (CRange false (Some (0)) (Some (256))), VInt (25), "0019");
  (TInt (CRange false (Some (0)) (Some (256))), VInt (44), "002C");
  (TInt (CRange false (Some (0)) (Some (256))), VInt (61), "003D");
  (TInt (CRange false (Some (0)) (Some (256))), VInt (69), "0045");
  (TInt (CRange false (Some (0)) (Some (256))), VInt (77), "004D");
  (TInt (CRange false (Some (0)) (Some (256))), VInt (85), "0055");
  (TInt (CRange false (Some (0)) (Some (256))), VInt (98), "0062");
  (TInt (CRange false (Some (0)) (Some (256))), VInt (111), "006F");
  (TInt (CRange false (Some (0)) (Some (256))), VInt (119), "0077");
  (TInt (CRange false (Some (0)) (Some (256))), VInt (127), "007F");
  (TInt (CRange false (Some (0)) (Some (256))), VInt (128), "0080");
  (TInt (CRange false (Some (0)) (Some (256))), VInt (140), "008C");
  (TInt (CRange false (Some (0)) (Some (256))), VInt (161), "00A1");
  (TInt (CRange false (Some (0)) (Some (256))), VInt (182), "00B6");
  (TInt (CRange false (Some (0)) (Some (256))), VInt (230), "00E6");
  (TInt (CRange false (Some (0)) (Some (256))), VInt (253), "00FD");
  (TInt (CRange false (Some (0)) (Some (256))), VInt (254), "00FE");
  (TInt (CRange false (Some (0)) (Some (256))), VInt (255), "00FF");
  (TInt (CRange false (Some (0)) (Some (256))), VInt (256), "0100");
  (TInt (CRange false (Some (0)) (Some (511))), VInt (511), "01FF");
  (TInt (CRange false (Some (0)) (Some (512))), VInt (512), "0200");
  (TInt (CRange false (Some (0)) (Some (1023))), VInt (1023), "03FF");
  (TInt (CRange false (Some (0)) (Some (1024))), VInt (1024), "0400");
  (TInt (CRange false (Some (0)) (Some (1024))), VInt (1024), "0400");
  (TInt (CRange false (Some (0)) (Some (8191))), VInt (8191), "1FFF");
  (TInt (CRange false (Some (0)) (Some (8192))), VInt (8192), "2000");
  (TInt (CRange false (Some (0)) (Some (32768))), VInt (32766), "7FFE");
  (TInt (CRange false (Some (0)) (Some (32768))), VInt (32767), "7FFF");
  (TInt (CRange false (Some (0)) (Some (32768))), VInt (32768), "8000");
  (TInt (CRange false (Some (0)) (Some (44321))), VInt (44321), "AD21");
  (TInt (CRange false (Some (0)) (Some (60000))), VInt (55555), "D903");
  (TInt (CRange false (Some (0)) (Some (65535))), VInt (60000), "EA60");
  (TInt (CRange false (Some (0)) (Some (65535))), VInt (65534), "FFFE");
  (TInt (CRange false (Some (0)) (Some (65535))), VInt (65535), "FFFF");
  (TInt (CRange false (Some (-1234567)) (Some (0))), VInt (-100000), "80114FE7");
  (TInt (CRange false (Some (0)) (Some (1234567))), VInt (7), "0007");
  (TInt (CRange false (Some (0)) (Some (1234567))), VInt (25), "0019");
  (TInt (CRange false (Some (0)) (Some (1234567))), VInt (44), "002C");
  (TInt (CRange false (Some (0)) (Some (1234567))), VInt (61), "003D");
  (TInt (CRange false (Some (0)) (Some (1234567))), VInt (69), "0045");
  (TInt (CRange false (Some (0)) (Some (1234567))), VInt (77), "004D");
  (TInt (CRange false (Some (0)) (Some (1234567))), VInt (85), "0055");
  (TInt (CRange false (Some (0)) (Some (1234567))), VInt (98), "0062");
  (TInt (CRange false (Some (0)) (Some (1234567))), VInt (111), "006F");
  (TInt (CRange false (Some (0)) (Some (1234567))), VInt (119), "0077");
  (TInt (CRange false (Some (0)) (Some (1234567))), VInt (127), "007F");
  (TInt (CRange false (Some (0)) (Some (1234567))), VInt (128), "0080");
  (TInt (CRange false (Some (0)) (Some (1234567))), VInt (140), "008C");
  (TInt (CRange false (Some (0)) (Some (1234567))), VInt (161), "00A1");
  (TInt (CRange false (Some (0)) (Some (1234567))), VInt (182), "00B6");
  (TInt (CRange false (Some (0)) (Some (1234567))), VInt (230), "00E6");
  (TInt (CRange false (Some (0)) (Some (1234567))), VInt (253), "00FD");
  (TInt (CRange false (Some (0)) (Some (1234567))), VInt (254), "00FE");
  (TInt (CRange false (Some (0)) (Some (1234567))), VInt (255), "00FF");
  (TInt (CRange false (Some (0)) (Some (1234567))), VInt (256), "400100");
  (TInt (CRange false (Some (0)) (Some (1234567))), VInt (511), "4001FF");
  (TInt (CRange false (Some (0)) (Some (1234567))), VInt (512), "400200");
  (TInt (CRange false (Some (0)) (Some (1234567))), VInt (1023), "4003FF");
  (TInt (CRange false (Some (0)) (Some (1234567))), VInt (1024), "400400");
  (TInt (CRange false (Some (0)) (Some (1234567))), VInt (1024), "400400");
  (TInt (CRange false (Some (0)) (Some (1234567))), VInt (8191), "401FFF");
  (TInt (CRange false (Some (0)) (Some (1234567))), VInt (8192), "402000");
  (TInt (CRange false (Some (0)) (Some (1234567))), VInt (32766), "407FFE");
  (TInt (CRange false (Some (0)) (Some (1234567))), VInt (32767), "407FFF");
  (TInt (CRange false (Some (0)) (Some (1234567))), VInt (32768), "408000");
  (TInt (CRange false (Some (0)) (Some (1234567))), VInt (44321), "40AD21");
  (TInt (CRange false (Some (0)) (Some (1234567))), VInt (55555), "40D903");
  (TInt (CRange false (Some (0)) (Some (1234567))), VInt (60000), "40EA60");
  (TInt (CRange false (Some (0)) (Some (1234567))), VInt (65534), "40FFFE");
  (TInt (CRange false (Some (0)) (Some (1234567))), VInt (65535), "40FFFF");
  (TInt (CRange false (Some (0)) (Some (1234567))), VInt (65536), "80010000");
  (TInt (CRange false (Some (0)) (Some (1234567))), VInt (100000), "800186A0");
  (TInt (CRange false (Some (256)) (Some (1234567))), VInt (256), "0000");
  (TInt (CRange false (Some (0)) (Some (4294967295))), VInt (100), "0064");
  (TInt (CRange false (Some (0)) (Some (4294967295))), VInt (255), "00FF");
  (TInt (CRange false (Some (0)) (Some (4294967295))), VInt (256), "400100");
  (TInt (CRange false (Some (0)) (Some (4294967295))), VInt (100000), "800186A0");
  (TInt (CRange false (Some (0)) (Some (4294967295))), VInt (100000000), "C005F5E100");
  (TInt (CRange false (Some (0)) (Some (4294967295))), VInt (4294967294), "C0FFFFFFFE");
  (TInt (CRange false (Some (0)) (Some (4294967295))), VInt (4294967295), "C0FFFFFFFF");
  (TInt (CRange false (Some (0)) (None)), VInt (7), "0107");
  (TInt (CRange false (Some (0)) (None)), VInt (25), "0119");
  (TInt (CRange false (Some (0)) (None)), VInt (44), "012C");
  (TInt (CRange false (Some (0)) (None)), VInt (61), "013D");
  (TInt (CRange false (Some (0)) (None)), VInt (69), "0145");
  (TInt (CRange false (Some (0)) (None)), VInt (77), "014D");
  (TInt (CRange false (Some (0)) (None)), VInt (85), "0155");
  (TInt (CRange false (Some (0)) (None)), VInt (98), "0162");
  (TInt (CRange false (Some (0)) (None)), VInt (111), "016F");
  (TInt (CRange false (Some (0)) (None)), VInt (119), "0177");
  (TInt (CRange false (Some (0)) (None)), VInt (127), "017F");
  (TInt (CRange false (Some (0)) (None)), VInt (128), "0180");
  (TInt (CRange false (Some (0)) (None)), VInt (140), "018C");
  (TInt (CRange false (Some (0)) (None)), VInt (161), "01A1");
  (TInt (CRange false (Some (0)) (None)), VInt (182), "01B6");
  (TInt (CRange false (Some (0)) (None)), VInt (230), "01E6");
  (TInt (CRange false (Some (0)) (None)), VInt (253), "01FD");
  (TInt (CRange false (Some (0)) (None)), VInt (254), "01FE");
  (TInt (CRange false (Some (0)) (None)), VInt (255), "01FF");
  (TInt (CRange false (Some (0)) (None)), VInt (256), "020100");
  (TInt (CRange false (Some (0)) (None)), VInt (511), "0201FF");
  (TInt (CRange false (Some (0)) (None)), VInt (512), "020200");
  (TInt (CRange false (Some (0)) (None)), VInt (1023), "0203FF");
  (TInt (CRange false (Some (0)) (None)), VInt (1024), "020400");
  (TInt (CRange false (Some (0)) (None)), VInt (1024), "020400");
  (TInt (CRange false (Some (0)) (None)), VInt (8191), "021FFF");
  (TInt (CRange false (Some (0)) (None)), VInt (8192), "022000");
  (TInt (CRange false (Some (0)) (None)), VInt (32766), "027FFE");
  (TInt (CRange false (Some (0)) (None)), VInt (32767), "027FFF");
  (TInt (CRange false (Some (0)) (None)), VInt (32768), "028000");
  (TInt (CRange false (Some (0)) (None)), VInt (44321), "02AD21");
  (TInt (CRange false (Some (0)) (None)), VInt (55555), "02D903");
  (TInt (CRange false (Some (0)) (None)), VInt (60000), "02EA60");
  (TInt (CRange false (Some (0)) (None)), VInt (65534), "02FFFE");
  (TInt (CRange false (Some (0)) (None)), VInt (65535), "02FFFF");
  (TInt (CRange false (Some (0)) (None)), VInt (65536), "03010000");
  (TInt (CRange false (Some (0)) (None)), VInt (100000), "030186A0");
  (TInt (CRange false (Some (256)) (None)), VInt (256), "0100");
  (TInt (CRange true (Some (0)) (Some (3))), VInt (3), "60");
  (TInt (CRange true (Some (0)) (Some (120))), VInt (3), "03");
  (TInt (CRange true (Some (0)) (Some (255))), VInt (3), "0003");
  (TInt (CRange true (Some (0)) (Some (10000))), VInt (3), "000003");
  (TInt (CRange true (Some (0)) (Some (100000))), VInt (3), "0003");
  (TInt (CRange true (Some (0)) (Some (255))), VInt (254), "00FE");
  (TInt (CRange true (Some (0)) (Some (10000))), VInt (254), "0000FE");
  (TInt (CRange true (Some (0)) (Some (100000))), VInt (254), "00FE");
  (TInt (CRange true (Some (0)) (Some (10000))), VInt (1023), "0003FF");
  (TInt (CRange true (Some (0)) (Some (100000))), VInt (1023), "2003FF");
  (TInt (CRange true (Some (0)) (Some (100000))), VInt (32766), "207FFE");
  (TInt (CRange true (Some (0)) (Some (1000000))), VInt (65535), "20FFFF");
  (TInt (CRange true (Some (0)) (Some (1000000))), VInt (100000), "400186A0");
  (TInt (CRange true (Some (0)) (Some (3))), VInt (4), "800104");
  (TInt (CRange true (Some (0)) (Some (3))), VInt (100000), "80030186A0");
  (TInt (CRange true (Some (0)) (Some (3))), VInt (-4), "8001FC");
  (TInt (CRange true (Some (0)) (Some (3))), VInt (-100000), "8003FE7960");
  (TBits CNone, VBits (bin2bits "0"), "0100");
  (TBits CNone, VBits (bin2bits "1"), "0180");
  (TBits CNone, VBits (bin2bits "01"), "0240");
  (TBits CNone, VBits (bin2bits "10"), "0280");
  (TBits CNone, VBits (bin2bits "11"), "02C0");
  (TBits CNone, VBits (bin2bits "011"), "0360");
  (TBits CNone, VBits (bin2bits "1010"), "04A0");
  (TBits CNone, VBits (bin2bits "1111"), "04F0");
  (TBits CNone, VBits (bin2bits "111111111111111"), "0FFFFE");
  (TBits CNone, VBits (bin2bits "111111111111111111111111"), "18FFFFFF");
  (TBits CNone, VBits (bin2bits "100000000000000000000001"), "18800001");
  (TBits CNone, VBits (bin2bits "000000000000000000000001"), "18000001");
  (TBits CNone, VBits (bin2bits "0000111000000000010000001111110000000000000001"), "2E0E0040FC0004");
  (TBits CNone, VBits (bin2bits "0000"), "0400");
  (TBits CNone, VBits (bin2bits "0001"), "0410");
  (TBits CNone, VBits (bin2bits "00010000"), "0810");
  (TBits CNone, VBits (bin2bits "00000001"), "0801");
  (TBits CNone, VBits (bin2bits "1010"), "04A0");
  (TBits CNone, VBits (bin2bits "00001010"), "080A");
  (TBits CNone, VBits (bin2bits "00000000000000000000101010111100110111101111"), "2C00000ABCDEF0");
  (TBits CNone, VBits (bin2bits "101010111100110111101111101010111100110111101111"), "30ABCDEFABCDEF");
  (TBits CNone, VBits (bin2bits "1010101111001101111011111010101111001101111011110000"), "34ABCDEFABCDEF00");
  (TBits CNone, VBits (bin2bits "1010101111001101111011111010101111001101111011110000000100100011010001010110011110001001"), "58ABCDEFABCDEF0123456789");
  (TBits CNone, VBits (bin2bits "1010101111001101111011111010101111001101111011110000000100100011010001010110011110001001101010111100110111101111101010111100"), "7CABCDEFABCDEF0123456789ABCDEFABC0");
  (TBits CNone, VBits (bin2bits "10101011110011011110111110101011110011011110111100000001001000110100010101100111100010011010101111001101111011111010101111000000"), "8080ABCDEFABCDEF0123456789ABCDEFABC0");
  (TBits CNone, VBits (bin2bits "10101011110011011110111110101011110011011110111100000001001000110100010101100111100010011010101111001101111011111010101111001101111011110000000100100011010001010110011110001001"), "80B0ABCDEFABCDEF0123456789ABCDEFABCDEF0123456789");
  (TBits (CRange false (Some (0)) (Some (0))), VBits (bin2bits ""), "00");
  (TBits (CRange false (Some (1)) (Some (1))), VBits (bin2bits "1"), "80");
  (TBits (CRange false (Some (1)) (Some (1))), VBits (bin2bits "0"), "00");
  (TBits (CRange false (Some (2)) (Some (2))), VBits (bin2bits "10"), "80");
  (TBits (CRange false (Some (2)) (Some (2))), VBits (bin2bits "11"), "C0");
  (TBits (CRange false (Some (4)) (Some (4))), VBits (bin2bits "1010"), "A0");
  (TBits (CRange false (Some (4)) (Some (4))), VBits (bin2bits "0101"), "50");
  (TBits (CRange false (Some (7)) (Some (7))), VBits (bin2bits "1010101"), "AA");
  (TBits (CRange false (Some (7)) (Some (7))), VBits (bin2bits "0101010"), "54");
  (TBits (CRange false (Some (15)) (Some (15))), VBits (bin2bits "110011001100110"), "CCCC");
  (TBits (CRange false (Some (15)) (Some (15))), VBits (bin2bits "001100110011001"), "3332");
  (TBits (CRange false (Some (16)) (Some (16))), VBits (bin2bits "1100110011001100"), "CCCC");
  (TBits (CRange false (Some (16)) (Some (16))), VBits (bin2bits "0011001100110011"), "3333");
  (TBits (CRange false (Some (4)) (Some (4))), VBits (bin2bits "1010"), "A0");
  (TBits (CRange false (Some (8)) (Some (8))), VBits (bin2bits "10111011"), "BB");
  (TBits (CRange false (Some (12)) (Some (12))), VBits (bin2bits "000100010001"), "1110");
  (TBits (CRange false (Some (16)) (Some (16))), VBits (bin2bits "0010001000100010"), "2222");
  (TBits (CRange false (Some (17)) (Some (17))), VBits (bin2bits "00110011001100111"), "333380");
  (TBits (CRange false (Some (18)) (Some (18))), VBits (bin2bits "001100110011001101"), "333340");
  (TBits (CRange false (Some (19)) (Some (19))), VBits (bin2bits "0011001100110011001"), "333320");
  (TBits (CRange false (Some (20)) (Some (20))), VBits (bin2bits "00110011001100110011"), "333330");
  (TBits (CRange false (Some (21)) (Some (21))), VBits (bin2bits "001100110011001100111"), "333338");
  (TBits (CRange false (Some (22)) (Some (22))), VBits (bin2bits "0011001100110011001101"), "333334");
  (TBits (CRange false (Some (23)) (Some (23))), VBits (bin2bits "00110011001100110011001"), "333332");
  (TBits (CRange false (Some (24)) (Some (24))), VBits (bin2bits "001100110011001100110011"), "333333");
  (TBits (CRange false (Some (25)) (Some (25))), VBits (bin2bits "0011001100110011001100111"), "33333380");
  (TBits (CRange false (Some (128)) (Some (128))), VBits (bin2bits "10101011110011011110111110101011110011011110111100000001001000110100010101100111100010011010101111001101111011111010101111000000"), "ABCDEFABCDEF0123456789ABCDEFABC0");
  (TBits (CRange false (Some (176)) (Some (176))), VBits (bin2bits "10101011110011011110111110101011110011011110111100000001001000110100010101100111100010011010101111001101111011111010101111001101111011110000000100100011010001010110011110001001"), "ABCDEFABCDEF0123456789ABCDEFABCDEF0123456789");
  (TBits (CRange false (Some (0)) (Some (1))), VBits (bin2bits "1"), "8080");
  (TBits (CRange false (Some (0)) (Some (15))), VBits (bin2bits "1"), "1080");
  (TBits (CRange false (Some (0)) (Some (15))), VBits (bin2bits "111000111000111"), "F0E38E");
  (TBits (CRange false (Some (14)) (Some (15))), VBits (bin2bits "111000111000111"), "80E38E");
  (TBits (CRange false (Some (0)) (Some (127))), VBits (bin2bits "111000111000111"), "1EE38E");
  (TBits (CRange false (Some (0)) (Some (1000))), VBits (bin2bits "111000111000111"), "000FE38E");
  (TBits (CRange false (Some (0)) (Some (10000))), VBits (bin2bits "111000111000111"), "000FE38E");
  (TBits (CRange false (Some (0)) (Some (65535))), VBits (bin2bits "111000111000111"), "000FE38E");
  (TBits (CRange true (Some (1)) (Some (1))), VBits (bin2bits "1"), "40");
  (TBits (CRange true (Some (1)) (Some (1))), VBits (bin2bits "0111111"), "80077E");
  (TBits (CRange true (Some (2)) (Some (2))), VBits (bin2bits "10"), "40");
  (TBits (CRange true (Some (2)) (Some (2))), VBits (bin2bits "101"), "8003A0");
  (TBits (CRange true (Some (7)) (Some (7))), VBits (bin2bits "01010101"), "800855");
  (TBits (CRange true (Some (15)) (Some (15))), VBits (bin2bits "11001100110011011"), "8011CCCD80");
  (TBits (CRange true (Some (16)) (Some (16))), VBits (bin2bits "00110011001100110001"), "8014333310");
  (TBits (CRange true (Some (25)) (Some (25))), VBits (bin2bits "0011001100110011001100111111"), "801C333333F0");
  (TBits (CRange true (Some (128)) (Some (128))), VBits (bin2bits "10101011110011011110111110101011110011011110111100000001001000110100010101100111100010011010101111001101111011111010101111000000"), "00ABCDEFABCDEF0123456789ABCDEFABC0");
  (TBits (CRange true (Some (176)) (Some (176))), VBits (bin2bits "10101011110011011110111110101011110011011110111100000001001000110100010101100111100010011010101111001101111011111010101111001101111011110000000100100011010001010110011110001001"), "00ABCDEFABCDEF0123456789ABCDEFABCDEF0123456789");
  (TBits (CRange true (Some (0)) (Some (1))), VBits (bin2bits "1"), "4080");
  (TBits (CRange true (Some (0)) (Some (15))), VBits (bin2bits "1"), "0880");
  (TBits (CRange true (Some (0)) (Some (15))), VBits (bin2bits "111100001111000"), "78F0F0");
  (TBits (CRange true (Some (0)) (Some (128))), VBits (bin2bits "10101011110011011110111110101011110011011110111100000001001000110100010101100111100010011010101111001101111011111010101111000000"), "4000ABCDEFABCDEF0123456789ABCDEFABC0");
  (TOcts CNone, VOcts (hex2bytes "80"), "0180");
  (TOcts CNone, VOcts (hex2bytes "00"), "0100");
  (TOcts CNone, VOcts (hex2bytes "40"), "0140");
  (TOcts CNone, VOcts (hex2bytes "80"), "0180");
  (TOcts CNone, VOcts (hex2bytes "f0"), "01F0");
  (TOcts CNone, VOcts (hex2bytes "f0"), "01F0");
  (TOcts CNone, VOcts (hex2bytes "f0f0"), "02F0F0");
  (TOcts CNone, VOcts (hex2bytes "0c33"), "020C33");
  (TOcts CNone, VOcts (hex2bytes "5cb35b6e395ca8"), "075CB35B6E395CA8");
  (TOcts CNone, VOcts (hex2bytes "00"), "0100");
  (TOcts CNone, VOcts (hex2bytes "10"), "0110");
  (TOcts CNone, VOcts (hex2bytes "01"), "0101");
  (TOcts CNone, VOcts (hex2bytes "10"), "0110");
  (TOcts CNone, VOcts (hex2bytes "00a0"), "0200A0");
  (TOcts CNone, VOcts (hex2bytes "aa00"), "02AA00");
  (TOcts CNone, VOcts (hex2bytes "abcdefa0"), "04ABCDEFA0");
  (TOcts CNone, VOcts (hex2bytes "0123abcdefa01230"), "080123ABCDEFA01230");
  (TOcts (CRange false (Some (0)) (Some (0))), VOcts (hex2bytes ""), "00");
  (TOcts (CRange false (Some (1)) (Some (1))), VOcts (hex2bytes "80"), "80");
  (TOcts (CRange false (Some (1)) (Some (1))), VOcts (hex2bytes "70"), "70");
  (TOcts (CRange false (Some (1)) (Some (1))), VOcts (hex2bytes "0f"), "0F");
  (TOcts (CRange false (Some (1)) (Some (1))), VOcts (hex2bytes "c0"), "C0");
  (TOcts (CRange false (Some (1)) (Some (1))), VOcts (hex2bytes "cf"), "CF");
  (TOcts (CRange false (Some (2)) (Some (2))), VOcts (hex2bytes "ff00"), "FF00");
  (TOcts (CRange false (Some (2)) (Some (2))), VOcts (hex2bytes "0f08"), "0F08");
  (TOcts (CRange false (Some (2)) (Some (2))), VOcts (hex2bytes "cccc"), "CCCC");
  (TOcts (CRange false (Some (2)) (Some (2))), VOcts (hex2bytes "abc0"), "ABC0");
  (TOcts (CRange false (Some (2)) (Some (2))), VOcts (hex2bytes "0000"), "0000");
  (TOcts (CRange false (Some (2)) (Some (2))), VOcts (hex2bytes "0000"), "0000");
  (TOcts (CRange false (Some (2)) (Some (2))), VOcts (hex2bytes "ffff"), "FFFF");
  (TOcts (CRange false (Some (3)) (Some (3))), VOcts (hex2bytes "010101"), "010101");
  (TOcts (CRange false (Some (3)) (Some (3))), VOcts (hex2bytes "abcdef"), "ABCDEF");
  (TOcts (CRange false (Some (4)) (Some (4))), VOcts (hex2bytes "7fffff00"), "7FFFFF00");
  (TOcts (CRange false (Some (4)) (Some (4))), VOcts (hex2bytes "abcdef01"), "ABCDEF01");
  (TOcts (CRange false (Some (17)) (Some (17))), VOcts (hex2bytes "11223344556677889900aabbccddeeff11"), "11223344556677889900AABBCCDDEEFF11");
  (TOcts (CRange false (Some (0)) (Some (15))), VOcts (hex2bytes ""), "00");
  (TOcts (CRange false (Some (0)) (Some (15))), VOcts (hex2bytes "a0"), "10A0");
  (TOcts (CRange false (Some (0)) (Some (15))), VOcts (hex2bytes "a0"), "10A0");
  (TOcts (CRange false (Some (0)) (Some (15))), VOcts (hex2bytes "112233445566778899001122334455"), "F0112233445566778899001122334455");
  (TOcts (CRange false (Some (0)) (Some (22))), VOcts (hex2bytes "a0"), "08A0");
  (TOcts (CRange false (Some (0)) (Some (22))), VOcts (hex2bytes "a0"), "08A0");
  (TOcts (CRange false (Some (0)) (Some (22))), VOcts (hex2bytes "112233445566778899001122334455"), "78112233445566778899001122334455");
  (TOcts (CRange false (Some (0)) (Some (22))), VOcts (hex2bytes "11223344556677889900112233445566778899001122"), "B011223344556677889900112233445566778899001122");
  (TOcts (CRange false (Some (10)) (Some (15))), VOcts (hex2bytes "112233445566778899aa"), "00112233445566778899AA");
  (TOcts (CRange false (Some (10)) (Some (15))), VOcts (hex2bytes "112233445566778899aabbccddeeff"), "A0112233445566778899AABBCCDDEEFF");
  (TOcts (CRange false (Some (10)) (Some (22))), VOcts (hex2bytes "112233445566778899aa"), "00112233445566778899AA");
  (TOcts (CRange false (Some (10)) (Some (22))), VOcts (hex2bytes "112233445566778899aabbccddeeff001122334455"), "B0112233445566778899AABBCCDDEEFF001122334455");
  (TOcts (CRange true (Some (0)) (Some (0))), VOcts (hex2bytes ""), "00");
  (TOcts (CRange true (Some (1)) (Some (1))), VOcts (hex2bytes "a0"), "5000");
  (TOcts (CRange true (Some (1)) (Some (1))), VOcts (hex2bytes "ab"), "5580");
  (TOcts (CRange true (Some (5)) (Some (5))), VOcts (hex2bytes "1122334450"), "001122334450");
  (TOcts (CRange true (Some (5)) (Some (5))), VOcts (hex2bytes "1122334455"), "001122334455");
  (TOcts (CRange true (Some (15)) (Some (15))), VOcts (hex2bytes "112233445566778899001122334455"), "00112233445566778899001122334455");
  (TOcts (CRange true (Some (22)) (Some (22))), VOcts (hex2bytes "11223344556677889900112233445566778899001122"), "0011223344556677889900112233445566778899001122");
  (TOcts (CRange true (Some (0)) (Some (2))), VOcts (hex2bytes ""), "00");
  (TOcts (CRange true (Some (0)) (Some (2))), VOcts (hex2bytes "a0"), "20A0");
  (TOcts (CRange true (Some (0)) (Some (2))), VOcts (hex2bytes "ab"), "20AB");
  (TOcts (CRange true (Some (0)) (Some (2))), VOcts (hex2bytes "abc0"), "40ABC0");
  (TOcts (CRange true (Some (0)) (Some (2))), VOcts (hex2bytes "abcd"), "40ABCD");
  (TOcts (CRange true (Some (0)) (Some (15))), VOcts (hex2bytes "a0"), "08A0");
  (TOcts (CRange true (Some (0)) (Some (15))), VOcts (hex2bytes "ab"), "08AB");
  (TOcts (CRange true (Some (0)) (Some (15))), VOcts (hex2bytes "112233445566778899"), "48112233445566778899");
  (TOcts (CRange true (Some (0)) (Some (15))), VOcts (hex2bytes "112233445566778899aabbccddeeff"), "78112233445566778899AABBCCDDEEFF");
  (TOcts (CRange true (Some (0)) (Some (0))), VOcts (hex2bytes "a0"), "8001A0");
  (TOcts (CRange true (Some (0)) (Some (0))), VOcts (hex2bytes "ab"), "8001AB");
  (TOcts (CRange true (Some (0)) (Some (0))), VOcts (hex2bytes "1122334455"), "80051122334455");
  (TOcts (CRange true (Some (2)) (Some (2))), VOcts (hex2bytes ""), "8000");
  (TOcts (CRange true (Some (2)) (Some (2))), VOcts (hex2bytes "a0"), "8001A0");
  (TOcts (CRange true (Some (2)) (Some (2))), VOcts (hex2bytes "ab"), "8001AB");
  (TOcts (CRange true (Some (2)) (Some (2))), VOcts (hex2bytes "112233"), "8003112233");
  (TOcts (CRange true (Some (2)) (Some (2))), VOcts (hex2bytes "1122334455"), "80051122334455");
  (TOcts (CRange true (Some (3)) (Some (4))), VOcts (hex2bytes ""), "8000");
  (TOcts (CRange true (Some (3)) (Some (4))), VOcts (hex2bytes "a0"), "8001A0");
  (TOcts (CRange true (Some (3)) (Some (4))), VOcts (hex2bytes "ab"), "8001AB");
  (TOcts (CRange true (Some (3)) (Some (4))), VOcts (hex2bytes "1122"), "80021122");
  (TOcts (CRange true (Some (3)) (Some (4))), VOcts (hex2bytes "1122334455"), "80051122334455");
  (TOcts (CRange true (Some (3)) (Some (4))), VOcts (hex2bytes "11223344556677"), "800711223344556677");
  (TOcts (CRange true (Some (10)) (Some (22))), VOcts (hex2bytes "112233445566778899"), "8009112233445566778899");
  (TOcts (CRange true (Some (10)) (Some (22))), VOcts (hex2bytes "1122334455667788990011223344556677889900112233"), "80171122334455667788990011223344556677889900112233")].

Example simple_encode_vectors_ok : bad_enc simple_encode_vectors = [].
Proof. vm_compute. reflexivity. Qed.

Example simple_decode_vectors_ok : bad_dec simple_decode_vectors = [].
Proof. vm_compute. reflexivity. Qed.
