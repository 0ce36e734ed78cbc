(** The same schemas in the notation of Meaning.v, and that parsing them gives the
    objects of GoldenVectors.v.  Written by tools/goldens.py. *)

From Coq Require Import ZArith List String.
Import ListNotations.
From Verif Require Import Generator Meaning GoldenVectors.

Open Scope Z_scope.
Open Scope string_scope.
Open Scope list_scope.

Definition asn_Choice_Simple : schema := [
  TypeA "Order" (AChoice false [
    Part "one" Mandatory (AInteger None); 
    Part "two" Mandatory (ARef "MyInteger" None); 
    Part "three" Mandatory (AOctets None); 
    Part "four" Mandatory (ARef "MyOctetString" None); 
    Part "five" Mandatory (ABitstr None); 
    Part "six" Mandatory (ARef "MyBitString" None); 
    Part "seven" Mandatory (ABoolean); 
    Part "eight" Mandatory (ARef "MyBoolean" None)] [] []);
  TypeA "MyInteger" (AInteger None);
  TypeA "MyOctetString" (AOctets None);
  TypeA "MyBitString" (ABitstr None);
  TypeA "MyBoolean" (ABoolean)].
Example parsed_Choice_Simple : map parsed_as asn_Choice_Simple = schema_Choice_Simple.
Proof. vm_compute. reflexivity. Qed.

Definition asn_ComponentTypes : schema := [
  TypeA "Order" (AChoice false [
    Part "move" Mandatory (ARef "MoveOrder" None); 
    Part "sendData" Mandatory (ARef "Data" None)] [] []);
  TypeA "MoveOrder" (AChoice false [
    Part "up" Mandatory (ARef "Meters" None); 
    Part "down" Mandatory (ARef "Meters" None); 
    Part "left" Mandatory (ARef "Meters" None); 
    Part "right" Mandatory (ARef "Meters" None)] [] []);
  TypeA "Meters" (AInteger None);
  TypeA "Picture" (AOctets None);
  TypeA "Data" (ASequence false [
    Part "id" Mandatory (AInteger None); 
    Part "pictures" Mandatory (ASeqOf None (ARef "Picture" None))] [] [])].
Example parsed_ComponentTypes : map parsed_as asn_ComponentTypes = schema_ComponentTypes.
Proof. vm_compute. reflexivity. Qed.

Definition asn_ComponentTypes_containing_ComponentTypes : schema := [
  TypeA "MySeq1" (ASequence false [
    Part "data" Mandatory (AChoice false [
      Part "inner-seq" Mandatory (ARef "InnerSequence" None); 
      Part "my-int-1" Mandatory (AInteger None); 
      Part "my-int-2" Mandatory (AInteger (Some (Range (BNum (1)) (BNum (2)) false))); 
      Part "my-bit" Mandatory (ARef "MyBitString" None)] [] []); 
    Part "my-int-3" Mandatory (AInteger (Some (Range (BNum (10)) (BNum (20)) false))); 
    Part "my-octet" Mandatory (AOctets None)] [] []);
  TypeA "InnerSequence" (ASequence false [
    Part "i0" Mandatory (AInteger None); 
    Part "i1" Mandatory (AInteger None)] [] []);
  TypeA "MyBitString" (ABitstr (Some (Range (BNum (1)) (BRef "maxNumber") true)));
  TypeA "MySeq2" (ASequence false [
    Part "i0" Mandatory (AInteger None); 
    Part "enum-one" Mandatory (AEnumer ["one"; "two"] (Some [])); 
    Part "o1" Mandatory (AOctets (Some (Range (BNum (1)) (BNum (10)) false)))] [] []);
  TypeA "SrcTcpData" (ASequence true [
    Part "data" Mandatory (ASeqOf (Some (Range (BNum (1)) (BRef "maxNumber") false)) (ARef "TcpData" None))] [] []);
  TypeA "TgtTcpData" (ASequence true [
    Part "data" Mandatory (ASeqOf (Some (Range (BNum (1)) (BRef "maxNumber") false)) (ARef "TcpData" None))] [] []);
  TypeA "SrcUdpData" (ASequence true [
    Part "data" Mandatory (ASeqOf (Some (Range (BNum (1)) (BRef "maxNumber") false)) (ARef "SrcUdpTput" None))] [] []);
  TypeA "TgtUdpData" (ASequence true [
    Part "data" Mandatory (ASeqOf (Some (Range (BNum (1)) (BRef "maxNumber") false)) (ARef "TgtUdpTput" None))] [] []);
  TypeA "IpData" (ASequence true [
    Part "data" Mandatory (ASeqOf (Some (Range (BNum (1)) (BRef "maxNumber") false)) (ARef "BigIpData" None))] [] []);
  TypeA "MyChoice" (AChoice false [
    Part "enum-two" Mandatory (AEnumer ["three"; "four"] None); 
    Part "inner-seq-2" Mandatory (ASequence false [
      Part "i0" Mandatory (AInteger None); 
      Part "i1" Mandatory (ABitstr (Some (Range (BNum (1)) (BNum (2)) false)))] [] []); 
    Part "o1" Mandatory (AOctets (Some (Range (BNum (1)) (BNum (10)) false))); 
    Part "my-int-4" Mandatory (AInteger None)] [] []);
  TypeA "TcpData" (AInteger None);
  TypeA "SrcUdpTput" (AInteger None);
  TypeA "TgtUdpTput" (AInteger None);
  TypeA "BigIpData" (ASequence false [
    Part "d0" Mandatory (AInteger (Some (Range (BNum (-1)) (BNum (1)) false))); 
    Part "d1" Mandatory (AOctets (Some (Range (BNum (1)) (BNum (20)) false)))] [] []);
  ValueA "minNumber" (AInteger None) (LNum (-10));
  ValueA "maxNumber" (AInteger None) (LNum (255))].
Example parsed_ComponentTypes_containing_ComponentTypes : map parsed_as asn_ComponentTypes_containing_ComponentTypes = schema_ComponentTypes_containing_ComponentTypes.
Proof. vm_compute. reflexivity. Qed.

Definition asn_ComponentTypes_extensionAddition : schema := [
  TypeA "MySeq" (ASequence true [
    Part "int0" Mandatory (AInteger None); 
    Part "otherSeq" Mandatory (ARef "OtherSequence" None)] [
    Part "add0" Mandatory (AInteger None); 
    Part "add1" Mandatory (ABoolean)] []);
  TypeA "OtherSequence" (ASequence true [
    Part "yetOtherSeq" Mandatory (ARef "YetOtherSeq" None); 
    Part "myBool" Mandatory (ABoolean)] [
    Part "add2" Mandatory (ABitstr None)] []);
  TypeA "YetOtherSeq" (ASequence true [
    Part "myEnum" Mandatory (ARef "MyEnum" None); 
    Part "myChoice" Mandatory (ARef "MyChoice" None)] [
    Part "add3" Mandatory (AOctets None); 
    Part "add4" Mandatory (AInteger None)] []);
  TypeA "MyEnum" (AEnumer ["zero"; "one"; "two"; "three"] (Some ["four"; "five"]));
  TypeA "MyChoice" (AChoice true [
    Part "c0" Mandatory (AInteger None); 
    Part "c1" Mandatory (ARef "ThirdSequence" None); 
    Part "c2" Mandatory (ABoolean)] [
    Part "c3" Mandatory (AInteger None); 
    Part "c4" Mandatory (ABoolean)] []);
  TypeA "ThirdSequence" (ASeqOf None (AOctets None))].
Example parsed_ComponentTypes_extensionAddition : map parsed_as asn_ComponentTypes_extensionAddition = schema_ComponentTypes_extensionAddition.
Proof. vm_compute. reflexivity. Qed.

Definition asn_ComponentTypes_extensionAdditionGroup : schema := [
  TypeA "Data1" (ASequence true [
    Part "d0" Mandatory (AOctets None)] [] [[
    Part "d1" Mandatory (ABitstr (Some (Range (BNum (1)) (BNum (20)) true))); 
    Part "d2" Mandatory (ARef "MySeq" None)]]);
  TypeA "Data2" (AChoice true [
    Part "c0" Mandatory (AInteger (Some (Range (BNum (1)) BMax false)))] [] [[
    Part "c1" Mandatory (ARef "MyEnum" None); 
    Part "c2" Mandatory (ABoolean)]; [
    Part "c3" Mandatory (AOctets (Some (Range (BNum (5)) (BNum (10)) false))); 
    Part "c4" Mandatory (ARef "MySeq" None)]]);
  TypeA "Data3" (ASequence true [
    Part "s0" Mandatory (AInteger None)] [
    Part "s4" Mandatory (AInteger None); 
    Part "s5" Mandatory (AInteger None)] [[
    Part "s1" Mandatory (ARef "MySeq" None); 
    Part "s2" Optional (AInteger None)]; [
    Part "s3" Mandatory (AInteger (Some (Range (BNum (-10)) (BNum (100)) false))); 
    Part "s6" Mandatory (ARef "MyEnum" None)]]);
  TypeA "MyEnum" (AEnumer ["one"; "two"] None);
  TypeA "MySeq" (ASequence false [
    Part "i0" Mandatory (AInteger (Some (Range (BNum (10)) (BNum (20)) false))); 
    Part "i1" Mandatory (AInteger None)] [] [])].
Example parsed_ComponentTypes_extensionAdditionGroup : map parsed_as asn_ComponentTypes_extensionAdditionGroup = schema_ComponentTypes_extensionAdditionGroup.
Proof. vm_compute. reflexivity. Qed.

Definition asn_ComponentTypes_extensionMarker : schema := [
  TypeA "MySeq" (ASequence true [
    Part "int0" Mandatory (AInteger None); 
    Part "otherSeq" Mandatory (ARef "OtherSequence" None)] [] []);
  TypeA "OtherSequence" (ASequence true [
    Part "yetOtherSeq" Mandatory (ARef "YetOtherSeq" None); 
    Part "myBool" Mandatory (ABoolean)] [] []);
  TypeA "YetOtherSeq" (ASequence true [
    Part "myEnum" Mandatory (ARef "MyEnum" None); 
    Part "myChoice" Mandatory (ARef "MyChoice" None)] [] []);
  TypeA "MyEnum" (AEnumer ["zero"; "one"; "two"; "three"] (Some []));
  TypeA "MyChoice" (AChoice true [
    Part "c0" Mandatory (AInteger None); 
    Part "c1" Mandatory (ARef "ThirdSequence" None); 
    Part "c2" Mandatory (ABoolean)] [] []);
  TypeA "ThirdSequence" (ASeqOf None (AOctets None))].
Example parsed_ComponentTypes_extensionMarker : map parsed_as asn_ComponentTypes_extensionMarker = schema_ComponentTypes_extensionMarker.
Proof. vm_compute. reflexivity. Qed.

Definition asn_DefinedType_Simple : schema := [
  TypeA "MySeq1" (ASequence false [
    Part "d00" (Default (LNum (10))) (AInteger None); 
    Part "d01" (Default (LNum (0))) (AInteger None)] [] []);
  TypeA "MyInt1" (AInteger (Some (Range (BNum (-5)) (BNum (-1)) false)));
  TypeA "MyOctetString1" (AOctets (Some (Range (BNum (1)) (BNum (4)) false)));
  TypeA "MyBitString1" (ABitstr None);
  TypeA "MyBoolean1" (ABoolean);
  TypeA "MyEnumerated1" (AEnumer ["four"; "five"; "six"] None);
  TypeA "MyInt2" (ARef "MyInt1" None);
  TypeA "MyInt3" (ARef "MyInt2" None);
  TypeA "MyOctetString2" (ARef "MyOctetString1" None);
  TypeA "MyOctetString3" (ARef "MyOctetString2" None);
  TypeA "MyBitString2" (ARef "MyBitString1" None);
  TypeA "MyBitString3" (ARef "MyBitString2" None);
  TypeA "MyBoolean2" (ARef "MyBoolean1" None);
  TypeA "MyBoolean3" (ARef "MyBoolean2" None);
  TypeA "MyEnumerated2" (ARef "MyEnumerated1" None);
  TypeA "MyEnumerated3" (ARef "MyEnumerated2" None);
  TypeA "MySeq2" (ARef "MySeq1" None);
  TypeA "MySeq3" (ASequence false [
    Part "d03" Mandatory (ARef "MyInt2" None); 
    Part "d04" Mandatory (ARef "MyInt3" None); 
    Part "d05" Mandatory (ARef "MyOctetString2" None); 
    Part "d06" Mandatory (ARef "MyOctetString3" None); 
    Part "d07" Mandatory (ARef "MyBitString2" None); 
    Part "d08" Mandatory (ARef "MyBitString3" None); 
    Part "d09" Mandatory (ARef "MyBoolean2" None); 
    Part "d10" Mandatory (ARef "MyBoolean3" None); 
    Part "d11" Mandatory (ARef "MyEnumerated2" None); 
    Part "d12" Mandatory (ARef "MyEnumerated3" None)] [] []);
  TypeA "MySeq4" (ARef "MySeq1" None);
  TypeA "MySeq5" (ARef "MySeq3" None)].
Example parsed_DefinedType_Simple : map parsed_as asn_DefinedType_Simple = schema_DefinedType_Simple.
Proof. vm_compute. reflexivity. Qed.

Definition asn_Sequence_Default : schema := [
  TypeA "MySeq" (ASequence false [
    Part "d00" (Default (LNum (10))) (AInteger None); 
    Part "d01" (Default (LNum (0))) (AInteger None); 
    Part "d02" (Default (LNum (11))) (ARef "MyInteger" None); 
    Part "d03" (Default (LNum (0))) (ARef "MyInteger" None); 
    Part "d04" (Default (LBin [true; true; true; true; true; true; true; true])) (AOctets None); 
    Part "d05" (Default (LBin [])) (AOctets None); 
    Part "d06" (Default (LHex [10%Z; 10%Z; 10%Z; 10%Z])) (AOctets None); 
    Part "d07" (Default (LHex [])) (AOctets None); 
    Part "d08" (Default (LBin [false; true; false; true; false; true; false; true])) (ARef "MyOctetString" None); 
    Part "d09" (Default (LBin [])) (ARef "MyOctetString" None); 
    Part "d10" (Default (LHex [11%Z; 11%Z; 11%Z; 11%Z])) (ARef "MyOctetString" None); 
    Part "d11" (Default (LHex [])) (ARef "MyOctetString" None); 
    Part "d12" (Default (LBin [false; false; false; false])) (ABitstr None); 
    Part "d13" (Default (LBin [])) (ABitstr None); 
    Part "d14" (Default (LHex [13%Z; 13%Z; 13%Z; 13%Z])) (ABitstr None); 
    Part "d15" (Default (LHex [])) (ABitstr None); 
    Part "d16" (Default (LBin [true; false; true; false; true])) (ARef "MyBitString" None); 
    Part "d17" (Default (LBin [])) (ARef "MyBitString" None); 
    Part "d18" (Default (LHex [14%Z; 14%Z])) (ARef "MyBitString" None); 
    Part "d19" (Default (LHex [])) (ARef "MyBitString" None); 
    Part "d20" (Default (LBoolean false)) (ABoolean); 
    Part "d21" (Default (LBoolean true)) (ABoolean); 
    Part "d22" (Default (LBoolean false)) (ARef "MyBoolean" None); 
    Part "d23" (Default (LBoolean true)) (ARef "MyBoolean" None); 
    Part "d24" (Default (LItem "two")) (AEnumer ["one"; "two"; "three"] None); 
    Part "d25" (Default (LItem "six")) (ARef "MyEnumerated" None)] [] []);
  TypeA "MyInteger" (AInteger None);
  TypeA "MyOctetString" (AOctets None);
  TypeA "MyBitString" (ABitstr None);
  TypeA "MyBoolean" (ABoolean);
  TypeA "MyEnumerated" (AEnumer ["four"; "five"; "six"] None)].
Example parsed_Sequence_Default : map parsed_as asn_Sequence_Default = schema_Sequence_Default.
Proof. vm_compute. reflexivity. Qed.

Definition asn_Sequence_Mixed : schema := [
  TypeA "MySeq" (ASequence false [
    Part "some-seq" Mandatory (ARef "DataSeq" None); 
    Part "some-enum" Mandatory (AEnumer ["one"; "two"; "three"] None); 
    Part "some-integer" Mandatory (ARef "DataInt" None); 
    Part "some-seqOf" Mandatory (ASeqOf None (ARef "OctetName" None))] [] []);
  TypeA "DataSeq" (ASequence false [
    Part "myBool0" Mandatory (ABoolean); 
    Part "myBitString" Mandatory (ABitstr None); 
    Part "myInnerSeq" Mandatory (ARef "MyInnerSeq" None)] [] []);
  TypeA "DataInt" (AInteger None);
  TypeA "OctetName" (AOctets None);
  TypeA "MySeqOf" (ASeqOf None (AInteger None));
  TypeA "MyInnerSeq" (ASequence false [
    Part "one" Mandatory (AInteger None); 
    Part "two" Mandatory (ARef "MySeqOf" None)] [] []);
  TypeA "MySeq-Two" (ASequence false [
    Part "records" Mandatory (ARef "Record-List" None)] [] []);
  TypeA "Record-One" (ASequence false [
    Part "value" Mandatory (AInteger None)] [] []);
  TypeA "Record-List" (ASeqOf None (ARef "Record-One" None))].
Example parsed_Sequence_Mixed : map parsed_as asn_Sequence_Mixed = schema_Sequence_Mixed.
Proof. vm_compute. reflexivity. Qed.

Definition asn_Sequence_Simple : schema := [
  TypeA "MySeq" (ASequence false [
    Part "one" Mandatory (AInteger None); 
    Part "two" Mandatory (ARef "MyInteger" None); 
    Part "three" Mandatory (AOctets None); 
    Part "four" Mandatory (ARef "MyOctetString" None); 
    Part "five" Mandatory (ABitstr None); 
    Part "six" Mandatory (ARef "MyBitString" None); 
    Part "seven" Mandatory (ABoolean); 
    Part "eight" Mandatory (ARef "MyBoolean" None); 
    Part "nine" Mandatory (AEnumer ["one"; "two"; "three"] None); 
    Part "ten" Mandatory (ARef "MyEnumerated" None)] [] []);
  TypeA "MyInteger" (AInteger None);
  TypeA "MyOctetString" (AOctets None);
  TypeA "MyBitString" (ABitstr None);
  TypeA "MyBoolean" (ABoolean);
  TypeA "MyEnumerated" (AEnumer ["four"; "five"; "six"] None)].
Example parsed_Sequence_Simple : map parsed_as asn_Sequence_Simple = schema_Sequence_Simple.
Proof. vm_compute. reflexivity. Qed.

Definition asn_SimpleProtocol : schema := [
  TypeA "SimpleMessage" (AChoice true [
    Part "start" Mandatory (ARef "Start" None); 
    Part "stop" Mandatory (ARef "Stop" None); 
    Part "alive" Mandatory (ARef "Alive" None); 
    Part "data" Mandatory (ARef "Data" None)] [] []);
  TypeA "Start" (ASequence false [
    Part "sequenceNumber" Mandatory (ARef "SequenceNumber" None); 
    Part "timestamp" Mandatory (ARef "UTC-Timestamp" None); 
    Part "srcPort" Mandatory (ARef "Port" None); 
    Part "dstPort" Mandatory (ARef "Port" None)] [] []);
  TypeA "Stop" (ASequence false [
    Part "sequenceNumber" Mandatory (ARef "SequenceNumber" None); 
    Part "timestamp" Mandatory (ARef "UTC-Timestamp" None); 
    Part "srcPort" Mandatory (ARef "Port" None); 
    Part "dstPort" Mandatory (ARef "Port" None)] [] []);
  TypeA "Alive" (ASequence true [
    Part "timestamp" Mandatory (ARef "UTC-Timestamp" None)] [] []);
  TypeA "Data" (ASequence false [
    Part "sequenceNumber" Mandatory (ARef "SequenceNumber" None); 
    Part "swRelease" Mandatory (AEnumer ["rel1"; "rel2"; "rel3"] (Some [])); 
    Part "macroId" Optional (ABitstr (Some (Range (BNum (20)) (BNum (20)) false))); 
    Part "payload" Mandatory (ARef "Payload" None)] [] []);
  TypeA "Port" (AInteger (Some (Range (BNum (10000)) (BNum (65535)) false)));
  TypeA "SequenceNumber" (AInteger (Some (Range (BNum (0)) (BNum (65535)) false)));
  TypeA "UTC-Timestamp" (ASequence false [
    Part "seconds" Mandatory (AInteger (Some (Range (BNum (0)) (BNum (4294967295)) false))); 
    Part "useconds" Mandatory (AInteger (Some (Range (BNum (0)) (BNum (4294967295)) false)))] [] []);
  TypeA "Payload" (ASeqOf (Some (Range (BNum (1)) (BNum (5)) false)) (ARef "Message" None));
  TypeA "Message" (AOctets (Some (Range (BNum (1)) (BNum (4)) false)))].
Example parsed_SimpleProtocol : map parsed_as asn_SimpleProtocol = schema_SimpleProtocol.
Proof. vm_compute. reflexivity. Qed.

Definition asn_SimpleTypes : schema := [
  TypeA "MyInt" (AInteger None);
  TypeA "My-Int" (AInteger None);
  TypeA "MyBool" (ABoolean);
  TypeA "My-Bool" (ABoolean);
  TypeA "MyOctetString" (AOctets None);
  TypeA "My-Octet-String" (AOctets None);
  TypeA "MyBitString" (ABitstr None);
  TypeA "My-Bit-String" (ABitstr None);
  TypeA "MyEnumerated" (AEnumer ["one"; "two"; "three"] None);
  TypeA "My-Enumerated" (AEnumer ["one"; "two"; "three"] None);
  ValueA "constant-Int" (AInteger None) (LNum (10));
  ValueA "constant-Bool" (ABoolean) (LBoolean true);
  ValueA "constant-Octet-String-one" (AOctets None) (LHex [13%Z; 14%Z; 10%Z; 13%Z]);
  ValueA "constant-Octet-String-two" (AOctets None) (LBin [true; true; true; true; false; false; false; false]);
  ValueA "constant-Bit-String-one" (ABitstr None) (LHex [11%Z; 14%Z; 14%Z; 15%Z]);
  ValueA "constant-Bit-String-two" (ABitstr None) (LBin [false; true; false; true; false; true; false; true]);
  ValueA "my-constant-Int" (ARef "MyInt" None) (LNum (200));
  ValueA "my-constant-Int-Two" (ARef "My-Int" None) (LNum (12345));
  ValueA "my-constant-Bool" (ARef "MyBool" None) (LBoolean false);
  ValueA "my-constant-Bool-Two" (ARef "My-Bool" None) (LBoolean true);
  ValueA "my-constant-Octet-String-one" (ARef "MyOctetString" None) (LHex [15%Z; 14%Z; 14%Z; 13%Z]);
  ValueA "my-constant-Octet-String-one-Two" (ARef "My-Octet-String" None) (LHex [13%Z; 14%Z; 14%Z; 15%Z]);
  ValueA "my-constant-Octet-String-two" (ARef "MyOctetString" None) (LBin [false; false; false; false; true; true; true; true]);
  ValueA "my-constant-Octet-String-two-Two" (ARef "My-Octet-String" None) (LBin [true; true; true; true; false; false; false; false]);
  ValueA "my-constant-Bit-String-one" (ARef "MyBitString" None) (LHex [10%Z; 11%Z; 12%Z; 13%Z]);
  ValueA "my-constant-Bit-String-one-Two" (ARef "My-Bit-String" None) (LHex [13%Z; 12%Z; 11%Z; 10%Z]);
  ValueA "my-constant-Bit-String-two" (ARef "MyBitString" None) (LBin [true; false; true; false; true; false; true; false]);
  ValueA "my-constant-Bit-String-two-Two" (ARef "My-Bit-String" None) (LBin [false; true; false; true; false; true; false; true])].
Example parsed_SimpleTypes : map parsed_as asn_SimpleTypes = schema_SimpleTypes.
Proof. vm_compute. reflexivity. Qed.

Definition asn_Types_constrained : schema := [
  TypeA "MyInt1" (AInteger (Some (Range (BNum (-5)) (BNum (-1)) false)));
  TypeA "MyInt2" (AInteger (Some (Range (BNum (-25)) (BNum (20000000)) true)));
  TypeA "MyInt3" (AInteger (Some (Range (BNum (-25)) BMax false)));
  TypeA "MyInt4" (AInteger (Some (Range BMin (BNum (0)) false)));
  TypeA "MyInt5" (AInteger (Some (Range BMin (BRef "maxNumber") false)));
  TypeA "MyOctetString1" (AOctets (Some (Range (BNum (1)) (BNum (4)) false)));
  TypeA "MyOctetString2" (AOctets (Some (Range (BNum (0)) (BNum (30)) true)));
  TypeA "MyOctetString3" (AOctets (Some (Range (BNum (0)) (BRef "maxNumber") true)));
  TypeA "MyBitString1" (ABitstr (Some (Range (BNum (10)) (BNum (100)) false)));
  TypeA "MyBitString2" (ABitstr (Some (Range (BNum (100)) (BNum (10000)) true)));
  TypeA "MyBitString3" (ABitstr (Some (Range (BNum (0)) (BRef "maxNumber") true)));
  TypeA "MySeqOf1" (ASeqOf (Some (Range (BNum (1)) (BRef "maxNumber") false)) (AOctets None));
  TypeA "MySeqOf2" (ASeqOf (Some (Range (BNum (1)) (BRef "maxNumber") true)) (ARef "MyBitString1" None));
  ValueA "maxNumber" (AInteger None) (LNum (255))].
Example parsed_Types_constrained : map parsed_as asn_Types_constrained = schema_Types_constrained.
Proof. vm_compute. reflexivity. Qed.

Definition asn_Types_containing_constrained_types : schema := [
  TypeA "MySeq1" (ASequence true [
    Part "my-Int1" Mandatory (AInteger (Some (Range (BRef "minNumber") (BNum (10)) true))); 
    Part "my-Int2" Mandatory (AInteger None); 
    Part "myBitString1" Mandatory (ABitstr (Some (Range (BNum (0)) (BRef "maxNumber") false))); 
    Part "myOctetString1" Mandatory (AOctets (Some (Range (BNum (1)) (BNum (4)) false)))] [] []);
  TypeA "MySeq2" (ASequence false [
    Part "myInt3" Mandatory (AInteger None); 
    Part "myOctetString2" Mandatory (AOctets (Some (Range (BNum (1)) (BNum (4)) true))); 
    Part "myInt4" Mandatory (AInteger (Some (Range BMin (BNum (1)) false)))] [] []);
  TypeA "DataList" (ASeqOf (Some (Range (BNum (1)) (BNum (10)) false)) (ARef "Data" None));
  TypeA "Data" (ASequence true [
    Part "i0" Mandatory (AInteger (Some (Range (BNum (0)) BMax false))); 
    Part "i1" Mandatory (AOctets None)] [
    Part "i2" Mandatory (AOctets (Some (Range (BNum (1)) (BNum (10)) false)))] []);
  TypeA "MyChoice" (AChoice true [
    Part "c0" Mandatory (AOctets (Some (Range (BNum (0)) (BRef "maxNumber") true))); 
    Part "c1" Mandatory (AInteger None); 
    Part "c-two" Mandatory (AInteger (Some (Range BMin (BNum (0)) false)))] [
    Part "c3" Mandatory (ARef "MyEnum" None); 
    Part "c4" Mandatory (ABitstr (Some (Range (BNum (0)) (BNum (20)) false)))] []);
  TypeA "MyEnum" (AEnumer ["one"; "two"; "three"] (Some []));
  ValueA "minNumber" (AInteger None) (LNum (-10));
  ValueA "maxNumber" (AInteger None) (LNum (255))].
Example parsed_Types_containing_constrained_types : map parsed_as asn_Types_containing_constrained_types = schema_Types_containing_constrained_types.
Proof. vm_compute. reflexivity. Qed.
