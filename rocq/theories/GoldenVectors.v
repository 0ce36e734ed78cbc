(** Schemas of the test suite and the modules it expects for them.  Written by
    tools/goldens.py from asn1PERser/test/parsing; do not edit. *)

From Coq Require Import List String.
Import ListNotations.
From Verif Require Import Generator.

Open Scope string_scope.
Open Scope list_scope.

(** asn1_schemas/Choice_Simple.asn1 *)
Definition schema_Choice_Simple : list ptype := [
  PT KChoice "Order" "" "" false None None None [
    inr (PT KInt "IntegerType" "one" "" false None None None []); 
    inr (PT KDefined "MyInteger" "two" "" false None None None []); 
    inr (PT KOcts "OctetStringType" "three" "" false None None None []); 
    inr (PT KDefined "MyOctetString" "four" "" false None None None []); 
    inr (PT KBits "BitStringType" "five" "" false None None None []); 
    inr (PT KDefined "MyBitString" "six" "" false None None None []); 
    inr (PT KBool "BooleanType" "seven" "" false None None None []); 
    inr (PT KDefined "MyBoolean" "eight" "" false None None None [])];
  PT KInt "MyInteger" "" "" false None None None [];
  PT KOcts "MyOctetString" "" "" false None None None [];
  PT KBits "MyBitString" "" "" false None None None [];
  PT KBool "MyBoolean" "" "" false None None None []].

(** asn1_python_code/Choice_Simple.py *)
Definition module_Choice_Simple : string :=
"from pyasn1.type.namedtype import NamedType, NamedTypes, OptionalNamedType, DefaultedNamedType
from pyasn1.type.namedval import NamedValues
from asn1PERser.classes.data.builtin import *
from asn1PERser.classes.types.type import AdditiveNamedTypes
from asn1PERser.classes.types.constraint import MIN, MAX, NoConstraint, ExtensionMarker, SequenceOfValueSize, \
    ValueRange, SingleValue, ValueSize, ConstraintOr, ConstraintAnd


class MyInteger(IntegerType):
    pass


class MyOctetString(OctetStringType):
    pass


class MyBitString(BitStringType):
    pass


class MyBoolean(BooleanType):
    pass


class Order(ChoiceType):
    rootComponent = AdditiveNamedTypes(
        NamedType('one', IntegerType()),
        NamedType('two', MyInteger()),
        NamedType('three', OctetStringType()),
        NamedType('four', MyOctetString()),
        NamedType('five', BitStringType()),
        NamedType('six', MyBitString()),
        NamedType('seven', BooleanType()),
        NamedType('eight', MyBoolean()),
    )
    componentType = rootComponent


".

(** asn1_schemas/ComponentTypes.asn1 *)
Definition schema_ComponentTypes : list ptype := [
  PT KChoice "Order" "" "" false None None None [
    inr (PT KDefined "MoveOrder" "move" "" false None None None []); 
    inr (PT KDefined "Data" "sendData" "" false None None None [])];
  PT KChoice "MoveOrder" "" "" false None None None [
    inr (PT KDefined "Meters" "up" "" false None None None []); 
    inr (PT KDefined "Meters" "down" "" false None None None []); 
    inr (PT KDefined "Meters" "left" "" false None None None []); 
    inr (PT KDefined "Meters" "right" "" false None None None [])];
  PT KInt "Meters" "" "" false None None None [];
  PT KOcts "Picture" "" "" false None None None [];
  PT KSeq "Data" "" "" false None None None [
    inr (PT KInt "IntegerType" "id" "" false None None None []); 
    inr (PT KSeqOf "SequenceOfType" "pictures" "" false None None None [
      inr (PT KDefined "Picture" "" "" false None None None [])])]].

(** asn1_python_code/ComponentTypes.py *)
Definition module_ComponentTypes : string :=
"from pyasn1.type.namedtype import NamedType, NamedTypes, OptionalNamedType, DefaultedNamedType
from pyasn1.type.namedval import NamedValues
from asn1PERser.classes.data.builtin import *
from asn1PERser.classes.types.type import AdditiveNamedTypes
from asn1PERser.classes.types.constraint import MIN, MAX, NoConstraint, ExtensionMarker, SequenceOfValueSize, \
    ValueRange, SingleValue, ValueSize, ConstraintOr, ConstraintAnd


class Meters(IntegerType):
    pass


class Picture(OctetStringType):
    pass


class MoveOrder(ChoiceType):
    rootComponent = AdditiveNamedTypes(
        NamedType('up', Meters()),
        NamedType('down', Meters()),
        NamedType('left', Meters()),
        NamedType('right', Meters()),
    )
    componentType = rootComponent


class Data(SequenceType):
    class pictures(SequenceOfType):
        componentType = Picture()

    rootComponent = AdditiveNamedTypes(
        NamedType('id', IntegerType()),
        NamedType('pictures', pictures()),
    )
    componentType = rootComponent


class Order(ChoiceType):
    rootComponent = AdditiveNamedTypes(
        NamedType('move', MoveOrder()),
        NamedType('sendData', Data()),
    )
    componentType = rootComponent


".

(** asn1_schemas/ComponentTypes_containing_ComponentTypes.asn1 *)
Definition schema_ComponentTypes_containing_ComponentTypes : list ptype := [
  PT KSeq "MySeq1" "" "" false None None None [
    inr (PT KChoice "ChoiceType" "data" "" false None None None [
      inr (PT KDefined "InnerSequence" "inner-seq" "" false None None None []); 
      inr (PT KInt "IntegerType" "my-int-1" "" false None None None []); 
      inr (PT KInt "IntegerType" "my-int-2" "" false None None (Some ("1", "2", false)) []); 
      inr (PT KDefined "MyBitString" "my-bit" "" false None None None [])]); 
    inr (PT KInt "IntegerType" "my-int-3" "" false None None (Some ("10", "20", false)) []); 
    inr (PT KOcts "OctetStringType" "my-octet" "" false None None None [])];
  PT KSeq "InnerSequence" "" "" false None None None [
    inr (PT KInt "IntegerType" "i0" "" false None None None []); 
    inr (PT KInt "IntegerType" "i1" "" false None None None [])];
  PT KBits "MyBitString" "" "" false None None (Some ("1", "maxNumber", true)) [];
  PT KSeq "MySeq2" "" "" false None None None [
    inr (PT KInt "IntegerType" "i0" "" false None None None []); 
    inr (PT KEnum "EnumeratedType" "enum-one" "" false None None None [inl "one"; inl "two"; inl "..."]); 
    inr (PT KOcts "OctetStringType" "o1" "" false None None (Some ("1", "10", false)) [])];
  PT KSeq "SrcTcpData" "" "" false None None None [
    inr (PT KSeqOf "SequenceOfType" "data" "" false None None (Some ("1", "maxNumber", false)) [
      inr (PT KDefined "TcpData" "" "" false None None None [])]); inl "..."];
  PT KSeq "TgtTcpData" "" "" false None None None [
    inr (PT KSeqOf "SequenceOfType" "data" "" false None None (Some ("1", "maxNumber", false)) [
      inr (PT KDefined "TcpData" "" "" false None None None [])]); inl "..."];
  PT KSeq "SrcUdpData" "" "" false None None None [
    inr (PT KSeqOf "SequenceOfType" "data" "" false None None (Some ("1", "maxNumber", false)) [
      inr (PT KDefined "SrcUdpTput" "" "" false None None None [])]); inl "..."];
  PT KSeq "TgtUdpData" "" "" false None None None [
    inr (PT KSeqOf "SequenceOfType" "data" "" false None None (Some ("1", "maxNumber", false)) [
      inr (PT KDefined "TgtUdpTput" "" "" false None None None [])]); inl "..."];
  PT KSeq "IpData" "" "" false None None None [
    inr (PT KSeqOf "SequenceOfType" "data" "" false None None (Some ("1", "maxNumber", false)) [
      inr (PT KDefined "BigIpData" "" "" false None None None [])]); inl "..."];
  PT KChoice "MyChoice" "" "" false None None None [
    inr (PT KEnum "EnumeratedType" "enum-two" "" false None None None [inl "three"; inl "four"]); 
    inr (PT KSeq "SequenceType" "inner-seq-2" "" false None None None [
      inr (PT KInt "IntegerType" "i0" "" false None None None []); 
      inr (PT KBits "BitStringType" "i1" "" false None None (Some ("1", "2", false)) [])]); 
    inr (PT KOcts "OctetStringType" "o1" "" false None None (Some ("1", "10", false)) []); 
    inr (PT KInt "IntegerType" "my-int-4" "" false None None None [])];
  PT KInt "TcpData" "" "" false None None None [];
  PT KInt "SrcUdpTput" "" "" false None None None [];
  PT KInt "TgtUdpTput" "" "" false None None None [];
  PT KSeq "BigIpData" "" "" false None None None [
    inr (PT KInt "IntegerType" "d0" "" false None None (Some ("-1", "1", false)) []); 
    inr (PT KOcts "OctetStringType" "d1" "" false None None (Some ("1", "20", false)) [])];
  PT KInt "IntegerType" "" "minNumber" false None (Some "-10") None [];
  PT KInt "IntegerType" "" "maxNumber" false None (Some "255") None []].

(** asn1_python_code/ComponentTypes_containing_ComponentTypes.py *)
Definition module_ComponentTypes_containing_ComponentTypes : string :=
"from pyasn1.type.namedtype import NamedType, NamedTypes, OptionalNamedType, DefaultedNamedType
from pyasn1.type.namedval import NamedValues
from asn1PERser.classes.data.builtin import *
from asn1PERser.classes.types.type import AdditiveNamedTypes
from asn1PERser.classes.types.constraint import MIN, MAX, NoConstraint, ExtensionMarker, SequenceOfValueSize, \
    ValueRange, SingleValue, ValueSize, ConstraintOr, ConstraintAnd


minNumber = IntegerType(-10)


maxNumber = IntegerType(255)


class MyBitString(BitStringType):
    subtypeSpec = ValueSize(1, maxNumber, extensionMarker=True)


class TcpData(IntegerType):
    pass


class SrcUdpTput(IntegerType):
    pass


class TgtUdpTput(IntegerType):
    pass


class InnerSequence(SequenceType):
    rootComponent = AdditiveNamedTypes(
        NamedType('i0', IntegerType()),
        NamedType('i1', IntegerType()),
    )
    componentType = rootComponent


class MySeq1(SequenceType):
    class data(ChoiceType):
        class my_int_2(IntegerType):
            subtypeSpec = ValueRange(1, 2)

        rootComponent = AdditiveNamedTypes(
            NamedType('inner-seq', InnerSequence()),
            NamedType('my-int-1', IntegerType()),
            NamedType('my-int-2', my_int_2()),
            NamedType('my-bit', MyBitString()),
        )
        componentType = rootComponent

    class my_int_3(IntegerType):
        subtypeSpec = ValueRange(10, 20)

    rootComponent = AdditiveNamedTypes(
        NamedType('data', data()),
        NamedType('my-int-3', my_int_3()),
        NamedType('my-octet', OctetStringType()),
    )
    componentType = rootComponent


class MySeq2(SequenceType):
    class enum_one(EnumeratedType):
        subtypeSpec = ExtensionMarker(True)
        enumerationRoot = NamedValues(
            ('one', 0),
            ('two', 1),
        )
        namedValues = enumerationRoot

    class o1(OctetStringType):
        subtypeSpec = ValueSize(1, 10)

    rootComponent = AdditiveNamedTypes(
        NamedType('i0', IntegerType()),
        NamedType('enum-one', enum_one()),
        NamedType('o1', o1()),
    )
    componentType = rootComponent


class SrcTcpData(SequenceType):
    class data(SequenceOfType):
        subtypeSpec = SequenceOfValueSize(1, maxNumber)
        componentType = TcpData()

    subtypeSpec = ExtensionMarker(True)
    rootComponent = AdditiveNamedTypes(
        NamedType('data', data()),
    )
    componentType = rootComponent


class TgtTcpData(SequenceType):
    class data(SequenceOfType):
        subtypeSpec = SequenceOfValueSize(1, maxNumber)
        componentType = TcpData()

    subtypeSpec = ExtensionMarker(True)
    rootComponent = AdditiveNamedTypes(
        NamedType('data', data()),
    )
    componentType = rootComponent


class SrcUdpData(SequenceType):
    class data(SequenceOfType):
        subtypeSpec = SequenceOfValueSize(1, maxNumber)
        componentType = SrcUdpTput()

    subtypeSpec = ExtensionMarker(True)
    rootComponent = AdditiveNamedTypes(
        NamedType('data', data()),
    )
    componentType = rootComponent


class TgtUdpData(SequenceType):
    class data(SequenceOfType):
        subtypeSpec = SequenceOfValueSize(1, maxNumber)
        componentType = TgtUdpTput()

    subtypeSpec = ExtensionMarker(True)
    rootComponent = AdditiveNamedTypes(
        NamedType('data', data()),
    )
    componentType = rootComponent


class BigIpData(SequenceType):
    class d0(IntegerType):
        subtypeSpec = ValueRange(-1, 1)

    class d1(OctetStringType):
        subtypeSpec = ValueSize(1, 20)

    rootComponent = AdditiveNamedTypes(
        NamedType('d0', d0()),
        NamedType('d1', d1()),
    )
    componentType = rootComponent


class IpData(SequenceType):
    class data(SequenceOfType):
        subtypeSpec = SequenceOfValueSize(1, maxNumber)
        componentType = BigIpData()

    subtypeSpec = ExtensionMarker(True)
    rootComponent = AdditiveNamedTypes(
        NamedType('data', data()),
    )
    componentType = rootComponent


class MyChoice(ChoiceType):
    class enum_two(EnumeratedType):
        enumerationRoot = NamedValues(
            ('three', 0),
            ('four', 1),
        )
        namedValues = enumerationRoot

    class inner_seq_2(SequenceType):
        class i1(BitStringType):
            subtypeSpec = ValueSize(1, 2)

        rootComponent = AdditiveNamedTypes(
            NamedType('i0', IntegerType()),
            NamedType('i1', i1()),
        )
        componentType = rootComponent

    class o1(OctetStringType):
        subtypeSpec = ValueSize(1, 10)

    rootComponent = AdditiveNamedTypes(
        NamedType('enum-two', enum_two()),
        NamedType('inner-seq-2', inner_seq_2()),
        NamedType('o1', o1()),
        NamedType('my-int-4', IntegerType()),
    )
    componentType = rootComponent


".

(** asn1_schemas/ComponentTypes_extensionAddition.asn1 *)
Definition schema_ComponentTypes_extensionAddition : list ptype := [
  PT KSeq "MySeq" "" "" false None None None [
    inr (PT KInt "IntegerType" "int0" "" false None None None []); 
    inr (PT KDefined "OtherSequence" "otherSeq" "" false None None None []); inl "..."; 
    inr (PT KInt "IntegerType" "add0" "" false None None None []); 
    inr (PT KBool "BooleanType" "add1" "" false None None None [])];
  PT KSeq "OtherSequence" "" "" false None None None [
    inr (PT KDefined "YetOtherSeq" "yetOtherSeq" "" false None None None []); 
    inr (PT KBool "BooleanType" "myBool" "" false None None None []); inl "..."; 
    inr (PT KBits "BitStringType" "add2" "" false None None None [])];
  PT KSeq "YetOtherSeq" "" "" false None None None [
    inr (PT KDefined "MyEnum" "myEnum" "" false None None None []); 
    inr (PT KDefined "MyChoice" "myChoice" "" false None None None []); inl "..."; 
    inr (PT KOcts "OctetStringType" "add3" "" false None None None []); 
    inr (PT KInt "IntegerType" "add4" "" false None None None [])];
  PT KEnum "MyEnum" "" "" false None None None [inl "zero"; inl "one"; inl "two"; inl "three"; inl "..."; inl "four"; inl "five"];
  PT KChoice "MyChoice" "" "" false None None None [
    inr (PT KInt "IntegerType" "c0" "" false None None None []); 
    inr (PT KDefined "ThirdSequence" "c1" "" false None None None []); 
    inr (PT KBool "BooleanType" "c2" "" false None None None []); inl "..."; 
    inr (PT KInt "IntegerType" "c3" "" false None None None []); 
    inr (PT KBool "BooleanType" "c4" "" false None None None [])];
  PT KSeqOf "ThirdSequence" "" "" false None None None [
    inr (PT KOcts "OctetStringType" "" "" false None None None [])]].

(** asn1_python_code/ComponentTypes_extensionAddition.py *)
Definition module_ComponentTypes_extensionAddition : string :=
"from pyasn1.type.namedtype import NamedType, NamedTypes, OptionalNamedType, DefaultedNamedType
from pyasn1.type.namedval import NamedValues
from asn1PERser.classes.data.builtin import *
from asn1PERser.classes.types.type import AdditiveNamedTypes
from asn1PERser.classes.types.constraint import MIN, MAX, NoConstraint, ExtensionMarker, SequenceOfValueSize, \
    ValueRange, SingleValue, ValueSize, ConstraintOr, ConstraintAnd


class MyEnum(EnumeratedType):
    subtypeSpec = ExtensionMarker(True)
    enumerationRoot = NamedValues(
        ('zero', 0),
        ('one', 1),
        ('two', 2),
        ('three', 3),
    )
    extensionAddition = NamedValues(
        ('four', 4),
        ('five', 5),
    )
    namedValues = enumerationRoot + extensionAddition


class ThirdSequence(SequenceOfType):
    componentType = OctetStringType()


class MyChoice(ChoiceType):
    subtypeSpec = ExtensionMarker(True)
    rootComponent = AdditiveNamedTypes(
        NamedType('c0', IntegerType()),
        NamedType('c1', ThirdSequence()),
        NamedType('c2', BooleanType()),
    )
    extensionAddition = AdditiveNamedTypes(
        NamedType('c3', IntegerType()),
        NamedType('c4', BooleanType()),
    )
    componentType = rootComponent + extensionAddition


class YetOtherSeq(SequenceType):
    subtypeSpec = ExtensionMarker(True)
    rootComponent = AdditiveNamedTypes(
        NamedType('myEnum', MyEnum()),
        NamedType('myChoice', MyChoice()),
    )
    extensionAddition = AdditiveNamedTypes(
        NamedType('add3', OctetStringType()),
        NamedType('add4', IntegerType()),
    )
    componentType = rootComponent + extensionAddition


class OtherSequence(SequenceType):
    subtypeSpec = ExtensionMarker(True)
    rootComponent = AdditiveNamedTypes(
        NamedType('yetOtherSeq', YetOtherSeq()),
        NamedType('myBool', BooleanType()),
    )
    extensionAddition = AdditiveNamedTypes(
        NamedType('add2', BitStringType()),
    )
    componentType = rootComponent + extensionAddition


class MySeq(SequenceType):
    subtypeSpec = ExtensionMarker(True)
    rootComponent = AdditiveNamedTypes(
        NamedType('int0', IntegerType()),
        NamedType('otherSeq', OtherSequence()),
    )
    extensionAddition = AdditiveNamedTypes(
        NamedType('add0', IntegerType()),
        NamedType('add1', BooleanType()),
    )
    componentType = rootComponent + extensionAddition


".

(** asn1_schemas/ComponentTypes_extensionAdditionGroup.asn1 *)
Definition schema_ComponentTypes_extensionAdditionGroup : list ptype := [
  PT KSeq "Data1" "" "" false None None None [
    inr (PT KOcts "OctetStringType" "d0" "" false None None None []); inl "..."; inl "[["; 
    inr (PT KBits "BitStringType" "d1" "" false None None (Some ("1", "20", true)) []); 
    inr (PT KDefined "MySeq" "d2" "" false None None None []); inl "]]"];
  PT KChoice "Data2" "" "" false None None None [
    inr (PT KInt "IntegerType" "c0" "" false None None (Some ("1", "MAX", false)) []); inl "..."; inl "[["; 
    inr (PT KDefined "MyEnum" "c1" "" false None None None []); 
    inr (PT KBool "BooleanType" "c2" "" false None None None []); inl "]]"; inl "[["; 
    inr (PT KOcts "OctetStringType" "c3" "" false None None (Some ("5", "10", false)) []); 
    inr (PT KDefined "MySeq" "c4" "" false None None None []); inl "]]"];
  PT KSeq "Data3" "" "" false None None None [
    inr (PT KInt "IntegerType" "s0" "" false None None None []); inl "..."; 
    inr (PT KInt "IntegerType" "s4" "" false None None None []); 
    inr (PT KInt "IntegerType" "s5" "" false None None None []); inl "[["; 
    inr (PT KDefined "MySeq" "s1" "" false None None None []); 
    inr (PT KInt "IntegerType" "s2" "" true None None None []); inl "]]"; inl "[["; 
    inr (PT KInt "IntegerType" "s3" "" false None None (Some ("-10", "100", false)) []); 
    inr (PT KDefined "MyEnum" "s6" "" false None None None []); inl "]]"];
  PT KEnum "MyEnum" "" "" false None None None [inl "one"; inl "two"];
  PT KSeq "MySeq" "" "" false None None None [
    inr (PT KInt "IntegerType" "i0" "" false None None (Some ("10", "20", false)) []); 
    inr (PT KInt "IntegerType" "i1" "" false None None None [])]].

(** asn1_python_code/ComponentTypes_extensionAdditionGroup.py *)
Definition module_ComponentTypes_extensionAdditionGroup : string :=
"from pyasn1.type.namedtype import NamedType, NamedTypes, OptionalNamedType, DefaultedNamedType
from pyasn1.type.namedval import NamedValues
from asn1PERser.classes.data.builtin import *
from asn1PERser.classes.types.type import AdditiveNamedTypes
from asn1PERser.classes.types.constraint import MIN, MAX, NoConstraint, ExtensionMarker, SequenceOfValueSize, \
    ValueRange, SingleValue, ValueSize, ConstraintOr, ConstraintAnd


class MyEnum(EnumeratedType):
    enumerationRoot = NamedValues(
        ('one', 0),
        ('two', 1),
    )
    namedValues = enumerationRoot


class MySeq(SequenceType):
    class i0(IntegerType):
        subtypeSpec = ValueRange(10, 20)

    rootComponent = AdditiveNamedTypes(
        NamedType('i0', i0()),
        NamedType('i1', IntegerType()),
    )
    componentType = rootComponent


class Data1(SequenceType):
    class d1(BitStringType):
        subtypeSpec = ValueSize(1, 20, extensionMarker=True)

    subtypeSpec = ExtensionMarker(True)
    rootComponent = AdditiveNamedTypes(
        NamedType('d0', OctetStringType()),
    )
    extensionAdditionGroups = [
        AdditiveNamedTypes(
            NamedType('d1', d1()),
            NamedType('d2', MySeq()),
        ),
    ]
    componentType = rootComponent + extensionAdditionGroups


class Data2(ChoiceType):
    class c0(IntegerType):
        subtypeSpec = ValueRange(1, MAX)

    class c3(OctetStringType):
        subtypeSpec = ValueSize(5, 10)

    subtypeSpec = ExtensionMarker(True)
    rootComponent = AdditiveNamedTypes(
        NamedType('c0', c0()),
    )
    extensionAdditionGroups = [
        AdditiveNamedTypes(
            NamedType('c1', MyEnum()),
            NamedType('c2', BooleanType()),
        ),
        AdditiveNamedTypes(
            NamedType('c3', c3()),
            NamedType('c4', MySeq()),
        ),
    ]
    componentType = rootComponent + extensionAdditionGroups


class Data3(SequenceType):
    class s3(IntegerType):
        subtypeSpec = ValueRange(-10, 100)

    subtypeSpec = ExtensionMarker(True)
    rootComponent = AdditiveNamedTypes(
        NamedType('s0', IntegerType()),
    )
    extensionAddition = AdditiveNamedTypes(
        NamedType('s4', IntegerType()),
        NamedType('s5', IntegerType()),
    )
    extensionAdditionGroups = [
        AdditiveNamedTypes(
            NamedType('s1', MySeq()),
            OptionalNamedType('s2', IntegerType()),
        ),
        AdditiveNamedTypes(
            NamedType('s3', s3()),
            NamedType('s6', MyEnum()),
        ),
    ]
    componentType = rootComponent + extensionAddition + extensionAdditionGroups


".

(** asn1_schemas/ComponentTypes_extensionMarker.asn1 *)
Definition schema_ComponentTypes_extensionMarker : list ptype := [
  PT KSeq "MySeq" "" "" false None None None [
    inr (PT KInt "IntegerType" "int0" "" false None None None []); 
    inr (PT KDefined "OtherSequence" "otherSeq" "" false None None None []); inl "..."];
  PT KSeq "OtherSequence" "" "" false None None None [
    inr (PT KDefined "YetOtherSeq" "yetOtherSeq" "" false None None None []); 
    inr (PT KBool "BooleanType" "myBool" "" false None None None []); inl "..."];
  PT KSeq "YetOtherSeq" "" "" false None None None [
    inr (PT KDefined "MyEnum" "myEnum" "" false None None None []); 
    inr (PT KDefined "MyChoice" "myChoice" "" false None None None []); inl "..."];
  PT KEnum "MyEnum" "" "" false None None None [inl "zero"; inl "one"; inl "two"; inl "three"; inl "..."];
  PT KChoice "MyChoice" "" "" false None None None [
    inr (PT KInt "IntegerType" "c0" "" false None None None []); 
    inr (PT KDefined "ThirdSequence" "c1" "" false None None None []); 
    inr (PT KBool "BooleanType" "c2" "" false None None None []); inl "..."];
  PT KSeqOf "ThirdSequence" "" "" false None None None [
    inr (PT KOcts "OctetStringType" "" "" false None None None [])]].

(** asn1_python_code/ComponentTypes_extensionMarker.py *)
Definition module_ComponentTypes_extensionMarker : string :=
"from pyasn1.type.namedtype import NamedType, NamedTypes, OptionalNamedType, DefaultedNamedType
from pyasn1.type.namedval import NamedValues
from asn1PERser.classes.data.builtin import *
from asn1PERser.classes.types.type import AdditiveNamedTypes
from asn1PERser.classes.types.constraint import MIN, MAX, NoConstraint, ExtensionMarker, SequenceOfValueSize, \
    ValueRange, SingleValue, ValueSize, ConstraintOr, ConstraintAnd


class MyEnum(EnumeratedType):
    subtypeSpec = ExtensionMarker(True)
    enumerationRoot = NamedValues(
        ('zero', 0),
        ('one', 1),
        ('two', 2),
        ('three', 3),
    )
    namedValues = enumerationRoot


class ThirdSequence(SequenceOfType):
    componentType = OctetStringType()


class MyChoice(ChoiceType):
    subtypeSpec = ExtensionMarker(True)
    rootComponent = AdditiveNamedTypes(
        NamedType('c0', IntegerType()),
        NamedType('c1', ThirdSequence()),
        NamedType('c2', BooleanType()),
    )
    componentType = rootComponent


class YetOtherSeq(SequenceType):
    subtypeSpec = ExtensionMarker(True)
    rootComponent = AdditiveNamedTypes(
        NamedType('myEnum', MyEnum()),
        NamedType('myChoice', MyChoice()),
    )
    componentType = rootComponent


class OtherSequence(SequenceType):
    subtypeSpec = ExtensionMarker(True)
    rootComponent = AdditiveNamedTypes(
        NamedType('yetOtherSeq', YetOtherSeq()),
        NamedType('myBool', BooleanType()),
    )
    componentType = rootComponent


class MySeq(SequenceType):
    subtypeSpec = ExtensionMarker(True)
    rootComponent = AdditiveNamedTypes(
        NamedType('int0', IntegerType()),
        NamedType('otherSeq', OtherSequence()),
    )
    componentType = rootComponent


".

(** asn1_schemas/DefinedType_Simple.asn1 *)
Definition schema_DefinedType_Simple : list ptype := [
  PT KSeq "MySeq1" "" "" false None None None [
    inr (PT KInt "IntegerType" "d00" "" false (Some "10") None None []); 
    inr (PT KInt "IntegerType" "d01" "" false (Some "0") None None [])];
  PT KInt "MyInt1" "" "" false None None (Some ("-5", "-1", false)) [];
  PT KOcts "MyOctetString1" "" "" false None None (Some ("1", "4", false)) [];
  PT KBits "MyBitString1" "" "" false None None None [];
  PT KBool "MyBoolean1" "" "" false None None None [];
  PT KEnum "MyEnumerated1" "" "" false None None None [inl "four"; inl "five"; inl "six"];
  PT KDefined "MyInt1" "MyInt2" "" false None None None [];
  PT KDefined "MyInt2" "MyInt3" "" false None None None [];
  PT KDefined "MyOctetString1" "MyOctetString2" "" false None None None [];
  PT KDefined "MyOctetString2" "MyOctetString3" "" false None None None [];
  PT KDefined "MyBitString1" "MyBitString2" "" false None None None [];
  PT KDefined "MyBitString2" "MyBitString3" "" false None None None [];
  PT KDefined "MyBoolean1" "MyBoolean2" "" false None None None [];
  PT KDefined "MyBoolean2" "MyBoolean3" "" false None None None [];
  PT KDefined "MyEnumerated1" "MyEnumerated2" "" false None None None [];
  PT KDefined "MyEnumerated2" "MyEnumerated3" "" false None None None [];
  PT KDefined "MySeq1" "MySeq2" "" false None None None [];
  PT KSeq "MySeq3" "" "" false None None None [
    inr (PT KDefined "MyInt2" "d03" "" false None None None []); 
    inr (PT KDefined "MyInt3" "d04" "" false None None None []); 
    inr (PT KDefined "MyOctetString2" "d05" "" false None None None []); 
    inr (PT KDefined "MyOctetString3" "d06" "" false None None None []); 
    inr (PT KDefined "MyBitString2" "d07" "" false None None None []); 
    inr (PT KDefined "MyBitString3" "d08" "" false None None None []); 
    inr (PT KDefined "MyBoolean2" "d09" "" false None None None []); 
    inr (PT KDefined "MyBoolean3" "d10" "" false None None None []); 
    inr (PT KDefined "MyEnumerated2" "d11" "" false None None None []); 
    inr (PT KDefined "MyEnumerated3" "d12" "" false None None None [])];
  PT KDefined "MySeq1" "MySeq4" "" false None None None [];
  PT KDefined "MySeq3" "MySeq5" "" false None None None []].

(** asn1_python_code/DefinedType_Simple.py *)
Definition module_DefinedType_Simple : string :=
"from pyasn1.type.namedtype import NamedType, NamedTypes, OptionalNamedType, DefaultedNamedType
from pyasn1.type.namedval import NamedValues
from asn1PERser.classes.data.builtin import *
from asn1PERser.classes.types.type import AdditiveNamedTypes
from asn1PERser.classes.types.constraint import MIN, MAX, NoConstraint, ExtensionMarker, SequenceOfValueSize, \
    ValueRange, SingleValue, ValueSize, ConstraintOr, ConstraintAnd


class MyInt1(IntegerType):
    subtypeSpec = ValueRange(-5, -1)


class MyOctetString1(OctetStringType):
    subtypeSpec = ValueSize(1, 4)


class MyBitString1(BitStringType):
    pass


class MyBoolean1(BooleanType):
    pass


class MyEnumerated1(EnumeratedType):
    enumerationRoot = NamedValues(
        ('four', 0),
        ('five', 1),
        ('six', 2),
    )
    namedValues = enumerationRoot


MyInt2 = MyInt1


MyInt3 = MyInt2


MyOctetString2 = MyOctetString1


MyOctetString3 = MyOctetString2


MyBitString2 = MyBitString1


MyBitString3 = MyBitString2


MyBoolean2 = MyBoolean1


MyBoolean3 = MyBoolean2


MyEnumerated2 = MyEnumerated1


MyEnumerated3 = MyEnumerated2


class MySeq1(SequenceType):
    rootComponent = AdditiveNamedTypes(
        DefaultedNamedType('d00', IntegerType(10)),
        DefaultedNamedType('d01', IntegerType(0)),
    )
    componentType = rootComponent


MySeq4 = MySeq1


MySeq2 = MySeq1


class MySeq3(SequenceType):
    rootComponent = AdditiveNamedTypes(
        NamedType('d03', MyInt2()),
        NamedType('d04', MyInt3()),
        NamedType('d05', MyOctetString2()),
        NamedType('d06', MyOctetString3()),
        NamedType('d07', MyBitString2()),
        NamedType('d08', MyBitString3()),
        NamedType('d09', MyBoolean2()),
        NamedType('d10', MyBoolean3()),
        NamedType('d11', MyEnumerated2()),
        NamedType('d12', MyEnumerated3()),
    )
    componentType = rootComponent


MySeq5 = MySeq3


".

(** asn1_schemas/Sequence_Default.asn1 *)
Definition schema_Sequence_Default : list ptype := [
  PT KSeq "MySeq" "" "" false None None None [
    inr (PT KInt "IntegerType" "d00" "" false (Some "10") None None []); 
    inr (PT KInt "IntegerType" "d01" "" false (Some "0") None None []); 
    inr (PT KDefined "MyInteger" "d02" "" false (Some "11") None None []); 
    inr (PT KDefined "MyInteger" "d03" "" false (Some "0") None None []); 
    inr (PT KOcts "OctetStringType" "d04" "" false (Some "'11111111'B") None None []); 
    inr (PT KOcts "OctetStringType" "d05" "" false (Some "''B") None None []); 
    inr (PT KOcts "OctetStringType" "d06" "" false (Some "'AAAA'H") None None []); 
    inr (PT KOcts "OctetStringType" "d07" "" false (Some "''H") None None []); 
    inr (PT KDefined "MyOctetString" "d08" "" false (Some "'01010101'B") None None []); 
    inr (PT KDefined "MyOctetString" "d09" "" false (Some "''B") None None []); 
    inr (PT KDefined "MyOctetString" "d10" "" false (Some "'BBBB'H") None None []); 
    inr (PT KDefined "MyOctetString" "d11" "" false (Some "''H") None None []); 
    inr (PT KBits "BitStringType" "d12" "" false (Some "'0000'B") None None []); 
    inr (PT KBits "BitStringType" "d13" "" false (Some "''B") None None []); 
    inr (PT KBits "BitStringType" "d14" "" false (Some "'DDDD'H") None None []); 
    inr (PT KBits "BitStringType" "d15" "" false (Some "''H") None None []); 
    inr (PT KDefined "MyBitString" "d16" "" false (Some "'10101'B") None None []); 
    inr (PT KDefined "MyBitString" "d17" "" false (Some "''B") None None []); 
    inr (PT KDefined "MyBitString" "d18" "" false (Some "'EE'H") None None []); 
    inr (PT KDefined "MyBitString" "d19" "" false (Some "''H") None None []); 
    inr (PT KBool "BooleanType" "d20" "" false (Some "FALSE") None None []); 
    inr (PT KBool "BooleanType" "d21" "" false (Some "TRUE") None None []); 
    inr (PT KDefined "MyBoolean" "d22" "" false (Some "FALSE") None None []); 
    inr (PT KDefined "MyBoolean" "d23" "" false (Some "TRUE") None None []); 
    inr (PT KEnum "EnumeratedType" "d24" "" false (Some "two") None None [inl "one"; inl "two"; inl "three"]); 
    inr (PT KDefined "MyEnumerated" "d25" "" false (Some "six") None None [])];
  PT KInt "MyInteger" "" "" false None None None [];
  PT KOcts "MyOctetString" "" "" false None None None [];
  PT KBits "MyBitString" "" "" false None None None [];
  PT KBool "MyBoolean" "" "" false None None None [];
  PT KEnum "MyEnumerated" "" "" false None None None [inl "four"; inl "five"; inl "six"]].

(** asn1_python_code/Sequence_Default.py *)
Definition module_Sequence_Default : string :=
"from pyasn1.type.namedtype import NamedType, NamedTypes, OptionalNamedType, DefaultedNamedType
from pyasn1.type.namedval import NamedValues
from asn1PERser.classes.data.builtin import *
from asn1PERser.classes.types.type import AdditiveNamedTypes
from asn1PERser.classes.types.constraint import MIN, MAX, NoConstraint, ExtensionMarker, SequenceOfValueSize, \
    ValueRange, SingleValue, ValueSize, ConstraintOr, ConstraintAnd


class MyInteger(IntegerType):
    pass


class MyOctetString(OctetStringType):
    pass


class MyBitString(BitStringType):
    pass


class MyBoolean(BooleanType):
    pass


class MyEnumerated(EnumeratedType):
    enumerationRoot = NamedValues(
        ('four', 0),
        ('five', 1),
        ('six', 2),
    )
    namedValues = enumerationRoot


class MySeq(SequenceType):
    class d24(EnumeratedType):
        enumerationRoot = NamedValues(
            ('one', 0),
            ('two', 1),
            ('three', 2),
        )
        namedValues = enumerationRoot

    rootComponent = AdditiveNamedTypes(
        DefaultedNamedType('d00', IntegerType(10)),
        DefaultedNamedType('d01', IntegerType(0)),
        DefaultedNamedType('d02', MyInteger(11)),
        DefaultedNamedType('d03', MyInteger(0)),
        DefaultedNamedType('d04', OctetStringType(binValue='11111111')),
        DefaultedNamedType('d05', OctetStringType(binValue='')),
        DefaultedNamedType('d06', OctetStringType(hexValue='AAAA')),
        DefaultedNamedType('d07', OctetStringType(hexValue='')),
        DefaultedNamedType('d08', MyOctetString(binValue='01010101')),
        DefaultedNamedType('d09', MyOctetString(binValue='')),
        DefaultedNamedType('d10', MyOctetString(hexValue='BBBB')),
        DefaultedNamedType('d11', MyOctetString(hexValue='')),
        DefaultedNamedType('d12', BitStringType(binValue='0000')),
        DefaultedNamedType('d13', BitStringType(binValue='')),
        DefaultedNamedType('d14', BitStringType(hexValue='DDDD')),
        DefaultedNamedType('d15', BitStringType(hexValue='')),
        DefaultedNamedType('d16', MyBitString(binValue='10101')),
        DefaultedNamedType('d17', MyBitString(binValue='')),
        DefaultedNamedType('d18', MyBitString(hexValue='EE')),
        DefaultedNamedType('d19', MyBitString(hexValue='')),
        DefaultedNamedType('d20', BooleanType(False)),
        DefaultedNamedType('d21', BooleanType(True)),
        DefaultedNamedType('d22', MyBoolean(False)),
        DefaultedNamedType('d23', MyBoolean(True)),
        DefaultedNamedType('d24', d24('two')),
        DefaultedNamedType('d25', MyEnumerated('six')),
    )
    componentType = rootComponent


".

(** asn1_schemas/Sequence_Mixed.asn1 *)
Definition schema_Sequence_Mixed : list ptype := [
  PT KSeq "MySeq" "" "" false None None None [
    inr (PT KDefined "DataSeq" "some-seq" "" false None None None []); 
    inr (PT KEnum "EnumeratedType" "some-enum" "" false None None None [inl "one"; inl "two"; inl "three"]); 
    inr (PT KDefined "DataInt" "some-integer" "" false None None None []); 
    inr (PT KSeqOf "SequenceOfType" "some-seqOf" "" false None None None [
      inr (PT KDefined "OctetName" "" "" false None None None [])])];
  PT KSeq "DataSeq" "" "" false None None None [
    inr (PT KBool "BooleanType" "myBool0" "" false None None None []); 
    inr (PT KBits "BitStringType" "myBitString" "" false None None None []); 
    inr (PT KDefined "MyInnerSeq" "myInnerSeq" "" false None None None [])];
  PT KInt "DataInt" "" "" false None None None [];
  PT KOcts "OctetName" "" "" false None None None [];
  PT KSeqOf "MySeqOf" "" "" false None None None [
    inr (PT KInt "IntegerType" "" "" false None None None [])];
  PT KSeq "MyInnerSeq" "" "" false None None None [
    inr (PT KInt "IntegerType" "one" "" false None None None []); 
    inr (PT KDefined "MySeqOf" "two" "" false None None None [])];
  PT KSeq "MySeq-Two" "" "" false None None None [
    inr (PT KDefined "Record-List" "records" "" false None None None [])];
  PT KSeq "Record-One" "" "" false None None None [
    inr (PT KInt "IntegerType" "value" "" false None None None [])];
  PT KSeqOf "Record-List" "" "" false None None None [
    inr (PT KDefined "Record-One" "" "" false None None None [])]].

(** asn1_python_code/Sequence_Mixed.py *)
Definition module_Sequence_Mixed : string :=
"from pyasn1.type.namedtype import NamedType, NamedTypes, OptionalNamedType, DefaultedNamedType
from pyasn1.type.namedval import NamedValues
from asn1PERser.classes.data.builtin import *
from asn1PERser.classes.types.type import AdditiveNamedTypes
from asn1PERser.classes.types.constraint import MIN, MAX, NoConstraint, ExtensionMarker, SequenceOfValueSize, \
    ValueRange, SingleValue, ValueSize, ConstraintOr, ConstraintAnd


class DataInt(IntegerType):
    pass


class OctetName(OctetStringType):
    pass


class MySeqOf(SequenceOfType):
    componentType = IntegerType()


class MyInnerSeq(SequenceType):
    rootComponent = AdditiveNamedTypes(
        NamedType('one', IntegerType()),
        NamedType('two', MySeqOf()),
    )
    componentType = rootComponent


class DataSeq(SequenceType):
    rootComponent = AdditiveNamedTypes(
        NamedType('myBool0', BooleanType()),
        NamedType('myBitString', BitStringType()),
        NamedType('myInnerSeq', MyInnerSeq()),
    )
    componentType = rootComponent


class MySeq(SequenceType):
    class some_enum(EnumeratedType):
        enumerationRoot = NamedValues(
            ('one', 0),
            ('two', 1),
            ('three', 2),
        )
        namedValues = enumerationRoot

    class some_seqOf(SequenceOfType):
        componentType = OctetName()

    rootComponent = AdditiveNamedTypes(
        NamedType('some-seq', DataSeq()),
        NamedType('some-enum', some_enum()),
        NamedType('some-integer', DataInt()),
        NamedType('some-seqOf', some_seqOf()),
    )
    componentType = rootComponent


class Record_One(SequenceType):
    rootComponent = AdditiveNamedTypes(
        NamedType('value', IntegerType()),
    )
    componentType = rootComponent


class Record_List(SequenceOfType):
    componentType = Record_One()


class MySeq_Two(SequenceType):
    rootComponent = AdditiveNamedTypes(
        NamedType('records', Record_List()),
    )
    componentType = rootComponent


".

(** asn1_schemas/Sequence_Simple.asn1 *)
Definition schema_Sequence_Simple : list ptype := [
  PT KSeq "MySeq" "" "" false None None None [
    inr (PT KInt "IntegerType" "one" "" false None None None []); 
    inr (PT KDefined "MyInteger" "two" "" false None None None []); 
    inr (PT KOcts "OctetStringType" "three" "" false None None None []); 
    inr (PT KDefined "MyOctetString" "four" "" false None None None []); 
    inr (PT KBits "BitStringType" "five" "" false None None None []); 
    inr (PT KDefined "MyBitString" "six" "" false None None None []); 
    inr (PT KBool "BooleanType" "seven" "" false None None None []); 
    inr (PT KDefined "MyBoolean" "eight" "" false None None None []); 
    inr (PT KEnum "EnumeratedType" "nine" "" false None None None [inl "one"; inl "two"; inl "three"]); 
    inr (PT KDefined "MyEnumerated" "ten" "" false None None None [])];
  PT KInt "MyInteger" "" "" false None None None [];
  PT KOcts "MyOctetString" "" "" false None None None [];
  PT KBits "MyBitString" "" "" false None None None [];
  PT KBool "MyBoolean" "" "" false None None None [];
  PT KEnum "MyEnumerated" "" "" false None None None [inl "four"; inl "five"; inl "six"]].

(** asn1_python_code/Sequence_Simple.py *)
Definition module_Sequence_Simple : string :=
"from pyasn1.type.namedtype import NamedType, NamedTypes, OptionalNamedType, DefaultedNamedType
from pyasn1.type.namedval import NamedValues
from asn1PERser.classes.data.builtin import *
from asn1PERser.classes.types.type import AdditiveNamedTypes
from asn1PERser.classes.types.constraint import MIN, MAX, NoConstraint, ExtensionMarker, SequenceOfValueSize, \
    ValueRange, SingleValue, ValueSize, ConstraintOr, ConstraintAnd


class MyInteger(IntegerType):
    pass


class MyOctetString(OctetStringType):
    pass


class MyBitString(BitStringType):
    pass


class MyBoolean(BooleanType):
    pass


class MyEnumerated(EnumeratedType):
    enumerationRoot = NamedValues(
        ('four', 0),
        ('five', 1),
        ('six', 2),
    )
    namedValues = enumerationRoot


class MySeq(SequenceType):
    class nine(EnumeratedType):
        enumerationRoot = NamedValues(
            ('one', 0),
            ('two', 1),
            ('three', 2),
        )
        namedValues = enumerationRoot

    rootComponent = AdditiveNamedTypes(
        NamedType('one', IntegerType()),
        NamedType('two', MyInteger()),
        NamedType('three', OctetStringType()),
        NamedType('four', MyOctetString()),
        NamedType('five', BitStringType()),
        NamedType('six', MyBitString()),
        NamedType('seven', BooleanType()),
        NamedType('eight', MyBoolean()),
        NamedType('nine', nine()),
        NamedType('ten', MyEnumerated()),
    )
    componentType = rootComponent


".

(** asn1_schemas/SimpleProtocol.asn1 *)
Definition schema_SimpleProtocol : list ptype := [
  PT KChoice "SimpleMessage" "" "" false None None None [
    inr (PT KDefined "Start" "start" "" false None None None []); 
    inr (PT KDefined "Stop" "stop" "" false None None None []); 
    inr (PT KDefined "Alive" "alive" "" false None None None []); 
    inr (PT KDefined "Data" "data" "" false None None None []); inl "..."];
  PT KSeq "Start" "" "" false None None None [
    inr (PT KDefined "SequenceNumber" "sequenceNumber" "" false None None None []); 
    inr (PT KDefined "UTC-Timestamp" "timestamp" "" false None None None []); 
    inr (PT KDefined "Port" "srcPort" "" false None None None []); 
    inr (PT KDefined "Port" "dstPort" "" false None None None [])];
  PT KSeq "Stop" "" "" false None None None [
    inr (PT KDefined "SequenceNumber" "sequenceNumber" "" false None None None []); 
    inr (PT KDefined "UTC-Timestamp" "timestamp" "" false None None None []); 
    inr (PT KDefined "Port" "srcPort" "" false None None None []); 
    inr (PT KDefined "Port" "dstPort" "" false None None None [])];
  PT KSeq "Alive" "" "" false None None None [
    inr (PT KDefined "UTC-Timestamp" "timestamp" "" false None None None []); inl "..."];
  PT KSeq "Data" "" "" false None None None [
    inr (PT KDefined "SequenceNumber" "sequenceNumber" "" false None None None []); 
    inr (PT KEnum "EnumeratedType" "swRelease" "" false None None None [inl "rel1"; inl "rel2"; inl "rel3"; inl "..."]); 
    inr (PT KBits "BitStringType" "macroId" "" true None None (Some ("20", "20", false)) []); 
    inr (PT KDefined "Payload" "payload" "" false None None None [])];
  PT KInt "Port" "" "" false None None (Some ("10000", "65535", false)) [];
  PT KInt "SequenceNumber" "" "" false None None (Some ("0", "65535", false)) [];
  PT KSeq "UTC-Timestamp" "" "" false None None None [
    inr (PT KInt "IntegerType" "seconds" "" false None None (Some ("0", "4294967295", false)) []); 
    inr (PT KInt "IntegerType" "useconds" "" false None None (Some ("0", "4294967295", false)) [])];
  PT KSeqOf "Payload" "" "" false None None (Some ("1", "5", false)) [
    inr (PT KDefined "Message" "" "" false None None None [])];
  PT KOcts "Message" "" "" false None None (Some ("1", "4", false)) []].

(** asn1_python_code/SimpleProtocol.py *)
Definition module_SimpleProtocol : string :=
"from pyasn1.type.namedtype import NamedType, NamedTypes, OptionalNamedType, DefaultedNamedType
from pyasn1.type.namedval import NamedValues
from asn1PERser.classes.data.builtin import *
from asn1PERser.classes.types.type import AdditiveNamedTypes
from asn1PERser.classes.types.constraint import MIN, MAX, NoConstraint, ExtensionMarker, SequenceOfValueSize, \
    ValueRange, SingleValue, ValueSize, ConstraintOr, ConstraintAnd


class Port(IntegerType):
    subtypeSpec = ValueRange(10000, 65535)


class SequenceNumber(IntegerType):
    subtypeSpec = ValueRange(0, 65535)


class Message(OctetStringType):
    subtypeSpec = ValueSize(1, 4)


class UTC_Timestamp(SequenceType):
    class seconds(IntegerType):
        subtypeSpec = ValueRange(0, 4294967295)

    class useconds(IntegerType):
        subtypeSpec = ValueRange(0, 4294967295)

    rootComponent = AdditiveNamedTypes(
        NamedType('seconds', seconds()),
        NamedType('useconds', useconds()),
    )
    componentType = rootComponent


class Start(SequenceType):
    rootComponent = AdditiveNamedTypes(
        NamedType('sequenceNumber', SequenceNumber()),
        NamedType('timestamp', UTC_Timestamp()),
        NamedType('srcPort', Port()),
        NamedType('dstPort', Port()),
    )
    componentType = rootComponent


class Stop(SequenceType):
    rootComponent = AdditiveNamedTypes(
        NamedType('sequenceNumber', SequenceNumber()),
        NamedType('timestamp', UTC_Timestamp()),
        NamedType('srcPort', Port()),
        NamedType('dstPort', Port()),
    )
    componentType = rootComponent


class Alive(SequenceType):
    subtypeSpec = ExtensionMarker(True)
    rootComponent = AdditiveNamedTypes(
        NamedType('timestamp', UTC_Timestamp()),
    )
    componentType = rootComponent


class Payload(SequenceOfType):
    subtypeSpec = SequenceOfValueSize(1, 5)
    componentType = Message()


class Data(SequenceType):
    class swRelease(EnumeratedType):
        subtypeSpec = ExtensionMarker(True)
        enumerationRoot = NamedValues(
            ('rel1', 0),
            ('rel2', 1),
            ('rel3', 2),
        )
        namedValues = enumerationRoot

    class macroId(BitStringType):
        subtypeSpec = ValueSize(20, 20)

    rootComponent = AdditiveNamedTypes(
        NamedType('sequenceNumber', SequenceNumber()),
        NamedType('swRelease', swRelease()),
        OptionalNamedType('macroId', macroId()),
        NamedType('payload', Payload()),
    )
    componentType = rootComponent


class SimpleMessage(ChoiceType):
    subtypeSpec = ExtensionMarker(True)
    rootComponent = AdditiveNamedTypes(
        NamedType('start', Start()),
        NamedType('stop', Stop()),
        NamedType('alive', Alive()),
        NamedType('data', Data()),
    )
    componentType = rootComponent


".

(** asn1_schemas/SimpleTypes.asn1 *)
Definition schema_SimpleTypes : list ptype := [
  PT KInt "MyInt" "" "" false None None None [];
  PT KInt "My-Int" "" "" false None None None [];
  PT KBool "MyBool" "" "" false None None None [];
  PT KBool "My-Bool" "" "" false None None None [];
  PT KOcts "MyOctetString" "" "" false None None None [];
  PT KOcts "My-Octet-String" "" "" false None None None [];
  PT KBits "MyBitString" "" "" false None None None [];
  PT KBits "My-Bit-String" "" "" false None None None [];
  PT KEnum "MyEnumerated" "" "" false None None None [inl "one"; inl "two"; inl "three"];
  PT KEnum "My-Enumerated" "" "" false None None None [inl "one"; inl "two"; inl "three"];
  PT KInt "IntegerType" "" "constant_Int" false None (Some "10") None [];
  PT KBool "BooleanType" "" "constant_Bool" false None (Some "TRUE") None [];
  PT KOcts "OctetStringType" "" "constant_Octet_String_one" false None (Some "'DEAD'H") None [];
  PT KOcts "OctetStringType" "" "constant_Octet_String_two" false None (Some "'11110000'B") None [];
  PT KBits "BitStringType" "" "constant_Bit_String_one" false None (Some "'BEEF'H") None [];
  PT KBits "BitStringType" "" "constant_Bit_String_two" false None (Some "'01010101'B") None [];
  PT KDefined "MyInt" "" "my_constant_Int" false None (Some "200") None [];
  PT KDefined "My-Int" "" "my_constant_Int_Two" false None (Some "12345") None [];
  PT KDefined "MyBool" "" "my_constant_Bool" false None (Some "FALSE") None [];
  PT KDefined "My-Bool" "" "my_constant_Bool_Two" false None (Some "TRUE") None [];
  PT KDefined "MyOctetString" "" "my_constant_Octet_String_one" false None (Some "'FEED'H") None [];
  PT KDefined "My-Octet-String" "" "my_constant_Octet_String_one_Two" false None (Some "'DEEF'H") None [];
  PT KDefined "MyOctetString" "" "my_constant_Octet_String_two" false None (Some "'00001111'B") None [];
  PT KDefined "My-Octet-String" "" "my_constant_Octet_String_two_Two" false None (Some "'11110000'B") None [];
  PT KDefined "MyBitString" "" "my_constant_Bit_String_one" false None (Some "'ABCD'H") None [];
  PT KDefined "My-Bit-String" "" "my_constant_Bit_String_one_Two" false None (Some "'DCBA'H") None [];
  PT KDefined "MyBitString" "" "my_constant_Bit_String_two" false None (Some "'10101010'B") None [];
  PT KDefined "My-Bit-String" "" "my_constant_Bit_String_two_Two" false None (Some "'01010101'B") None []].

(** asn1_python_code/SimpleTypes.py *)
Definition module_SimpleTypes : string :=
"from pyasn1.type.namedtype import NamedType, NamedTypes, OptionalNamedType, DefaultedNamedType
from pyasn1.type.namedval import NamedValues
from asn1PERser.classes.data.builtin import *
from asn1PERser.classes.types.type import AdditiveNamedTypes
from asn1PERser.classes.types.constraint import MIN, MAX, NoConstraint, ExtensionMarker, SequenceOfValueSize, \
    ValueRange, SingleValue, ValueSize, ConstraintOr, ConstraintAnd


constant_Int = IntegerType(10)


constant_Bool = BooleanType(True)


constant_Octet_String_one = OctetStringType(hexValue='DEAD')


constant_Octet_String_two = OctetStringType(binValue='11110000')


constant_Bit_String_one = BitStringType(hexValue='BEEF')


constant_Bit_String_two = BitStringType(binValue='01010101')


class MyInt(IntegerType):
    pass


class My_Int(IntegerType):
    pass


class MyBool(BooleanType):
    pass


class My_Bool(BooleanType):
    pass


class MyOctetString(OctetStringType):
    pass


class My_Octet_String(OctetStringType):
    pass


class MyBitString(BitStringType):
    pass


class My_Bit_String(BitStringType):
    pass


class MyEnumerated(EnumeratedType):
    enumerationRoot = NamedValues(
        ('one', 0),
        ('two', 1),
        ('three', 2),
    )
    namedValues = enumerationRoot


class My_Enumerated(EnumeratedType):
    enumerationRoot = NamedValues(
        ('one', 0),
        ('two', 1),
        ('three', 2),
    )
    namedValues = enumerationRoot


my_constant_Int = MyInt(200)


my_constant_Int_Two = My_Int(12345)


my_constant_Bool = MyBool(False)


my_constant_Bool_Two = My_Bool(True)


my_constant_Octet_String_one = MyOctetString(hexValue='FEED')


my_constant_Octet_String_one_Two = My_Octet_String(hexValue='DEEF')


my_constant_Octet_String_two = MyOctetString(binValue='00001111')


my_constant_Octet_String_two_Two = My_Octet_String(binValue='11110000')


my_constant_Bit_String_one = MyBitString(hexValue='ABCD')


my_constant_Bit_String_one_Two = My_Bit_String(hexValue='DCBA')


my_constant_Bit_String_two = MyBitString(binValue='10101010')


my_constant_Bit_String_two_Two = My_Bit_String(binValue='01010101')


".

(** asn1_schemas/Types_constrained.asn1 *)
Definition schema_Types_constrained : list ptype := [
  PT KInt "MyInt1" "" "" false None None (Some ("-5", "-1", false)) [];
  PT KInt "MyInt2" "" "" false None None (Some ("-25", "20000000", true)) [];
  PT KInt "MyInt3" "" "" false None None (Some ("-25", "MAX", false)) [];
  PT KInt "MyInt4" "" "" false None None (Some ("MIN", "0", false)) [];
  PT KInt "MyInt5" "" "" false None None (Some ("MIN", "maxNumber", false)) [];
  PT KOcts "MyOctetString1" "" "" false None None (Some ("1", "4", false)) [];
  PT KOcts "MyOctetString2" "" "" false None None (Some ("0", "30", true)) [];
  PT KOcts "MyOctetString3" "" "" false None None (Some ("0", "maxNumber", true)) [];
  PT KBits "MyBitString1" "" "" false None None (Some ("10", "100", false)) [];
  PT KBits "MyBitString2" "" "" false None None (Some ("100", "10000", true)) [];
  PT KBits "MyBitString3" "" "" false None None (Some ("0", "maxNumber", true)) [];
  PT KSeqOf "MySeqOf1" "" "" false None None (Some ("1", "maxNumber", false)) [
    inr (PT KOcts "OctetStringType" "" "" false None None None [])];
  PT KSeqOf "MySeqOf2" "" "" false None None (Some ("1", "maxNumber", true)) [
    inr (PT KDefined "MyBitString1" "" "" false None None None [])];
  PT KInt "IntegerType" "" "maxNumber" false None (Some "255") None []].

(** asn1_python_code/Types_constrained.py *)
Definition module_Types_constrained : string :=
"from pyasn1.type.namedtype import NamedType, NamedTypes, OptionalNamedType, DefaultedNamedType
from pyasn1.type.namedval import NamedValues
from asn1PERser.classes.data.builtin import *
from asn1PERser.classes.types.type import AdditiveNamedTypes
from asn1PERser.classes.types.constraint import MIN, MAX, NoConstraint, ExtensionMarker, SequenceOfValueSize, \
    ValueRange, SingleValue, ValueSize, ConstraintOr, ConstraintAnd


maxNumber = IntegerType(255)


class MyInt1(IntegerType):
    subtypeSpec = ValueRange(-5, -1)


class MyInt2(IntegerType):
    subtypeSpec = ValueRange(-25, 20000000, extensionMarker=True)


class MyInt3(IntegerType):
    subtypeSpec = ValueRange(-25, MAX)


class MyInt4(IntegerType):
    subtypeSpec = ValueRange(MIN, 0)


class MyInt5(IntegerType):
    subtypeSpec = ValueRange(MIN, maxNumber)


class MyOctetString1(OctetStringType):
    subtypeSpec = ValueSize(1, 4)


class MyOctetString2(OctetStringType):
    subtypeSpec = ValueSize(0, 30, extensionMarker=True)


class MyOctetString3(OctetStringType):
    subtypeSpec = ValueSize(0, maxNumber, extensionMarker=True)


class MyBitString1(BitStringType):
    subtypeSpec = ValueSize(10, 100)


class MyBitString2(BitStringType):
    subtypeSpec = ValueSize(100, 10000, extensionMarker=True)


class MyBitString3(BitStringType):
    subtypeSpec = ValueSize(0, maxNumber, extensionMarker=True)


class MySeqOf1(SequenceOfType):
    subtypeSpec = SequenceOfValueSize(1, maxNumber)
    componentType = OctetStringType()


class MySeqOf2(SequenceOfType):
    subtypeSpec = SequenceOfValueSize(1, maxNumber, extensionMarker=True)
    componentType = MyBitString1()


".

(** asn1_schemas/Types_containing_constrained_types.asn1 *)
Definition schema_Types_containing_constrained_types : list ptype := [
  PT KSeq "MySeq1" "" "" false None None None [
    inr (PT KInt "IntegerType" "my-Int1" "" false None None (Some ("minNumber", "10", true)) []); 
    inr (PT KInt "IntegerType" "my-Int2" "" false None None None []); 
    inr (PT KBits "BitStringType" "myBitString1" "" false None None (Some ("0", "maxNumber", false)) []); 
    inr (PT KOcts "OctetStringType" "myOctetString1" "" false None None (Some ("1", "4", false)) []); inl "..."];
  PT KSeq "MySeq2" "" "" false None None None [
    inr (PT KInt "IntegerType" "myInt3" "" false None None None []); 
    inr (PT KOcts "OctetStringType" "myOctetString2" "" false None None (Some ("1", "4", true)) []); 
    inr (PT KInt "IntegerType" "myInt4" "" false None None (Some ("MIN", "1", false)) [])];
  PT KSeqOf "DataList" "" "" false None None (Some ("1", "10", false)) [
    inr (PT KDefined "Data" "" "" false None None None [])];
  PT KSeq "Data" "" "" false None None None [
    inr (PT KInt "IntegerType" "i0" "" false None None (Some ("0", "MAX", false)) []); 
    inr (PT KOcts "OctetStringType" "i1" "" false None None None []); inl "..."; 
    inr (PT KOcts "OctetStringType" "i2" "" false None None (Some ("1", "10", false)) [])];
  PT KChoice "MyChoice" "" "" false None None None [
    inr (PT KOcts "OctetStringType" "c0" "" false None None (Some ("0", "maxNumber", true)) []); 
    inr (PT KInt "IntegerType" "c1" "" false None None None []); 
    inr (PT KInt "IntegerType" "c-two" "" false None None (Some ("MIN", "0", false)) []); inl "..."; 
    inr (PT KDefined "MyEnum" "c3" "" false None None None []); 
    inr (PT KBits "BitStringType" "c4" "" false None None (Some ("0", "20", false)) [])];
  PT KEnum "MyEnum" "" "" false None None None [inl "one"; inl "two"; inl "three"; inl "..."];
  PT KInt "IntegerType" "" "minNumber" false None (Some "-10") None [];
  PT KInt "IntegerType" "" "maxNumber" false None (Some "255") None []].

(** asn1_python_code/Types_containing_constrained_types.py *)
Definition module_Types_containing_constrained_types : string :=
"from pyasn1.type.namedtype import NamedType, NamedTypes, OptionalNamedType, DefaultedNamedType
from pyasn1.type.namedval import NamedValues
from asn1PERser.classes.data.builtin import *
from asn1PERser.classes.types.type import AdditiveNamedTypes
from asn1PERser.classes.types.constraint import MIN, MAX, NoConstraint, ExtensionMarker, SequenceOfValueSize, \
    ValueRange, SingleValue, ValueSize, ConstraintOr, ConstraintAnd


minNumber = IntegerType(-10)


maxNumber = IntegerType(255)


class MyEnum(EnumeratedType):
    subtypeSpec = ExtensionMarker(True)
    enumerationRoot = NamedValues(
        ('one', 0),
        ('two', 1),
        ('three', 2),
    )
    namedValues = enumerationRoot


class MySeq1(SequenceType):
    class my_Int1(IntegerType):
        subtypeSpec = ValueRange(minNumber, 10, extensionMarker=True)

    class myBitString1(BitStringType):
        subtypeSpec = ValueSize(0, maxNumber)

    class myOctetString1(OctetStringType):
        subtypeSpec = ValueSize(1, 4)

    subtypeSpec = ExtensionMarker(True)
    rootComponent = AdditiveNamedTypes(
        NamedType('my-Int1', my_Int1()),
        NamedType('my-Int2', IntegerType()),
        NamedType('myBitString1', myBitString1()),
        NamedType('myOctetString1', myOctetString1()),
    )
    componentType = rootComponent


class MySeq2(SequenceType):
    class myOctetString2(OctetStringType):
        subtypeSpec = ValueSize(1, 4, extensionMarker=True)

    class myInt4(IntegerType):
        subtypeSpec = ValueRange(MIN, 1)

    rootComponent = AdditiveNamedTypes(
        NamedType('myInt3', IntegerType()),
        NamedType('myOctetString2', myOctetString2()),
        NamedType('myInt4', myInt4()),
    )
    componentType = rootComponent


class Data(SequenceType):
    class i0(IntegerType):
        subtypeSpec = ValueRange(0, MAX)

    class i2(OctetStringType):
        subtypeSpec = ValueSize(1, 10)

    subtypeSpec = ExtensionMarker(True)
    rootComponent = AdditiveNamedTypes(
        NamedType('i0', i0()),
        NamedType('i1', OctetStringType()),
    )
    extensionAddition = AdditiveNamedTypes(
        NamedType('i2', i2()),
    )
    componentType = rootComponent + extensionAddition


class DataList(SequenceOfType):
    subtypeSpec = SequenceOfValueSize(1, 10)
    componentType = Data()


class MyChoice(ChoiceType):
    class c0(OctetStringType):
        subtypeSpec = ValueSize(0, maxNumber, extensionMarker=True)

    class c_two(IntegerType):
        subtypeSpec = ValueRange(MIN, 0)

    class c4(BitStringType):
        subtypeSpec = ValueSize(0, 20)

    subtypeSpec = ExtensionMarker(True)
    rootComponent = AdditiveNamedTypes(
        NamedType('c0', c0()),
        NamedType('c1', IntegerType()),
        NamedType('c-two', c_two()),
    )
    extensionAddition = AdditiveNamedTypes(
        NamedType('c3', MyEnum()),
        NamedType('c4', c4()),
    )
    componentType = rootComponent + extensionAddition


".
