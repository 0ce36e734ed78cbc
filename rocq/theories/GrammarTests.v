(** Tests of the grammar model, not proofs of properties: the schemas of the test
    suite are read as the objects of GoldenVectors.v.  Written by
    tools/goldens.py. *)

From Coq Require Import List String.
Import ListNotations.
From Verif Require Import Generator Grammar GoldenVectors Fast.

Open Scope string_scope.
Open Scope list_scope.
Open Scope nat_scope.

Definition text_Choice_Simple : string :=
"ChoiceSimple DEFINITIONS AUTOMATIC TAGS ::=
BEGIN
    Order ::= CHOICE {
        one     INTEGER,
        two     MyInteger,
        three   OCTET STRING,
        four    MyOctetString,
        five    BIT STRING,
        six     MyBitString,
        seven   BOOLEAN,
        eight   MyBoolean
    }

    MyInteger ::= INTEGER
    MyOctetString ::= OCTET STRING
    MyBitString ::= BIT STRING
    MyBoolean ::= BOOLEAN
END".

Example read_Choice_Simple : exists r, read_schema 300 text_Choice_Simple = Match r schema_Choice_Simple.
Proof. eexists. rewrite read_fast. vm_compute. reflexivity. Qed.

Definition text_ComponentTypes : string :=
"ComponentTypes DEFINITIONS AUTOMATIC TAGS ::=
BEGIN
    Order ::= CHOICE {
        move    MoveOrder,
        sendData    Data
    }

    MoveOrder ::= CHOICE {
        up    Meters,
        down  Meters,
        left  Meters,
        right Meters
    }

    Meters ::= INTEGER

    Picture ::= OCTET STRING

    Data ::= SEQUENCE {
        id    INTEGER,
        pictures    SEQUENCE OF Picture
    }
END".

Definition got_ComponentTypes := Eval vm_compute in fast_schema 300 text_ComponentTypes.
Example read_ComponentTypes : exists r, got_ComponentTypes = Match r schema_ComponentTypes.
Proof. eexists. reflexivity. Qed.

Definition text_ComponentTypes_containing_ComponentTypes : string :=
"ComponentTypesContainingComponent DEFINITIONS AUTOMATIC TAGS::=
BEGIN
    MySeq1 ::= SEQUENCE {
        data CHOICE {
            inner-seq     InnerSequence,
            my-int-1      INTEGER,
            my-int-2      INTEGER (1..2),
            my-bit        MyBitString
        },
        my-int-3  INTEGER (10..20),
        my-octet  OCTET STRING
    }

    InnerSequence ::= SEQUENCE {
        i0    INTEGER,
        i1    INTEGER
    }

    MyBitString ::= BIT STRING (SIZE(1..maxNumber, ...))

    MySeq2 ::= SEQUENCE {
        i0          INTEGER,
        enum-one    ENUMERATED {
            one,
            two,
            ...
        },
        o1          OCTET STRING (SIZE(1..10))
    }

    SrcTcpData ::= SEQUENCE {
        data SEQUENCE (SIZE(1..maxNumber)) OF TcpData,
        ...
    }

    TgtTcpData ::= SEQUENCE {
        data SEQUENCE (SIZE(1..maxNumber)) OF TcpData,
        ...
    }

    SrcUdpData ::= SEQUENCE {
        data SEQUENCE (SIZE(1..maxNumber)) OF SrcUdpTput,
        ...
    }

    TgtUdpData ::= SEQUENCE {
        data SEQUENCE (SIZE(1..maxNumber)) OF TgtUdpTput,
        ...
    }

    IpData ::= SEQUENCE {
        data SEQUENCE (SIZE(1..maxNumber)) OF BigIpData,
        ...
    }

    MyChoice ::= CHOICE {
        enum-two    ENUMERATED {
            three,
            four
        },
        inner-seq-2    SEQUENCE {
            i0    INTEGER,
            i1    BIT STRING (SIZE(1..2))
        },
        o1    OCTET STRING (SIZE(1..10)),
        my-int-4  INTEGER

    }

    TcpData ::= INTEGER
    SrcUdpTput ::= INTEGER
    TgtUdpTput ::= INTEGER

    BigIpData ::= SEQUENCE {
        d0    INTEGER (-1..1),
        d1    OCTET STRING (SIZE(1..20))
    }

    minNumber INTEGER ::= -10
    maxNumber INTEGER ::= 255
END".

Definition got_ComponentTypes_containing_ComponentTypes := Eval vm_compute in fast_schema 300 text_ComponentTypes_containing_ComponentTypes.
Example read_ComponentTypes_containing_ComponentTypes : exists r, got_ComponentTypes_containing_ComponentTypes = Match r schema_ComponentTypes_containing_ComponentTypes.
Proof. eexists. reflexivity. Qed.

Definition text_ComponentTypes_extensionAddition : string :=
"ComponentTypesExtension DEFINITIONS ::=
BEGIN
    MySeq ::= SEQUENCE {
        int0    INTEGER,
        otherSeq  OtherSequence,
        ...,
        add0    INTEGER,
        add1    BOOLEAN
    }

    OtherSequence ::= SEQUENCE {
        yetOtherSeq   YetOtherSeq,
        myBool   BOOLEAN,
        ...,
        add2    BIT STRING
    }

    YetOtherSeq ::= SEQUENCE {
        myEnum    MyEnum,
        myChoice  MyChoice,
        ...,
        add3    OCTET STRING,
        add4    INTEGER
    }

    MyEnum ::= ENUMERATED {
        zero,
        one,
        two,
        three,
        ...,
        four,
        five
    }

    MyChoice ::= CHOICE {
        c0    INTEGER,
        c1    ThirdSequence,
        c2    BOOLEAN,
        ...,
        c3    INTEGER,
        c4    BOOLEAN
    }

    ThirdSequence ::= SEQUENCE OF OCTET STRING
END
".

Definition got_ComponentTypes_extensionAddition := Eval vm_compute in fast_schema 300 text_ComponentTypes_extensionAddition.
Example read_ComponentTypes_extensionAddition : exists r, got_ComponentTypes_extensionAddition = Match r schema_ComponentTypes_extensionAddition.
Proof. eexists. reflexivity. Qed.

Definition text_ComponentTypes_extensionAdditionGroup : string :=
"ExtensionAdditionGroups DEFINITIONS AUTOMATIC TAGS ::=
BEGIN


Data1 ::= SEQUENCE {
    d0    OCTET STRING,
    ...,
    [[
    d1    BIT STRING (SIZE(1..20, ...)),
    d2    MySeq
    ]]
}


Data2 ::= CHOICE {
    c0   INTEGER (1..MAX),
    ...,
    [[
    c1   MyEnum,
    c2   BOOLEAN
    ]],
    [[
    c3   OCTET STRING (SIZE(5..10)),
    c4   MySeq
    ]]
}


Data3 ::= SEQUENCE {
    s0    INTEGER,
    ...,
    s4   INTEGER,
    s5   INTEGER,
    [[
    s1   MySeq,
    s2   INTEGER OPTIONAL
    ]],
    [[
    s3   INTEGER (-10..100),
    s6   MyEnum
    ]]
}

MyEnum ::= ENUMERATED {
   one,
   two
}

MySeq ::= SEQUENCE {
   i0    INTEGER (10..20),
   i1    INTEGER
}

END
".

Definition got_ComponentTypes_extensionAdditionGroup := Eval vm_compute in fast_schema 300 text_ComponentTypes_extensionAdditionGroup.
Example read_ComponentTypes_extensionAdditionGroup : exists r, got_ComponentTypes_extensionAdditionGroup = Match r schema_ComponentTypes_extensionAdditionGroup.
Proof. eexists. reflexivity. Qed.

Definition text_ComponentTypes_extensionMarker : string :=
"ComponentTypesExtension DEFINITIONS ::=
BEGIN
    MySeq ::= SEQUENCE {
        int0    INTEGER,
        otherSeq  OtherSequence,
        ...
    }

    OtherSequence ::= SEQUENCE {
        yetOtherSeq   YetOtherSeq,
        myBool   BOOLEAN,
        ...
    }

    YetOtherSeq ::= SEQUENCE {
        myEnum    MyEnum,
        myChoice  MyChoice,
        ...
    }

    MyEnum ::= ENUMERATED {
        zero,
        one,
        two,
        three,
        ...
    }

    MyChoice ::= CHOICE {
        c0    INTEGER,
        c1    ThirdSequence,
        c2    BOOLEAN,
        ...
    }

    ThirdSequence ::= SEQUENCE OF OCTET STRING
END
".

Definition got_ComponentTypes_extensionMarker := Eval vm_compute in fast_schema 300 text_ComponentTypes_extensionMarker.
Example read_ComponentTypes_extensionMarker : exists r, got_ComponentTypes_extensionMarker = Match r schema_ComponentTypes_extensionMarker.
Proof. eexists. reflexivity. Qed.

Definition text_DefinedType_Simple : string :=
"DefinedTypeCheck DEFINITIONS AUTOMATIC TAGS::= BEGIN
    MySeq1 ::= SEQUENCE {
        d00     INTEGER DEFAULT 10,
        d01     INTEGER DEFAULT 0
    }

    MyInt1 ::= INTEGER (-5..-1)
    MyOctetString1 ::= OCTET STRING (SIZE(1..4))
    MyBitString1 ::= BIT STRING
    MyBoolean1 ::= BOOLEAN
    MyEnumerated1 ::= ENUMERATED {four, five, six}

    MyInt2 ::= MyInt1
    MyInt3 ::= MyInt2

    MyOctetString2 ::= MyOctetString1
    MyOctetString3 ::= MyOctetString2

    MyBitString2 ::= MyBitString1
    MyBitString3 ::= MyBitString2

    MyBoolean2 ::= MyBoolean1
    MyBoolean3 ::= MyBoolean2

    MyEnumerated2 ::= MyEnumerated1
    MyEnumerated3 ::= MyEnumerated2

    MySeq2 ::= MySeq1

    MySeq3 ::= SEQUENCE {
        d03     MyInt2,
        d04     MyInt3,
        d05     MyOctetString2,
        d06     MyOctetString3,
        d07     MyBitString2,
        d08     MyBitString3,
        d09     MyBoolean2,
        d10     MyBoolean3,
        d11     MyEnumerated2,
        d12     MyEnumerated3
    }

    MySeq4 ::= MySeq1

    MySeq5 ::= MySeq3

END
".

Definition got_DefinedType_Simple := Eval vm_compute in fast_schema 300 text_DefinedType_Simple.
Example read_DefinedType_Simple : exists r, got_DefinedType_Simple = Match r schema_DefinedType_Simple.
Proof. eexists. reflexivity. Qed.

Definition text_Sequence_Default : string :=
"SequenceSimpleTypes DEFINITIONS AUTOMATIC TAGS::= BEGIN
    MySeq ::= SEQUENCE {
        d00     INTEGER DEFAULT 10,
        d01     INTEGER DEFAULT 0,
        d02     MyInteger DEFAULT 11,
        d03     MyInteger DEFAULT 0,
        d04     OCTET STRING DEFAULT '11111111'B,
        d05     OCTET STRING DEFAULT ''B,
        d06     OCTET STRING DEFAULT 'AAAA'H,
        d07     OCTET STRING DEFAULT ''H,
        d08     MyOctetString DEFAULT '01010101'B,
        d09     MyOctetString DEFAULT ''B,
        d10     MyOctetString DEFAULT 'BBBB'H,
        d11     MyOctetString DEFAULT ''H,
        d12     BIT STRING DEFAULT '0000'B,
        d13     BIT STRING DEFAULT ''B,
        d14     BIT STRING DEFAULT 'DDDD'H,
        d15     BIT STRING DEFAULT ''H,
        d16     MyBitString DEFAULT '10101'B,
        d17     MyBitString DEFAULT ''B,
        d18     MyBitString DEFAULT 'EE'H,
        d19     MyBitString DEFAULT ''H,
        d20     BOOLEAN DEFAULT FALSE,
        d21     BOOLEAN DEFAULT TRUE,
        d22     MyBoolean DEFAULT FALSE,
        d23     MyBoolean DEFAULT TRUE,
        d24     ENUMERATED {one, two, three} DEFAULT two,
        d25     MyEnumerated DEFAULT six
    }

    MyInteger ::= INTEGER
    MyOctetString ::= OCTET STRING
    MyBitString ::= BIT STRING
    MyBoolean ::= BOOLEAN
    MyEnumerated ::= ENUMERATED {four, five, six}
END
".

Definition got_Sequence_Default := Eval vm_compute in fast_schema 300 text_Sequence_Default.
Example read_Sequence_Default : exists r, got_Sequence_Default = Match r schema_Sequence_Default.
Proof. eexists. reflexivity. Qed.

Definition text_Sequence_Mixed : string :=
"MySchema DEFINITIONS ::= BEGIN
    MySeq ::= SEQUENCE {
        some-seq   DataSeq,
        some-enum   ENUMERATED {one, two, three},
        some-integer   DataInt,
        some-seqOf  SEQUENCE OF OctetName
    }

    DataSeq ::= SEQUENCE {
        myBool0    BOOLEAN,
        myBitString    BIT STRING,
        myInnerSeq    MyInnerSeq
    }

    DataInt ::= INTEGER

    OctetName ::= OCTET STRING

    MySeqOf ::= SEQUENCE OF INTEGER

    MyInnerSeq ::= SEQUENCE {
        one    INTEGER,
        two    MySeqOf
    }

    MySeq-Two  ::= SEQUENCE {
        records     Record-List
    }

    Record-One ::= SEQUENCE {
        value    INTEGER
    }

    Record-List ::= SEQUENCE OF Record-One
END
".

Definition got_Sequence_Mixed := Eval vm_compute in fast_schema 300 text_Sequence_Mixed.
Example read_Sequence_Mixed : exists r, got_Sequence_Mixed = Match r schema_Sequence_Mixed.
Proof. eexists. reflexivity. Qed.

Definition text_Sequence_Simple : string :=
"SequenceSimpleTypes DEFINITIONS ::= BEGIN
    MySeq ::= SEQUENCE {
        one     INTEGER,
        two     MyInteger,
        three   OCTET STRING,
        four    MyOctetString,
        five    BIT STRING,
        six     MyBitString,
        seven   BOOLEAN,
        eight   MyBoolean,
        nine    ENUMERATED {one, two, three},
        ten     MyEnumerated
    }

    MyInteger ::= INTEGER
    MyOctetString ::= OCTET STRING
    MyBitString ::= BIT STRING
    MyBoolean ::= BOOLEAN
    MyEnumerated ::= ENUMERATED {four, five, six}
END".

Definition got_Sequence_Simple := Eval vm_compute in fast_schema 300 text_Sequence_Simple.
Example read_Sequence_Simple : exists r, got_Sequence_Simple = Match r schema_Sequence_Simple.
Proof. eexists. reflexivity. Qed.

Definition text_SimpleProtocol : string :=
"SimpleProtocol DEFINITIONS AUTOMATIC TAGS ::=
BEGIN
SimpleMessage ::= CHOICE {
    start    Start,
    stop     Stop,
    alive    Alive,
    data     Data,
    ...
}

Start ::= SEQUENCE {
    sequenceNumber    SequenceNumber,
    timestamp         UTC-Timestamp,
    srcPort           Port,
    dstPort           Port
}

Stop ::= SEQUENCE {
    sequenceNumber    SequenceNumber,
    timestamp         UTC-Timestamp,
    srcPort           Port,
    dstPort           Port
}

Alive ::= SEQUENCE {
    timestamp         UTC-Timestamp,
    ...
}

Data ::= SEQUENCE {
    sequenceNumber    SequenceNumber,
    swRelease         ENUMERATED {rel1, rel2, rel3, ...},
    macroId           BIT STRING (SIZE(20)) OPTIONAL,
    payload           Payload
}

Port ::= INTEGER (10000..65535)

SequenceNumber ::= INTEGER (0..65535)

UTC-Timestamp ::= SEQUENCE {
    seconds     INTEGER (0..4294967295),
    useconds    INTEGER (0..4294967295)
}

Payload ::= SEQUENCE (SIZE(1..5)) OF Message

Message ::= OCTET STRING (SIZE(1..4))

END".

Definition got_SimpleProtocol := Eval vm_compute in fast_schema 300 text_SimpleProtocol.
Example read_SimpleProtocol : exists r, got_SimpleProtocol = Match r schema_SimpleProtocol.
Proof. eexists. reflexivity. Qed.

Definition text_SimpleTypes : string :=
"SimpleTypes DEFINITIONS ::=
BEGIN
    MyInt ::= INTEGER
    My-Int ::= INTEGER
    MyBool ::= BOOLEAN
    My-Bool ::= BOOLEAN
    MyOctetString ::= OCTET STRING
    My-Octet-String ::= OCTET STRING
    MyBitString ::= BIT STRING
    My-Bit-String ::= BIT STRING
    MyEnumerated ::= ENUMERATED {one, two, three}
    My-Enumerated ::= ENUMERATED {one, two, three}

    constant-Int INTEGER ::= 10
    constant-Bool BOOLEAN ::= TRUE
    constant-Octet-String-one OCTET STRING ::= 'DEAD'H
    constant-Octet-String-two OCTET STRING ::= '11110000'B
    constant-Bit-String-one BIT STRING ::= 'BEEF'H
    constant-Bit-String-two BIT STRING ::= '01010101'B

    my-constant-Int MyInt ::= 200
    my-constant-Int-Two My-Int ::= 12345
    my-constant-Bool MyBool ::= FALSE
    my-constant-Bool-Two My-Bool ::= TRUE
    my-constant-Octet-String-one MyOctetString ::= 'FEED'H
    my-constant-Octet-String-one-Two My-Octet-String ::= 'DEEF'H
    my-constant-Octet-String-two MyOctetString ::= '00001111'B
    my-constant-Octet-String-two-Two My-Octet-String ::= '11110000'B
    my-constant-Bit-String-one MyBitString ::= 'ABCD'H
    my-constant-Bit-String-one-Two My-Bit-String ::= 'DCBA'H
    my-constant-Bit-String-two MyBitString ::= '10101010'B
    my-constant-Bit-String-two-Two My-Bit-String ::= '01010101'B
END".

Example read_SimpleTypes : exists r, read_schema 300 text_SimpleTypes = Match r schema_SimpleTypes.
Proof. eexists. rewrite read_fast. vm_compute. reflexivity. Qed.

Definition text_Types_constrained : string :=
"SimpleTypes DEFINITIONS ::=
BEGIN
    MyInt1 ::= INTEGER (-5..-1)
    MyInt2 ::= INTEGER (-25..20000000, ...)
    MyInt3 ::= INTEGER (-25..MAX)
    MyInt4 ::= INTEGER (MIN..0)
    MyInt5 ::= INTEGER (MIN..maxNumber)
    MyOctetString1 ::= OCTET STRING (SIZE(1..4))
    MyOctetString2 ::= OCTET STRING (SIZE(0..30, ...))
    MyOctetString3 ::= OCTET STRING (SIZE(0..maxNumber, ...))
    MyBitString1 ::= BIT STRING (SIZE(10..100))
    MyBitString2 ::= BIT STRING (SIZE(100..10000, ...))
    MyBitString3 ::= BIT STRING (SIZE(0..maxNumber, ...))

    MySeqOf1 ::= SEQUENCE (SIZE(1..maxNumber)) OF OCTET STRING
    MySeqOf2 ::= SEQUENCE (SIZE(1..maxNumber, ...)) OF MyBitString1

    maxNumber INTEGER ::= 255
END".

Definition got_Types_constrained := Eval vm_compute in fast_schema 300 text_Types_constrained.
Example read_Types_constrained : exists r, got_Types_constrained = Match r schema_Types_constrained.
Proof. eexists. reflexivity. Qed.

Definition text_Types_containing_constrained_types : string :=
"TypesContainingConstrained DEFINITIONS ::=
BEGIN
    MySeq1 ::= SEQUENCE {
        my-Int1    INTEGER (minNumber..10, ...),
        my-Int2    INTEGER,
        myBitString1    BIT STRING (SIZE(0..maxNumber)),
        myOctetString1    OCTET STRING (SIZE(1..4)),
        ...
    }

    MySeq2 ::= SEQUENCE {
        myInt3    INTEGER,
        myOctetString2    OCTET STRING (SIZE(1..4, ...)),
        myInt4    INTEGER (MIN..1)
    }

    DataList ::= SEQUENCE (SIZE(1..10)) OF Data

    Data ::= SEQUENCE {
        i0    INTEGER (0..MAX),
        i1    OCTET STRING,
        ...,
        i2    OCTET STRING (SIZE(1..10))
    }

    MyChoice ::= CHOICE {
        c0    OCTET STRING (SIZE(0..maxNumber, ...)),
        c1    INTEGER,
        c-two    INTEGER (MIN..0),
        ...,
        c3    MyEnum,
        c4    BIT STRING (SIZE(0..20))
    }

    MyEnum ::= ENUMERATED {
        one,
        two,
        three,
        ...
    }

    minNumber INTEGER ::= -10
    maxNumber INTEGER ::= 255
END".

Definition got_Types_containing_constrained_types := Eval vm_compute in fast_schema 300 text_Types_containing_constrained_types.
Example read_Types_containing_constrained_types : exists r, got_Types_containing_constrained_types = Match r schema_Types_containing_constrained_types.
Proof. eexists. reflexivity. Qed.
