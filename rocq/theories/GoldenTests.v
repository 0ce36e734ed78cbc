(** Tests of the generator model, not proofs of properties: for every schema that
    the test suite comes with a Python module for, the model writes that module,
    byte for byte (test/parsing/asn1_schemas, test/parsing/asn1_python_code; the
    terms of GoldenVectors.v are written by tools/goldens.py).  And the model of
    Python gives the classes of SimpleProtocol.py the types that ModelTests.v states
    by hand. *)
From Coq Require Import ZArith List String.
Import ListNotations.
From Verif Require Import PyBase Schema Generator Emit Exec GoldenVectors.
From Verif Require ModelTests.

Open Scope string_scope.
Open Scope list_scope.

Definition output (l : list ptype) : res string :=
  let* s := emit l in Ok (module_text s).
Example golden_Choice_Simple : output schema_Choice_Simple = Ok module_Choice_Simple.
Proof. vm_compute. reflexivity. Qed.

Example golden_ComponentTypes : output schema_ComponentTypes = Ok module_ComponentTypes.
Proof. vm_compute. reflexivity. Qed.

Example golden_ComponentTypes_containing_ComponentTypes : output schema_ComponentTypes_containing_ComponentTypes = Ok module_ComponentTypes_containing_ComponentTypes.
Proof. vm_compute. reflexivity. Qed.

Example golden_ComponentTypes_extensionAddition : output schema_ComponentTypes_extensionAddition = Ok module_ComponentTypes_extensionAddition.
Proof. vm_compute. reflexivity. Qed.

Example golden_ComponentTypes_extensionAdditionGroup : output schema_ComponentTypes_extensionAdditionGroup = Ok module_ComponentTypes_extensionAdditionGroup.
Proof. vm_compute. reflexivity. Qed.

Example golden_ComponentTypes_extensionMarker : output schema_ComponentTypes_extensionMarker = Ok module_ComponentTypes_extensionMarker.
Proof. vm_compute. reflexivity. Qed.

Example golden_DefinedType_Simple : output schema_DefinedType_Simple = Ok module_DefinedType_Simple.
Proof. vm_compute. reflexivity. Qed.

Example golden_Sequence_Default : output schema_Sequence_Default = Ok module_Sequence_Default.
Proof. vm_compute. reflexivity. Qed.

Example golden_Sequence_Mixed : output schema_Sequence_Mixed = Ok module_Sequence_Mixed.
Proof. vm_compute. reflexivity. Qed.

Example golden_Sequence_Simple : output schema_Sequence_Simple = Ok module_Sequence_Simple.
Proof. vm_compute. reflexivity. Qed.

Example golden_SimpleProtocol : output schema_SimpleProtocol = Ok module_SimpleProtocol.
Proof. vm_compute. reflexivity. Qed.

Example golden_SimpleTypes : output schema_SimpleTypes = Ok module_SimpleTypes.
Proof. vm_compute. reflexivity. Qed.

Example golden_Types_constrained : output schema_Types_constrained = Ok module_Types_constrained.
Proof. vm_compute. reflexivity. Qed.

Example golden_Types_containing_constrained_types : output schema_Types_containing_constrained_types = Ok module_Types_containing_constrained_types.
Proof. vm_compute. reflexivity. Qed.


(** Importing the module of a schema, and the type of one of its classes. *)
Definition type_of (l : list ptype) (n : string) : res ty :=
  let* s := emit l in
  let* g := run s in
  match lookup n g with Some (OClass k attrs) => class_ty k attrs | _ => Err PyNameError end.

Example golden_types :
  type_of schema_SimpleProtocol "SimpleMessage" = Ok ModelTests.simple /\
  type_of schema_SimpleProtocol "Data" = Ok ModelTests.data /\
  type_of schema_SimpleProtocol "Port" = Ok ModelTests.port.
Proof. repeat split; vm_compute; reflexivity. Qed.
