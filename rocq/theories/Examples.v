(** A schema and a value that exercise every feature, used as the concrete
    cases beside the theorems about generated code. *)
From Coq Require Import String.
From Verif Require Import Base Reader PackedFixed Schema Gen GenSem GenSpec GenCheck GenRecords.
Import StringSyntax.
Local Open Scope string_scope.

Local Open Scope Z_scope.
Definition cfg0 : config := mkConfig false false false false.
Definition fld (n : text) (q : frequency) (t : field_type) (num : Z) (packed : option bool) (boxed : bool) : field :=
  mkField n q t num None packed boxed false.
Definition msg_of (n : text) (fs : list field) (os : list oneof) (i : midx) : message :=
  mkMessage n fs os None None false ""%string [] [] ""%string i.

(** {v
syntax = "proto3";
enum Color { RED = 0; GREEN = 1; DARK = -5; }
message Outer {
  string name = 1;
  Inner inner = 2;
  repeated Inner inners = 3;
  repeated fixed32 pf = 4;            // packed
  repeated sint64 ps = 5;             // packed
  map<string, Inner> mp = 6;
  oneof choice { int64 a = 7; Outer o = 8; }
  optional Outer self = 9;
  Color color = 16;
  repeated string tags = 2000;
}
message Inner { int32 id = 1; float f = 2; }
    v} *)
Definition exOuter : message := msg_of "Outer"
  [ fld "name" P3Default TStringCow 1 None false;
    fld "inner" P3Default (TMessage [1%nat]) 2 None false;
    fld "inners" P3Repeated (TMessage [1%nat]) 3 (Some false) false;
    fld "pf" P3Repeated TFixed32 4 (Some true) false;
    fld "ps" P3Repeated TSint64 5 (Some true) false;
    fld "mp" P3Map (TMap TStringCow (TMessage [1%nat])) 6 None false;
    fld "self" P3Optional (TMessage [0%nat]) 9 None true;
    fld "color" P3Default (TEnum (mkEidx [] 0)) 16 None false;
    fld "tags" P3Repeated TStringCow 2000 (Some false) false ]
  [ mkOneof "choice" [ fld "a" P3Optional TInt64 7 None false;
                       fld "o" P3Optional (TMessage [0%nat]) 8 None true ] "" "" false ] [0%nat].
Definition exInner : message := msg_of "Inner"
  [ fld "id" P3Default TInt32 1 None false; fld "f" P3Default TFloat 2 None false ] [] [1%nat].
Definition exD : file_descriptor :=
  mkDesc "" Proto3 [exOuter; exInner]
    [mkEnum "Color" [("RED"%string, 0); ("GREEN"%string, 1); ("DARK"%string, -5)] false "" ""] "".
Definition nolit (_ : field_type) (_ : text) : option value := None.

Lemma exD_wf : schema_wf exD cfg0 nolit.
Proof. apply schema_wfb_sound. vm_compute. reflexivity. Qed.
Lemma exD_packed : schema_packed_ok exD cfg0.
Proof. apply schema_packed_okb_sound. vm_compute. reflexivity. Qed.

(** a leaf: everything default except the color *)
Definition exLeaf : list slot :=
  [ SlOne (VB []); SlOne (VMsg [SlOne (VZ 0); SlOne (VZ 0)]); SlVec []; SlPF NoDataYet; SlVec []; SlMap [];
    SlNone; SlOne (VZ (-5)); SlVec []; SlOneofNone ].
Definition exVal : list slot :=
  [ SlOne (VB [x68; xc3; xa9]);
    SlOne (VMsg [SlOne (VZ (-1)); SlOne (VZ 0x3f800000)]);
    SlVec [VMsg [SlOne (VZ 0); SlOne (VZ 0)]; VMsg [SlOne (VZ 7); SlOne (VZ 0)]];
    SlPF (Owned [1; 2 ^ 32 - 1]);
    SlVec [VZ (-3); VZ (2 ^ 63 - 1)];
    SlMap [(VB [x6b], VMsg [SlOne (VZ 300); SlOne (VZ 0)]); (VB [], VMsg [SlOne (VZ 0); SlOne (VZ 0)])];
    SlSome (VMsg exLeaf);
    SlOne (VZ 1);
    SlVec [VB []; VB [x61]];
    SlOneof 1 (VMsg exLeaf) ].
(** the same with the defaults of the decoder *)
Definition exBack : list slot := canon_message exD cfg0 nolit [0%nat] exVal.
