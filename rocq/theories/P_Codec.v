(* Property C43: reading, writing and reading a schema. *)
From Coq Require Import ZArith List String Bool.
From Verif Require Import Base Float64 Json Schema NodeFacts Codec CodecFacts CodecThm CodecProps.
Import ListNotations.
Open Scope string_scope.
Open Scope Z_scope.

(* decodeNode and encodeNode model json.Unmarshal and json.Marshal of a schema *)
Theorem C43_reread_partial : forall j n, decodeNode j = Some n -> keepsText j -> decodeNode (encodeNode n) = Some n.
Proof. exact reread. Qed.
Print Assumptions C43_reread_partial.

(* const:null, items:false and additionalProperties:false are distinguished from absence *)
Example C43_case : keepsText codecDemo /\ exists n, decodeNode codecDemo = Some n /\ codecDemoFlags n = true.
Proof. split; [exact codecDemo_keeps | exact codecDemo_decodes]. Qed.

(* any node, decoded or built by the parser, whose fields have a written form *)
Theorem C43_encode_decode : forall n, (forall c, within n c -> writable c) -> decodeNode (encodeNode n) = Some n.
Proof. exact encode_decode. Qed.
Print Assumptions C43_encode_decode.

(* the full statement fails: an items array is written back as {} *)
Theorem C43_all_schemas_refuted : ~ (forall j n, decodeNode j = Some n -> decodeNode (encodeNode n) = Some n).
Proof. exact items_array_refutes. Qed.
Print Assumptions C43_all_schemas_refuted.
