(* Property C62: every keyword of a schema text is read from the member of that name, and as what it says. *)
From Coq Require Import ZArith List String Bool.
From Verif Require Import Base Float64 Json Schema NodeFacts Util Codec CodecFacts CodecThm CodecProps Options PState Parse Api SpecText TextProps.
Import ListNotations.
Open Scope string_scope.
Open Scope Z_scope.

(* decodeNode models json.Unmarshal of a schema: it accepts exactly the texts that say something, and gives
   exactly what they say. *)
Theorem C62_reads : forall j n, decodeNode j = Some n <-> reads j n.
Proof. exact decode_reads. Qed.
Print Assumptions C62_reads.

(* What is written for a node says that node. *)
Theorem C62_written : forall n, (forall c, within n c -> writable c) -> reads (encodeNode n) n.
Proof. intros n H. apply decode_reads. apply encode_decode. exact H. Qed.
Print Assumptions C62_written.

(* ParseSchema refuses a text as a schema exactly when it says nothing, whatever the options. *)
Theorem C62_parse : forall W L fuel text o j, lbDecode L text = Some j ->
  (parseSchema W L fuel text o = Ok (Failed "schema") <-> forall n, ~ reads j n).
Proof.
  intros W L fuel text o j D. unfold parseSchema. rewrite D. destruct (decodeNode j) as [n|] eqn:E.
  - split; [|intros H; exfalso; apply (H n); apply decode_reads; exact E]. intros X. exfalso.
    match type of X with match ?a with _ => _ end = _ => destruct a end; [|discriminate X]. destruct (rootIds W _) as [rel rid]. destruct (negb _); [discriminate X|].
    destruct (parseDoc _ _ _ _ _) as [[r s]|w|]; discriminate X.
  - split; [|reflexivity]. intros _ n R. apply decode_reads in R. congruence.
Qed.
Print Assumptions C62_parse.

Example C62_case : exists n, reads codecDemo n /\ codecDemoFlags n = true.
Proof. destruct codecDemo_decodes as (n & A & B). exists n. split; [apply decode_reads; exact A|exact B]. Qed.
(* {"minLength": 1, "maxLength": 2, "required": ["a", null]} *)
Example C62_case_members : exists n, reads (JObj [("minLength", JInt 1); ("maxLength", JInt 2); ("required", JArr [JStr "a"; JNull])]) n /\
  sMinLength n = Some 1 /\ sMaxLength n = Some 2 /\ sRequired n = Some ["a"; ""].
Proof. eexists. split; [apply decode_reads; reflexivity|]. repeat split. Qed.
(* {"properties": {"a": {"minLength": "1"}}} and {"type": 3} *)
Example C62_case_refused : (forall n, ~ reads (JObj [("properties", JObj [("a", JObj [("minLength", JStr "1")])])]) n) /\
  (forall n, ~ reads (JObj [("type", JInt 3)]) n).
Proof. split; intros n R; apply decode_reads in R; discriminate R. Qed.
