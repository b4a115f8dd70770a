(* References in the fragment of C47: what a local reference names, when a reading of references agrees with
   the document, and the documents whose generated values are proved valid. *)
From Coq Require Import ZArith List String Ascii Bool.
From Verif Require Import Base Float64 Json Schema NodeFacts Options Gen PState Merge SpecMerge SpecNumber SpecSchema SpecRun SpecFragment SpecRef SpecRefs.
Import ListNotations.
Open Scope string_scope.
Open Scope Z_scope.

(* the schema that a reference names: the whole document or one of its definitions *)
Inductive names (root : schemaNode) : string -> schemaNode -> Prop :=
| names_root : names root "#" root
| names_def : forall kwd k c, In kwd ["$defs"; "definitions"] -> ~ In "010"%char (list_ascii_of_string k) ->
    down root (Named kwd k) = Some c -> names root ("#/" ++ kwd ++ "/" ++ k) c.

(* under this reading, a reference accepts what the schema it names accepts *)
Definition reads (matches formatted : string -> string -> Prop) (root : schemaNode) (refers : string -> json -> Prop) : Prop :=
  forall r t v, names root r t -> (refers r v <-> valid matches formatted refers t v).

(* a schema in which nothing is required not to be valid: then such a reading exists (C47_reading) *)
Definition positive (n : schemaNode) : Prop :=
  forall m, within n m -> sOneOf m = None /\ sNot m = None /\ sIf m = None /\ sMaxContains m = None.

Section Linked.
Variable PE : penv.
Variable GE : env.
Variable matches formatted : string -> string -> Prop.
Variable refers : string -> json -> Prop.
Variable root : schemaNode.

(* nothing but a reference to the document or to one of its definitions, and perhaps definitions *)
Definition bareRef (n : schemaNode) : Prop :=
  exists r t ds dd, n = set_sRef (Some r) (set_sDefs ds (set_sDefinitions dd emptyNode)) /\ names root r t.
(* n belongs to the fragment with references and is nested at most d levels deep *)
Fixpoint linked (d : nat) (n : schemaNode) : Prop :=
  match d with
  | O => False
  | S d' => bareRef n \/ simple PE GE matches formatted refers false (linked d') n
  end.
(* the document and its definitions belong to the fragment, and all its references are local ones *)
Definition linkedDocument (d : nat) : Prop :=
  linked d root /\
  (forall kwd k c, In kwd ["$defs"; "definitions"] -> down root (Named kwd k) = Some c ->
     linked d c /\ ~ In "010"%char (list_ascii_of_string k)) /\
  (forall p m r, addressed root p = Some m -> sRef m = Some r -> exists t, names root r t).
End Linked.
