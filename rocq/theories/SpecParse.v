(* Specification vocabulary for the parser: errors recorded by a step, entries of the reference table, and
   the schemas for which parsing is proved to end. *)
From Coq Require Import ZArith List String.
From Verif Require Import Base Schema NodeFacts Gen PState.
Import ListNotations.

(* between s and s' an error with this text was added to the recorded errors, at some document and path *)
Definition reports (s s' : pst) (tag : string) : Prop :=
  exists new doc path, pErrs s' = (new ++ pErrs s)%list /\ In ((doc, path), tag) new.

(* an error is recorded for this path of this document *)
Definition errorAt (s : pst) (doc path : string) : Prop := exists tag, In ((doc, path), tag) (pErrs s).
(* the generator a reference to this path of this document stands for *)
Definition target (refs : list (string * list (string * gen))) (doc path : string) : option gen :=
  match assoc doc refs with Some m => assoc path m | None => None end.

(* References occur only where a schema is used as it stands: below combinators, conditions, negations and
   contains there are none. *)
Inductive settles : schemaNode -> Prop :=
| settles_free : forall n, (forall m, within n m -> sRef m = None) -> settles n
| settles_ref : forall n r, sRef n = Some r -> settles n
| settles_plain : forall n,
    sAllOf n = None -> sAnyOf n = None -> sOneOf n = None -> sNot n = None -> sMergedNot n = [] -> sIf n = None -> sMergedIf n = [] ->
    sContains n = None ->
    (forall c, In c (omaps (sProperties n) ++ omaps (sPatternProperties n) ++ nofs (sAdditionalProperties n) ++ itemss (sItems n) ++
                     olist (sPrefixItems n) ++ nofs (sAdditionalItems n) ++ nofs (sUnevaluatedItems n)) -> settles c) ->
    settles n.
(* a document: its schema and its definitions *)
Definition documentSettles (n : schemaNode) : Prop :=
  settles n /\ (forall c, In c (omaps (sDefs n) ++ omaps (sDefinitions n)) -> settles c).
