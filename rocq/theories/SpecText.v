(* What a schema node read from a JSON text has to hold, keyword by keyword, stated without the decoder. *)
From Coq Require Import ZArith List String Bool.
From Flocq Require Import Core BinarySingleNaN.
From Verif Require Import Base Float64 Json Schema Util.
Import ListNotations.
Open Scope string_scope.
Open Scope Z_scope.

(* a member that may be missing; null counts as missing *)
Inductive optional {A : Type} (R : json -> A -> Prop) : option json -> option A -> Prop :=
| oMissing : optional R None None
| oNull : optional R (Some JNull) None
| oGiven : forall v a, v <> JNull -> R v a -> optional R (Some v) (Some a).

(* leaves: whole numbers of 64 bits, numbers a float64 can hold, strings, booleans *)
Definition wholeText (v : json) (z : Z) : Prop := v = JInt z /\ - 2 ^ 63 <= z < 2 ^ 63.
Definition numberText (v : json) (f : f64) : Prop := is_finite f = true /\ ((exists z, v = JInt z /\ f = fofZ z) \/ v = JFloat f).
Definition stringText (v : json) (s : string) : Prop := v = JStr s.
Definition boolText (v : json) (b : bool) : Prop := v = JBool b.
(* in a list of names null stands for the empty one *)
Definition nameText (v : json) (s : string) : Prop := v = JStr s \/ v = JNull /\ s = "".
Definition listText {A : Type} (R : json -> A -> Prop) (v : json) (l : list A) : Prop := exists vs, v = JArr vs /\ Forall2 R vs l.
Definition mapText {A : Type} (R : json -> A -> Prop) (v : json) (l : list (string * A)) : Prop :=
  exists vs, v = JObj vs /\ Forall2 (fun p q => fst p = fst q /\ R (snd p) (snd q)) vs l.
Definition typeText (v : json) (t : multipleType) : Prop :=
  (exists s, v = JStr s /\ t = mkMT s None) \/ (exists l, listText nameText v l /\ t = mkMT "" (Some l)).
(* values of enum and const: every number becomes a float64 *)
Inductive valueText : json -> json -> Prop :=
| vtNull : valueText JNull JNull
| vtBool : forall b, valueText (JBool b) (JBool b)
| vtStr : forall s, valueText (JStr s) (JStr s)
| vtNumber : forall v f, numberText v f -> valueText v (JFloat f)
| vtArr : forall l l', Forall2 valueText l l' -> valueText (JArr l) (JArr l')
| vtObj : forall m m', Forall2 (fun p q => fst p = fst q /\ valueText (snd p) (snd q)) m m' -> valueText (JObj m) (JObj m').
(* "const": null is a constant, not a missing one *)
Inductive constText : option json -> option json -> Prop :=
| ctMissing : constText None None
| ctGiven : forall v x, valueText v x -> constText (Some v) (Some x).
(* false, one schema, or a list of them *)
Inductive itemsText (R : json -> schemaNode -> Prop) : json -> itemsData schemaNode -> Prop :=
| itFalse : itemsText R (JBool false) (mkItems None None true)
| itOne : forall m c, R (JObj m) c -> itemsText R (JObj m) (mkItems (Some c) (Some []) false)
| itMany : forall l l', Forall2 R l l' -> itemsText R (JArr l) (mkItems (Some emptyNode) (Some l') false).
(* a boolean or a schema *)
Inductive restText (R : json -> schemaNode -> Prop) : json -> nodeOrFalse schemaNode -> Prop :=
| rtBool : forall b, restText R (JBool b) (mkNOF None (negb b))
| rtOne : forall m c, R (JObj m) c -> restText R (JObj m) (mkNOF (Some c) false).

(* the keywords of each kind *)
Definition wholes : list (string * (schemaNode -> option Z)) :=
  [("length", sLength); ("minProperties", sMinProperties); ("maxProperties", sMaxProperties); ("minLength", sMinLength); ("maxLength", sMaxLength);
   ("minItems", sMinItems); ("maxItems", sMaxItems); ("minContains", sMinContains); ("maxContains", sMaxContains)].
Definition numbers : list (string * (schemaNode -> option f64)) :=
  [("minimum", sMinimum); ("maximum", sMaximum); ("exclusiveMinimum", sExclusiveMinimum); ("exclusiveMaximum", sExclusiveMaximum); ("multipleOf", sMultipleOf)].
Definition strings : list (string * (schemaNode -> option string)) :=
  [("pattern", sPattern); ("format", sFormat); ("$ref", sRef); ("$id", sId)].
Definition schemas : list (string * (schemaNode -> option schemaNode)) :=
  [("contains", sContains); ("not", sNot); ("if", sIf); ("then", sThen); ("else", sElse)].
Definition schemaLists : list (string * (schemaNode -> option (list schemaNode))) :=
  [("prefixItems", sPrefixItems); ("allOf", sAllOf); ("anyOf", sAnyOf); ("oneOf", sOneOf)].
Definition schemaMaps : list (string * (schemaNode -> option (list (string * schemaNode)))) :=
  [("properties", sProperties); ("patternProperties", sPatternProperties); ("$defs", sDefs); ("definitions", sDefinitions)].
Definition rests : list (string * (schemaNode -> option (nodeOrFalse schemaNode))) :=
  [("additionalProperties", sAdditionalProperties); ("additionalItems", sAdditionalItems); ("unevaluatedItems", sUnevaluatedItems)].

(* n is what the text j says; null says nothing, and nothing but null and objects is a schema *)
Inductive reads : json -> schemaNode -> Prop :=
| readsNull : reads JNull emptyNode
| readsObject : forall m n,
    (forall k get, In (k, get) wholes -> optional wholeText (assoc k m) (get n)) ->
    (forall k get, In (k, get) numbers -> optional numberText (assoc k m) (get n)) ->
    (forall k get, In (k, get) strings -> optional stringText (assoc k m) (get n)) ->
    optional typeText (assoc "type" m) (sType n) ->
    optional (listText nameText) (assoc "required" m) (sRequired n) ->
    optional boolText (assoc "uniqueItems" m) (sUniqueItems n) ->
    optional (listText valueText) (assoc "enum" m) (sEnum n) ->
    constText (assoc "const" m) (sConst n) ->
    (exists o, optional (mapText (fun v l => v = JNull /\ l = [] \/ listText nameText v l)) (assoc "dependentRequired" m) o /\
       sDependentRequired n = match o with Some l => l | None => [] end) ->
    (forall k get, In (k, get) schemas -> optional reads (assoc k m) (get n)) ->
    (forall k get, In (k, get) schemaLists -> optional (fun v l => exists vs, v = JArr vs /\ Forall2 reads vs l) (assoc k m) (get n)) ->
    (forall k get, In (k, get) schemaMaps ->
       optional (fun v l => exists vs, v = JObj vs /\ Forall2 (fun p q => fst p = fst q /\ reads (snd p) (snd q)) vs l) (assoc k m) (get n)) ->
    (exists o, optional (fun v l => exists vs, v = JObj vs /\ Forall2 (fun p q => fst p = fst q /\ reads (snd p) (snd q)) vs l) (assoc "dependentSchemas" m) o /\
       sDependentSchemas n = match o with Some l => l | None => [] end) ->
    optional (itemsText reads) (assoc "items" m) (sItems n) ->
    (forall k get, In (k, get) rests -> optional (restText reads) (assoc k m) (get n)) ->
    sMergedIf n = [] -> sMergedNot n = [] -> sConstraints n = None ->
    reads (JObj m) n.
